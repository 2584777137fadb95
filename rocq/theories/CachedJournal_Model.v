(** Model of Splinter/src/implementation/CachedJournal_v.rs (a journal that keeps
    only a pointer, an index and the unmarshalled tail in memory, its pages being
    in the cache) and JournalCoordinationSystem_v.rs (that journal over the page
    cache and the disk). Definitions only. *)
From Verif Require Export AllocJournal_Model Cache_Model.
Open Scope nat_scope.

(** JournalCoordinationSystem_v.rs 25-33: the two functions are uninterpreted
    there; here they are an explicit parameter. [record_fits] are the records the
    journal may write into one page. In the code these are all records; no encoding
    in pages of a fixed size can serve them all (C27). *)
Class PageCodec := {
  record_to_raw_page : JournalRecord → RawPage;
  raw_page_to_record : RawPage → JournalRecord;
  record_fits : JournalRecord → Prop }.
(** JournalCoordinationSystem_v.rs 35-39: assumed there without proof, for all
    records; for those that fit, a hypothesis of the theorems here. *)
Definition codec_round_trip (C : PageCodec) : Prop :=
  ∀ r, record_fits r → raw_page_to_record (record_to_raw_page r) = r.

(** CachedJournal_v.rs 80-83 *)
Record JournalSnapShot := mkSnap { snap_boundary : LSN; snap_freshest : Pointer }.

Module CachedJournal.
  (** 25-28 *)
  Definition addr_to_lsns (idx : gmap LSN Address) (a : Address) (bdy : LSN) : gset LSN :=
    dom (filter (λ kv, bdy ≤ kv.1 ∧ kv.2 = a) idx).
  (** 31-42: Rust removes elements one after the other; here a fold over the
      elements. Only used on non-empty sets. *)
  Definition min_lsn (X : gset LSN) : LSN :=
    match elements X with [] => 0 | e :: es => foldr min e es end.
  (** 58-78. Rust recurses on [curr_end]; here on fuel, one more than [curr_end]
      always being enough as [start_lsn < curr_end]. *)
  Fixpoint build_from_reads_fuel (fuel : nat) (reads : gmap Address JournalRecord) (bdy : LSN) (root : Pointer)
      (curr_end : LSN) : gmap LSN Address :=
    match fuel, root with
    | S n, Some a =>
        match reads !! a with
        | Some r =>
            let start_lsn := bdy `max` seq_start (message_seq r) in
            let update := singleton_index start_lsn (seq_end (message_seq r)) a in
            if decide (start_lsn < curr_end)
            then update ∪ build_from_reads_fuel n reads bdy (Linked.cropped_prior r bdy) start_lsn
            else ∅
        | None => ∅
        end
    | _, _ => ∅
    end.
  (** 58-78 *)
  Definition build_lsn_addr_index_from_reads (reads : gmap Address JournalRecord) (bdy : LSN) (root : Pointer)
      (curr_end : LSN) : gmap LSN Address :=
    build_from_reads_fuel (S curr_end) reads bdy root curr_end.

  (** 86-91 *)
  Record State := mkState {
    boundary_lsn : LSN;
    freshest_rec : Pointer;
    unmarshalled_tail : MsgHistory;
    lsn_addr_index : gmap LSN Address }.
  (** 100-103 *)
  Definition seq_start (s : State) : LSN := boundary_lsn s.
  (** 105-108 *)
  Definition marshalled_seq_end (s : State) : LSN := Abs_Model.seq_start (unmarshalled_tail s).
  (** 110-113 *)
  Definition seq_end (s : State) : LSN := Abs_Model.seq_end (unmarshalled_tail s).
  (** 120-129 *)
  Inductive Label :=
    | ReadForRecovery (messages : MsgHistory) (reads : gmap Address JournalRecord)
    | FreezeForCommit (frozen : JournalSnapShot) (frozen_domain : gset Address) (reads : gmap Address JournalRecord)
    | QueryEndLsn (end_lsn : LSN)
    | Put (messages : MsgHistory)
    | DiscardOld (start_lsn require_end : LSN) (discard_addrs : gset Address)
    | JournalMarshal (writes : gmap Address JournalRecord)
    | Internal.

  (** 247-262 *)
  Definition next_index (s : State) (ptr : Pointer) : Pointer :=
    match ptr with
    | None => None
    | Some a =>
        let lsns := addr_to_lsns (lsn_addr_index s) a (boundary_lsn s) in
        if decide (lsns = ∅) then None
        else
          let m := min_lsn lsns in
          if decide (0 < m ∧ boundary_lsn s ≤ m - 1) then lsn_addr_index s !! (m - 1) else None
    end.
  (** 264-271 *)
  Fixpoint can_crop_index (s : State) (root : Pointer) (depth : nat) : Prop :=
    match depth with
    | 0 => True
    | S d => is_Some root ∧ can_crop_index s (next_index s root) d
    end.
  (** 273-281 *)
  Fixpoint pointer_after_crop_index (s : State) (root : Pointer) (depth : nat) : Pointer :=
    match depth with
    | 0 => root
    | S d => pointer_after_crop_index s (next_index s root) d
    end.

  (** 136-143 *)
  Definition read_for_recovery (pre post : State) (l : Label) (depth : nat) : Prop :=
    ∃ messages reads, l = ReadForRecovery messages reads ∧
      can_crop_index pre (freshest_rec pre) depth ∧
      ∃ a r, pointer_after_crop_index pre (freshest_rec pre) depth = Some a ∧ reads !! a = Some r ∧
        messages = maybe_discard_old (message_seq r) (boundary_lsn pre) ∧ post = pre.
  (** 154: [reads] at the new head, which is read when there is one *)
  Definition frozen_seq_end (s : State) (reads : gmap Address JournalRecord) (ptr : Pointer) : LSN :=
    match ptr with
    | None => boundary_lsn s
    | Some a => match reads !! a with Some r => Abs_Model.seq_end (message_seq r) | None => 0 end
    end.
  (** 145-160 *)
  Definition freeze_for_commit (pre post : State) (l : Label) (depth : nat) : Prop :=
    ∃ frozen frozen_domain reads, l = FreezeForCommit frozen frozen_domain reads ∧
      seq_start pre ≤ snap_boundary frozen ∧
      can_crop_index pre (freshest_rec pre) depth ∧
      let ptr := pointer_after_crop_index pre (freshest_rec pre) depth in
      ptr = snap_freshest frozen ∧
      (∀ a, ptr = Some a → is_Some (reads !! a)) ∧
      let fend := frozen_seq_end pre reads ptr in
      snap_boundary frozen ≤ fend ∧
      (is_Some ptr → snap_boundary frozen < fend) ∧
      frozen_domain = values (index_range (lsn_addr_index pre) (snap_boundary frozen) fend) ∧
      post = pre.
  (** 162-165 *)
  Definition query_end_lsn (pre post : State) (l : Label) : Prop :=
    l = QueryEndLsn (seq_end pre) ∧ post = pre.
  (** 167-172 *)
  Definition put (pre post : State) (l : Label) : Prop :=
    ∃ messages, l = Put messages ∧ mh_wf messages ∧ Abs_Model.seq_start messages = seq_end pre ∧
      post = mkState (boundary_lsn pre) (freshest_rec pre) (mh_concat (unmarshalled_tail pre) messages)
                     (lsn_addr_index pre).
  (** 174-186. The code has [whole_end = false]: the end it compares is that of the
      marshalled part. [whole_end = true] is a repair: the end of the journal, as
      in LikesJournal_v.rs 706 and AbstractJournal_v.rs 92. *)
  Definition discard_old (whole_end : bool) (pre post : State) (l : Label) : Prop :=
    ∃ start_lsn require_end discard_addrs, l = DiscardOld start_lsn require_end discard_addrs ∧
      require_end = (if whole_end then seq_end pre else marshalled_seq_end pre) ∧
      seq_start pre ≤ start_lsn ≤ marshalled_seq_end pre ∧
      let new_index := index_discard_up_to (lsn_addr_index pre) start_lsn in
      discard_addrs = values (lsn_addr_index pre) ∖ values new_index ∧
      post = mkState start_lsn
                     (if decide (start_lsn = marshalled_seq_end pre) then None else freshest_rec pre)
                     (unmarshalled_tail pre) new_index.
  (** 188-202 *)
  Definition internal_journal_marshal (pre post : State) (l : Label) (cut : LSN) (a : Address) : Prop :=
    ∃ writes, l = JournalMarshal writes ∧
      a ∉ values (lsn_addr_index pre) ∧
      marshalled_seq_end pre < cut ∧ can_discard_to (unmarshalled_tail pre) cut ∧
      let marshalled_msgs := discard_recent (unmarshalled_tail pre) cut in
      writes = {[a := mkRec marshalled_msgs (freshest_rec pre)]} ∧
      post = mkState (boundary_lsn pre) (Some a) (Abs_Model.discard_old (unmarshalled_tail pre) cut)
                     (index_append_record (lsn_addr_index pre) marshalled_msgs a).
  (** 205-221 *)
  Definition initialize (s : State) (reads : gmap Address JournalRecord) (snap : JournalSnapShot) : Prop :=
    ∃ e, match snap_freshest snap with
         | None => e = snap_boundary snap
         | Some a => ∃ r, reads !! a = Some r ∧ e = Abs_Model.seq_end (message_seq r) ∧ snap_boundary snap ≤ e
         end ∧
      s = mkState (snap_boundary snap) (snap_freshest snap) (empty_history_at e)
            (build_lsn_addr_index_from_reads reads (snap_boundary snap) (snap_freshest snap) e).
  (** The transitions of the state machine (85-244). *)
  Definition next (whole_end : bool) (pre post : State) (l : Label) : Prop :=
    (∃ depth, read_for_recovery pre post l depth) ∨ (∃ depth, freeze_for_commit pre post l depth) ∨
    query_end_lsn pre post l ∨ put pre post l ∨ discard_old whole_end pre post l ∨
    (∃ cut a, internal_journal_marshal pre post l cut a).
End CachedJournal.

Module JournalSys.
  (** JournalCoordinationSystem_v.rs 142-146; the cache and the disk are kept
      together, as in the model of the cache. *)
  Record State := mkState { journal : CachedJournal.State; store : CacheSys.State }.
  (** 149-156 *)
  Inductive Label :=
    | ReadForRecovery (messages : MsgHistory)
    | FreezeForCommit (frozen : JournalSnapShot)
    | QueryEndLsn (end_lsn : LSN)
    | Put (messages : MsgHistory)
    | DiscardOld (start_lsn require_end : LSN)
    | Internal.
  Section JournalSys.
    (** [strict] is the repair of the cache (Cache_Model.v). [put_stored] is a repair
        of [put] and [whole_end] one of [discard_old]; the code has [false] thrice. *)
    Context `{Geometry} (C : PageCodec) (strict put_stored whole_end : bool).
    (** 41-47 *)
    Definition to_journal_reads (reads : gmap Address RawPage) : gmap Address JournalRecord :=
      raw_page_to_record <$> reads.
    (** 49-55 *)
    Definition to_cache_writes (writes : gmap Address JournalRecord) : gmap Address RawPage :=
      record_to_raw_page <$> writes.
    (** 158-166 *)
    Definition read_for_recovery (pre post : State) (l : Label) : Prop :=
      ∃ messages reads, l = ReadForRecovery messages ∧
        CacheSys.access strict (store pre) (store pre) (CacheSys.Access reads ∅) ∧
        CachedJournal.next whole_end (journal pre) (journal pre)
          (CachedJournal.ReadForRecovery messages (to_journal_reads reads)) ∧
        post = pre.
    (** 168-182 *)
    Definition freeze_for_commit (pre post : State) (l : Label) : Prop :=
      ∃ frozen frozen_domain reads, l = FreezeForCommit frozen ∧
        CacheSys.access strict (store pre) (store pre) (CacheSys.Access reads ∅) ∧
        CacheSys.evictable_check strict (store pre) (store pre) (CacheSys.EvictableCheck frozen_domain) ∧
        CachedJournal.next whole_end (journal pre) (journal pre)
          (CachedJournal.FreezeForCommit frozen frozen_domain (to_journal_reads reads)) ∧
        post = pre.
    (** 184-188 *)
    Definition query_end_lsn (pre post : State) (l : Label) : Prop :=
      ∃ n, l = QueryEndLsn n ∧
        CachedJournal.next whole_end (journal pre) (journal pre) (CachedJournal.QueryEndLsn n) ∧ post = pre.
    (** 190-194. The code has [put_stored = false]: it asks for a step of the journal
        that leaves the journal as it was. The repair stores the new journal. *)
    Definition put (pre post : State) (l : Label) : Prop :=
      ∃ messages new_journal, l = Put messages ∧
        CachedJournal.next whole_end (journal pre) new_journal (CachedJournal.Put messages) ∧
        (put_stored = false → new_journal = journal pre) ∧
        post = mkState new_journal (store pre).
    (** 196-212 *)
    Definition discard_old (pre post : State) (l : Label) : Prop :=
      ∃ start_lsn require_end new_journal discard_addrs, l = DiscardOld start_lsn require_end ∧
        CachedJournal.next whole_end (journal pre) new_journal
          (CachedJournal.DiscardOld start_lsn require_end discard_addrs) ∧
        CacheSys.evictable_check strict (store pre) (store pre) (CacheSys.EvictableCheck discard_addrs) ∧
        post = mkState new_journal (store pre).
    (** 215-226. That the record fits is not in the code (see [PageCodec]); with
        [record_fits] always true this is the code's transition. *)
    Definition journal_marshal (pre post : State) (l : Label) : Prop :=
      l = Internal ∧ ∃ new_journal new_store a r, record_fits r ∧
        CachedJournal.next whole_end (journal pre) new_journal (CachedJournal.JournalMarshal {[a := r]}) ∧
        CacheSys.access strict (store pre) new_store (CacheSys.Access ∅ (to_cache_writes {[a := r]})) ∧
        post = mkState new_journal new_store.
    (** 228-239 *)
    Definition cache_disk_ops (pre post : State) (l : Label) : Prop :=
      l = Internal ∧ ∃ new_store, CacheSys.cache_disk_ops strict (store pre) new_store CacheSys.Internal ∧
        post = mkState (journal pre) new_store.
    (** 241-245 *)
    Definition cache_internal (pre post : State) (l : Label) : Prop :=
      l = Internal ∧ ∃ new_store, CacheSys.cache_internal strict (store pre) new_store CacheSys.Internal ∧
        post = mkState (journal pre) new_store.
    (** 247-251 *)
    Definition disk_internal (pre post : State) (l : Label) : Prop :=
      l = Internal ∧ ∃ new_store, CacheSys.disk_internal (store pre) new_store CacheSys.Internal ∧
        post = mkState (journal pre) new_store.
    (** The transitions listed above. *)
    (** [next], which the state_machine! macro generates from the transitions of JournalCoordinationSystem_v.rs 141-733. *)
    Definition next (pre post : State) (l : Label) : Prop :=
      read_for_recovery pre post l ∨ freeze_for_commit pre post l ∨ query_end_lsn pre post l ∨
      put pre post l ∨ discard_old pre post l ∨ journal_marshal pre post l ∨
      cache_disk_ops pre post l ∨ cache_internal pre post l ∨ disk_internal pre post l.

    (** 64-69 with 328: a page whose copy in the cache is newer than the disk's, and
        that copy *)
    Definition dirty_page (c : Cache.State) (k : Slot) : option RawPage :=
      match Cache.status_map c !! k, Cache.entries c !! k with
      | Some Dirty, Some (Filled _ d) | Some Writeback, Some (Filled _ d) => Some d
      | _, _ => None
      end.
    (** 64-69, 114-117 *)
    Definition dirty_pages_bounded_by_journal_index (c : Cache.State) (idx : gmap LSN Address) : Prop :=
      ∀ a k, Cache.lookup_map c !! a = Some k →
        (Cache.status_map c !! k = Some Writeback ∨ Cache.status_map c !! k = Some Dirty) →
        a ∈ values idx.
    (** 253-263 *)
    Definition tj_from_reads_and_snapshot (snap : JournalSnapShot) (reads : gmap Address RawPage) : TruncatedJournal :=
      mkTJ (snap_freshest snap) (mkDV (snap_boundary snap) (to_journal_reads reads)).
    (** 266-295, on a store that is handed to us. The code asks of it the invariants
        of the cache and of the disk and that they agree (271-272, 280-281). One of
        them, the invariant of the cache, does not hold of every reachable cache
        (C26); in its place the theorems take a store that the cache and the disk
        can reach, which is not repeated here. *)
    Definition initialize (s : State) (st : CacheSys.State) (snap : JournalSnapShot)
        (reads : gmap Address RawPage) : Prop :=
      store s = st ∧
      CacheSys.access strict st st (CacheSys.Access reads ∅) ∧
      CachedJournal.initialize (journal s) (to_journal_reads reads) snap ∧
      dirty_pages_bounded_by_journal_index (CacheSys.cache st) (CachedJournal.lsn_addr_index (journal s)) ∧
      Linked.tj_decodable (tj_from_reads_and_snapshot snap reads) ∧
      dom reads ⊆ dom (AsyncDisk.content (CacheSys.disk st)) ∧
      dom reads = values (CachedJournal.lsn_addr_index (journal s)).

    (** 315-322 *)
    Definition persistent_journal_disk (s : State) : gmap Address JournalRecord :=
      raw_page_to_record <$>
        filter (λ kv, kv.1 ∈ values (CachedJournal.lsn_addr_index (journal s)))
               (AsyncDisk.content (CacheSys.disk (store s))).
    (** 324-330 *)
    Definition dirty_journal_cache (s : State) : gmap Address JournalRecord :=
      omap (λ k, raw_page_to_record <$> dirty_page (CacheSys.cache (store s)) k)
           (Cache.lookup_map (CacheSys.cache (store s))).
    (** 334-340; [union_prefer_right] is std++ union with the arguments swapped. *)
    Definition ephemeral_disk (s : State) : DiskView :=
      mkDV (CachedJournal.boundary_lsn (journal s)) (dirty_journal_cache s ∪ persistent_journal_disk s).
    (** 342-345 *)
    Definition ephemeral_tj (s : State) : TruncatedJournal :=
      mkTJ (CachedJournal.freshest_rec (journal s)) (ephemeral_disk s).
    (** 348-354 *)
    Definition valid_journal_structure (s : State) : Prop :=
      Linked.tj_decodable (ephemeral_tj s) ∧
      Linked.tj_seq_end (ephemeral_tj s) = CachedJournal.marshalled_seq_end (journal s) ∧
      CachedJournal.lsn_addr_index (journal s) = Likes.build_lsn_addr_index (ephemeral_tj s) ∧
      values (CachedJournal.lsn_addr_index (journal s)) = dom (entries (disk_view (ephemeral_tj s))).
    (** JournalCoordinationRefinement_v.rs 27-36 *)
    Definition i (s : State) : Likes.State :=
      Likes.mkState (Linked.mkState (ephemeral_tj s) (CachedJournal.unmarshalled_tail (journal s)))
                    (CachedJournal.lsn_addr_index (journal s)).
  End JournalSys.
End JournalSys.
