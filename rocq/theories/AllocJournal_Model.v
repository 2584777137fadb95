(** Model of Splinter/src/allocation_layer/LikesJournal_v.rs (and of its copy
    implementation/JournalModel_v.rs, which has the same transitions),
    MiniAllocator_v.rs and AllocationJournal_v.rs. Definitions only. *)
From Verif Require Export Journal_Model.

(** vstd [Map::values]. *)
(** A vstd function: no counterpart in /repo. *)
Definition values {V} `{Countable V} (m : gmap nat V) : gset V :=
  list_to_set (snd <$> map_to_list m).

(** The LSN index of both layers: LikesJournal_v.rs 23 ([V = Address]),
    AllocationJournal_v.rs 57 ([V = AU]). *)
Section Index.
  Context {V : Type} `{Countable V}.
  (** LikesJournal_v.rs 31-36, AllocationJournal_v.rs 60-66 *)
  Definition index_discard_up_to (idx : gmap LSN V) (bdy : LSN) : gmap LSN V :=
    filter (λ kv, bdy ≤ kv.1) idx.
  (** LikesJournal_v.rs 48-51, AllocationJournal_v.rs 80-83 *)
  Definition singleton_index (start fin : LSN) (v : V) : gmap LSN V :=
    list_to_map ((λ x, (x, v)) <$> seq start (fin - start)).
  (** LikesJournal_v.rs 53-60, AllocationJournal_v.rs 86-103; [union_prefer_right]
      is std++ union with the arguments swapped. *)
  Definition index_append_record (idx : gmap LSN V) (m : MsgHistory) (v : V) : gmap LSN V :=
    singleton_index (seq_start m) (seq_end m) v ∪ idx.
  (** [Map::restrict] to the LSNs in [lo, hi). *)
  (** A vstd function: no counterpart in /repo. *)
  Definition index_range (idx : gmap LSN V) (lo hi : LSN) : gmap LSN V :=
    filter (λ kv, lo ≤ kv.1 < hi) idx.
End Index.

(** LikesJournal_v.rs 494-503 *)
Definition discard_old_cond (tj : TruncatedJournal) (start_lsn : LSN) (keep_addrs : gset Address)
    (new : TruncatedJournal) : Prop :=
  Linked.tj_wf new ∧ boundary_lsn (disk_view new) = start_lsn ∧
  entries (disk_view new) ⊆ entries (disk_view tj) ∧
  keep_addrs ⊆ dom (entries (disk_view new)) ∧
  freshest_rec new = if decide (Linked.tj_seq_end tj = start_lsn) then None else freshest_rec tj.

(** ** LikesJournal *)
Module Likes.
  (** 100-118; Rust recurses on rank, here on fuel (as [Linked.build_tight_fuel]). *)
  Fixpoint build_index_fuel (fuel : nat) (dv : DiskView) (root : Pointer) : gmap LSN Address :=
    match root, fuel with
    | Some a, S n =>
        match entries dv !! a with
        | Some r =>
            singleton_index (boundary_lsn dv `max` seq_start (message_seq r)) (seq_end (message_seq r)) a
            ∪ build_index_fuel n dv (Linked.dv_next dv root)
        | None => ∅
        end
    | _, _ => ∅
    end.
  (** 473-477 *)
  Definition build_lsn_addr_index (tj : TruncatedJournal) : gmap LSN Address :=
    build_index_fuel (Linked.fuel_of (disk_view tj)) (disk_view tj) (freshest_rec tj).

  (** 623-626 *)
  Record State := mkState { journal : Linked.State; lsn_addr_index : gmap LSN Address }.
  (** 628-636, 643-658: the labels are those of LinkedJournal. *)
  Notation Label := Linked.Label (only parsing).
  (** [self.journal.truncated_journal], as in LikesJournal_v.rs 622-819. *)
  Definition tj (s : State) : TruncatedJournal := Linked.truncated_journal (journal s).
  (** 664-667 *)
  Definition read_for_recovery (pre post : State) (l : Label) : Prop :=
    (∃ m, l = Linked.ReadForRecovery m) ∧ Linked.next (journal pre) (journal pre) l ∧ post = pre.
  (** 669-689 *)
  Definition freeze_for_commit (pre post : State) (l : Label) (depth : nat) : Prop :=
    ∃ fj, l = Linked.FreezeForCommit fj ∧
      let new_bdy := Linked.tj_seq_start fj in
      Linked.tj_decodable fj ∧
      Linked.dv_can_crop (disk_view (tj pre)) (freshest_rec (tj pre)) depth ∧
      boundary_lsn (disk_view (tj pre)) ≤ new_bdy ∧
      let cropped := Linked.tj_crop (tj pre) depth in
      Linked.tj_can_discard_to cropped new_bdy ∧
      let post_discard := Linked.tj_discard_old cropped new_bdy in
      let frozen_index := index_range (lsn_addr_index pre) new_bdy (Linked.tj_seq_end post_discard) in
      discard_old_cond cropped new_bdy (values frozen_index) fj ∧
      post = pre.
  (** 691-694 *)
  Definition query_end_lsn (pre post : State) (l : Label) : Prop :=
    (∃ n, l = Linked.QueryEndLsn n) ∧ Linked.next (journal pre) (journal pre) l ∧ post = pre.
  (** 696-700 *)
  Definition put (pre post : State) (l : Label) (new_journal : Linked.State) : Prop :=
    (∃ m, l = Linked.Put m) ∧ Linked.next (journal pre) new_journal l ∧
    post = mkState new_journal (lsn_addr_index pre).
  (** 702-722 *)
  Definition discard_old (pre post : State) (l : Label) (new_journal : Linked.State) : Prop :=
    ∃ start_lsn require_end, l = Linked.DiscardOld start_lsn require_end ∧
      require_end = Linked.st_end (journal pre) ∧
      Linked.tj_can_discard_to (tj pre) start_lsn ∧
      let index_post := index_discard_up_to (lsn_addr_index pre) start_lsn in
      discard_old_cond (tj pre) start_lsn (values index_post) (Linked.truncated_journal new_journal) ∧
      Linked.unmarshalled_tail new_journal =
        Linked.bounded_discard (Linked.unmarshalled_tail (journal pre)) start_lsn ∧
      post = mkState new_journal index_post.
  (** 724-734 *)
  Definition internal_journal_marshal (pre post : State) (l : Label) (cut : LSN) (a : Address)
      (new_journal : Linked.State) : Prop :=
    l = Linked.Internal ∧ Linked.internal_journal_marshal (journal pre) new_journal l cut a ∧
    post = mkState new_journal
      (index_append_record (lsn_addr_index pre)
        (discard_recent (Linked.unmarshalled_tail (journal pre)) cut) a).
  (** 736-738 *)
  Definition internal_no_op (pre post : State) (l : Label) : Prop := l = Linked.Internal ∧ post = pre.
  (** 744-751 *)
  Definition initialize (s : State) (ij : TruncatedJournal) : Prop :=
    Linked.tj_decodable ij ∧
    s = mkState (Linked.mkState ij (empty_history_at (Linked.tj_seq_end ij))) (build_lsn_addr_index ij).
  (** [next], which the state_machine! macro generates from the transitions of LikesJournal_v.rs 622-819. *)
  Definition next (pre post : State) (l : Label) : Prop :=
    read_for_recovery pre post l ∨
    (∃ depth, freeze_for_commit pre post l depth) ∨
    query_end_lsn pre post l ∨
    (∃ nj, put pre post l nj) ∨
    (∃ nj, discard_old pre post l nj) ∨
    (∃ cut a nj, internal_journal_marshal pre post l cut a nj) ∨
    internal_no_op pre post l.
End Likes.

(** ** MiniAllocator (MiniAllocator_v.rs) *)
(** 12-16 *)
Record PageAllocator := mkPA { observed : gset Address; reserved : gset Address; pa_au : AU }.
Section PageAllocator.
  Context `{Geometry}.
  (** 21-23 *)
  Definition pa_new (u : AU) : PageAllocator := mkPA ∅ ∅ u.
  (** 25-35 *)
  Definition pa_wf (p : PageAllocator) : Prop :=
    ∀ a, a ∈ observed p ∪ reserved p → addr_wf a ∧ au a = pa_au p.
  (** 37-41 *)
  Definition is_free_addr (p : PageAllocator) (a : Address) : Prop :=
    addr_wf a ∧ au a = pa_au p ∧ a ∉ observed p ∪ reserved p.
  (** 44-51 *)
  Definition reserve (p : PageAllocator) (addrs : gset Address) : PageAllocator :=
    mkPA (observed p) (reserved p ∪ addrs) (pa_au p).
  (** 54-61 *)
  Definition unreserve (p : PageAllocator) (addrs : gset Address) : PageAllocator :=
    mkPA (observed p) (reserved p ∖ addrs) (pa_au p).
  (** 63-70 *)
  Definition pa_observe (p : PageAllocator) (addrs : gset Address) : PageAllocator :=
    mkPA (observed p ∪ addrs) (reserved p) (pa_au p).
  (** 93-100 *)
  Definition unobserve (p : PageAllocator) (addrs : gset Address) : PageAllocator :=
    mkPA (observed p ∖ addrs) (reserved p) (pa_au p).
  (** 110-116 *)
  Definition pa_free (p : PageAllocator) (addrs : gset Address) : PageAllocator :=
    mkPA (observed p ∖ addrs) (reserved p ∖ addrs) (pa_au p).
  (** 118-124 *)
  Definition has_no_observed_pages (p : PageAllocator) : Prop := observed p = ∅.
  (** 122-124 *)
  Definition has_no_outstanding_refs (p : PageAllocator) : Prop := reserved p = ∅.
  (** 126-130: "every well-formed address of this AU is reserved or observed"; the
      quantifier ranges over the pages [0, page_count) of an AU below [au_count]. *)
  Definition all_pages_allocated (p : PageAllocator) : bool :=
    bool_decide (au_count ≤ pa_au p ∨
      Forall (λ g, mkAddr (pa_au p) g ∈ observed p ∪ reserved p) (seq 0 page_count)).
  (** 132-135 *)
  Definition all_pages_free (p : PageAllocator) : Prop :=
    has_no_observed_pages p ∧ has_no_outstanding_refs p.
End PageAllocator.

(** 138-141 *)
Record MiniAllocator := mkMA { allocs : gmap AU PageAllocator; curr : option AU }.
Section MiniAllocator.
  Context `{Geometry}.
  (** 144-146 *)
  Definition ma_empty : MiniAllocator := mkMA ∅ None.
  (** 148-151 *)
  Definition ma_wf (m : MiniAllocator) : Prop :=
    (∀ u p, allocs m !! u = Some p → pa_wf p ∧ pa_au p = u) ∧
    (∀ u, curr m = Some u → is_Some (allocs m !! u)).
  (** 153-162 *)
  Definition add_aus (m : MiniAllocator) (aus : gset AU) : MiniAllocator :=
    mkMA (allocs m ∪ set_to_map (λ u, (u, pa_new u)) aus) (curr m).
  (** 166-169 *)
  Definition can_remove (m : MiniAllocator) (u : AU) : Prop :=
    ∃ p, allocs m !! u = Some p ∧ has_no_outstanding_refs p.
  (** 172-175 *)
  Definition not_observed_aus (m : MiniAllocator) : gset AU :=
    dom (filter (λ kv, observed kv.2 = ∅) (allocs m)).
  (** 177-181 *)
  Definition can_allocate (m : MiniAllocator) (a : Address) : Prop :=
    ∃ p, allocs m !! au a = Some p ∧ is_free_addr p a.
  (** 183-191; at an absent AU (outside [recommends]) the allocator is unchanged. *)
  Definition allocate (m : MiniAllocator) (a : Address) : MiniAllocator :=
    match allocs m !! au a with
    | Some p =>
        let result := reserve p {[a]} in
        mkMA (<[au a := result]> (allocs m)) (if all_pages_allocated result then None else Some (au a))
    | None => m
    end.
  (** 193-201 *)
  Definition ma_observe (m : MiniAllocator) (a : Address) : MiniAllocator :=
    match allocs m !! au a with
    | Some p => mkMA (<[au a := pa_observe p {[a]}]> (allocs m)) (curr m)
    | None => m
    end.
  (** 203-216 *)
  Definition prune (m : MiniAllocator) (aus : gset AU) : MiniAllocator :=
    mkMA (filter (λ kv, kv.1 ∉ aus) (allocs m))
         (match curr m with Some u => if decide (u ∈ aus) then None else Some u | None => None end).
  (** 218-222 *)
  Definition page_is_reserved (m : MiniAllocator) (a : Address) : Prop :=
    ∃ p, allocs m !! au a = Some p ∧ a ∈ reserved p.
  (** AllocationJournal_v.rs 1218-1225 *)
  Definition tight_next_addr (m : MiniAllocator) (root : Pointer) (a : Address) : Prop :=
    can_allocate m a ∧
    (curr m = None → (∀ p, allocs m !! au a = Some p → all_pages_free p) ∧ page a = 0) ∧
    (is_Some (curr m) → ∀ f, root = Some f → a = addr_next f).
End MiniAllocator.

(** ** AllocationJournal (AllocationJournal_v.rs) *)
(** 21-24 *)
Record JournalImage := mkImage { img_tj : TruncatedJournal; img_first : AU }.
Section AllocView.
  Context `{Geometry}.
  (** 135-143, with [au_addrs_past_pointer] 126-132 *)
  Definition in_tight_domain (dv : DiskView) (idx : gmap LSN AU) (root : Pointer) (a : Address) : Prop :=
    is_Some (entries dv !! a) ∧ au a ∈ values idx ∧ ∀ f, root = Some f → ¬ after_page f a.
  (** 145-151 *)
  Definition domain_tight_wrt_index (dv : DiskView) (idx : gmap LSN AU) (root : Pointer) : Prop :=
    ∀ a, is_Some (entries dv !! a) → au a ∈ values idx ∧ ∀ f, root = Some f → ¬ after_page f a.
  (** 153-162 *)
  Definition bounded_inactive_lsns (dv : DiskView) (idx : gmap LSN AU) (root : Pointer) : Prop :=
    ∀ a r lsn, entries dv !! a = Some r → mh_contains (message_seq r) lsn →
      au a ∈ values idx → idx !! lsn = None → (∀ f, root = Some f → ¬ after_page f a) →
      lsn < boundary_lsn dv.
  (** LikesJournal_v.rs 123-127 *)
  Definition addr_supports_lsn (dv : DiskView) (a : Address) (lsn : LSN) : Prop :=
    ∃ r, entries dv !! a = Some r ∧ Linked.contains_lsn r (boundary_lsn dv) lsn.
  (** 201-224, on fuel *)
  Fixpoint page_walk (fuel : nat) (dv : DiskView) (root : Pointer) : gmap LSN AU :=
    match root, fuel with
    | Some a, S n =>
        match entries dv !! a with
        | Some r =>
            singleton_index (boundary_lsn dv `max` seq_start (message_seq r)) (seq_end (message_seq r)) (au a)
            ∪ page_walk n dv (Linked.dv_next dv root)
        | None => ∅
        end
    | _, _ => ∅
    end.
  (** 291-328, on fuel; a missing page (excluded by [pointer_is_upstream]) ends the walk. *)
  Fixpoint au_walk (fuel : nat) (dv : DiskView) (root : Pointer) (first : AU) : gmap LSN AU :=
    match root, fuel with
    | Some a, S n =>
        if decide (au a = first) then page_walk (S n) dv root
        else
          match entries dv !! a, entries dv !! addr_first_page a with
          | Some r, Some b =>
              singleton_index (seq_start (message_seq b)) (seq_end (message_seq r)) (au a)
              ∪ au_walk n dv (Linked.dv_next dv (Some (addr_first_page a))) first
          | _, _ => ∅
          end
    | _, _ => ∅
    end.
  (** 912-918 *)
  Definition build_lsn_au_index (tj : TruncatedJournal) (first : AU) : gmap LSN AU :=
    au_walk (Linked.fuel_of (disk_view tj)) (disk_view tj) (freshest_rec tj) first.
  (** 459-469 *)
  Definition nonzero_pages_point_backward (dv : DiskView) : Prop :=
    ∀ a r, page a ≠ 0 → entries dv !! a = Some r → prior_rec r = Some (addr_previous a).
  (** 474-486 *)
  Definition pages_allocated_in_lsn_order (dv : DiskView) : Prop :=
    ∀ alo ahi rlo rhi, au alo = au ahi → page alo < page ahi →
      entries dv !! alo = Some rlo → entries dv !! ahi = Some rhi →
      seq_end (message_seq rlo) ≤ seq_start (message_seq rhi).
  (** 550-554 *)
  Definition has_unique_lsns (dv : DiskView) : Prop :=
    ∀ lsn a b, addr_supports_lsn dv a lsn → addr_supports_lsn dv b lsn → a = b.
  (** 569-573 *)
  Definition valid_first_au (dv : DiskView) (first : AU) : Prop :=
    ∃ a, au a = first ∧ addr_supports_lsn dv a (boundary_lsn dv).
  (** 451-454 *)
  Definition upstream (dv : DiskView) (a : Address) : Prop :=
    ∃ r, entries dv !! a = Some r ∧ boundary_lsn dv < seq_end (message_seq r).
  (** 556-563, with [internal_au_pages_fully_linked] 488-494 *)
  Definition pointer_is_upstream (dv : DiskView) (root : Pointer) (first : AU) : Prop :=
    Linked.dv_decodable dv root ∧ Linked.acyclic dv ∧
    nonzero_pages_point_backward dv ∧ pages_allocated_in_lsn_order dv ∧
    has_unique_lsns dv ∧
    (∀ a, root = Some a → valid_first_au dv first ∧ upstream dv a).
  (** 565-567 *)
  Definition wf_addrs (dv : DiskView) : Prop := ∀ a, is_Some (entries dv !! a) → addr_wf a.
  (** 40-46 *)
  Definition valid_image (img : JournalImage) : Prop :=
    let dv := disk_view (img_tj img) in
    wf_addrs dv ∧ pointer_is_upstream dv (freshest_rec (img_tj img)) (img_first img) ∧
    domain_tight_wrt_index dv (build_lsn_au_index (img_tj img) (img_first img)) (freshest_rec (img_tj img)) ∧
    bounded_inactive_lsns dv (build_lsn_au_index (img_tj img) (img_first img)) (freshest_rec (img_tj img)).
  (** 36-38 *)
  Definition img_empty : JournalImage := mkImage Linked.mkfs 0.
  (** 881-892, as a predicate on the set of kept addresses *)
  Definition discard_old_tight (tj : TruncatedJournal) (start_lsn : LSN) (keep : gset Address)
      (new : TruncatedJournal) : Prop :=
    discard_old_cond tj start_lsn keep new ∧ keep = dom (entries (disk_view new)).
End AllocView.

Module AllocJournal.
  (** 1229-1243 *)
  Record State := mkState {
    journal : Linked.State;
    lsn_au_index : gmap LSN AU;
    first : AU;
    mini_allocator : MiniAllocator }.
  (** 1245-1253 *)
  Inductive Label :=
    | ReadForRecovery (messages : MsgHistory)
    | FreezeForCommit (frozen_journal : JournalImage)
    | QueryEndLsn (end_lsn : LSN)
    | Put (messages : MsgHistory)
    | DiscardOld (start_lsn require_end : LSN) (deallocs : gset AU)
    | InternalAllocations (alls deallocs : gset AU).
  (** 1255-1270 *)
  Definition linked_lbl (l : Label) : Linked.Label :=
    match l with
    | ReadForRecovery m => Linked.ReadForRecovery m
    | FreezeForCommit img => Linked.FreezeForCommit (img_tj img)
    | QueryEndLsn n => Linked.QueryEndLsn n
    | Put m => Linked.Put m
    | DiscardOld x y _ => Linked.DiscardOld x y
    | InternalAllocations _ _ => Linked.Internal
    end.
  (** 1424-1427 *)
  Definition tj (s : State) : TruncatedJournal := Linked.truncated_journal (journal s).
  (** 1278-1280 *)
  Definition accessible_aus (s : State) : gset AU :=
    values (lsn_au_index s) ∪ dom (allocs (mini_allocator s)).

  Section Transitions.
  Context `{Geometry}.
  (** 1282-1285 *)
  Definition read_for_recovery (pre post : State) (l : Label) : Prop :=
    (∃ m, l = ReadForRecovery m) ∧ Linked.next (journal pre) (journal pre) (linked_lbl l) ∧ post = pre.
  (** 1321-1331, as a relation: in the branch that Rust fills with [arbitrary()]
      any AU is allowed. *)
  Definition new_first (tj : TruncatedJournal) (idx : gmap LSN AU) (new_bdy : LSN) (u : AU) : Prop :=
    ∀ a v, (if decide (Linked.tj_seq_end tj = new_bdy) then None else freshest_rec tj) = Some a →
      idx !! new_bdy = Some v → u = v.
  (** 1287-1307; the set [frozen_addrs] is characterised by membership. *)
  Definition freeze_for_commit (pre post : State) (l : Label) (depth : nat) : Prop :=
    ∃ img frozen_addrs, l = FreezeForCommit img ∧
      let new_bdy := Linked.tj_seq_start (img_tj img) in
      Linked.dv_can_crop (disk_view (tj pre)) (freshest_rec (tj pre)) depth ∧
      let cropped := Linked.tj_crop (tj pre) depth in
      Linked.tj_can_discard_to cropped new_bdy ∧
      let post_discard := Linked.tj_discard_old cropped new_bdy in
      let frozen_index := index_range (lsn_au_index pre) new_bdy (Linked.tj_seq_end post_discard) in
      (∀ a, a ∈ frozen_addrs ↔
         in_tight_domain (disk_view cropped) frozen_index (freshest_rec (img_tj img)) a) ∧
      discard_old_tight cropped new_bdy frozen_addrs (img_tj img) ∧
      new_first (img_tj img) (lsn_au_index pre) new_bdy (img_first img) ∧
      post = pre.
  (** 1309-1312 *)
  Definition query_end_lsn (pre post : State) (l : Label) : Prop :=
    (∃ n, l = QueryEndLsn n) ∧ Linked.next (journal pre) (journal pre) (linked_lbl l) ∧ post = pre.
  (** 1314-1318 *)
  Definition put (pre post : State) (l : Label) (new_journal : Linked.State) : Prop :=
    (∃ m, l = Put m) ∧ Linked.next (journal pre) new_journal (linked_lbl l) ∧
    post = mkState new_journal (lsn_au_index pre) (first pre) (mini_allocator pre).
  (** 1333-1360 *)
  Definition discard_old (pre post : State) (l : Label) (new_journal : Linked.State) : Prop :=
    ∃ start_lsn require_end deallocs keep_addrs nfirst, l = DiscardOld start_lsn require_end deallocs ∧
      require_end = Linked.st_end (journal pre) ∧
      Linked.tj_can_discard_to (tj pre) start_lsn ∧
      new_first (tj pre) (lsn_au_index pre) start_lsn nfirst ∧
      let new_index := index_discard_up_to (lsn_au_index pre) start_lsn in
      let discarded_aus := values (lsn_au_index pre) ∖ values new_index in
      (∀ a, a ∈ keep_addrs ↔ is_Some (entries (disk_view (tj pre)) !! a) ∧ au a ∈ values new_index) ∧
      deallocs = discarded_aus ∧
      discard_old_tight (tj pre) start_lsn keep_addrs (Linked.truncated_journal new_journal) ∧
      Linked.unmarshalled_tail new_journal =
        Linked.bounded_discard (Linked.unmarshalled_tail (journal pre)) start_lsn ∧
      post = mkState new_journal new_index nfirst (prune (mini_allocator pre) discarded_aus).
  (** 1362-1380 *)
  Definition internal_journal_marshal (pre post : State) (l : Label) (cut : LSN) (a : Address) : Prop :=
    l = InternalAllocations ∅ ∅ ∧
    tight_next_addr (mini_allocator pre) (freshest_rec (tj pre)) a ∧
    let tail := Linked.unmarshalled_tail (journal pre) in
    seq_start tail < cut ∧ can_discard_to tail cut ∧
    let msgs := discard_recent tail cut in
    post = mkState
      (Linked.mkState (Linked.append_record (tj pre) a msgs) (Abs_Model.discard_old tail cut))
      (index_append_record (lsn_au_index pre) msgs (au a))
      (match freshest_rec (tj pre) with Some _ => first pre | None => au a end)
      (ma_observe (allocate (mini_allocator pre) a) a).
  (** 1382-1390 *)
  Definition internal_mini_allocator_fill (pre post : State) (l : Label) : Prop :=
    ∃ alls, l = InternalAllocations alls ∅ ∧
      alls ## dom (allocs (mini_allocator pre)) ∧ alls ## values (lsn_au_index pre) ∧
      post = mkState (journal pre) (lsn_au_index pre) (first pre) (add_aus (mini_allocator pre) alls).
  (** 1392-1400 *)
  Definition internal_mini_allocator_prune (pre post : State) (l : Label) : Prop :=
    ∃ deallocs, l = InternalAllocations ∅ deallocs ∧
      (∀ u, u ∈ deallocs → can_remove (mini_allocator pre) u) ∧
      post = mkState (journal pre) (lsn_au_index pre) (first pre) (prune (mini_allocator pre) deallocs).
  (** 1402-1406 *)
  Definition internal_no_op (pre post : State) (l : Label) : Prop :=
    l = InternalAllocations ∅ ∅ ∧ post = pre.
  (** 1408-1419 *)
  Definition initialize (s : State) (j : Linked.State) (img : JournalImage) : Prop :=
    valid_image img ∧ Linked.initialize j (img_tj img) ∧
    s = mkState j (build_lsn_au_index (img_tj img) (img_first img)) (img_first img) ma_empty.
  (** [next], which the state_machine! macro generates from the transitions of AllocationJournal_v.rs 1228-1812. *)
  Definition next (pre post : State) (l : Label) : Prop :=
    read_for_recovery pre post l ∨
    (∃ depth, freeze_for_commit pre post l depth) ∨
    query_end_lsn pre post l ∨
    (∃ nj, put pre post l nj) ∨
    (∃ nj, discard_old pre post l nj) ∨
    (∃ cut a, internal_journal_marshal pre post l cut a) ∨
    internal_mini_allocator_fill pre post l ∨
    internal_mini_allocator_prune pre post l ∨
    internal_no_op pre post l.
  End Transitions.
End AllocJournal.
