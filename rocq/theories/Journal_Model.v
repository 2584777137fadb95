(** Model of Splinter/src/journal/PagedJournal_v.rs and LinkedJournal_v.rs.
    Definitions only. *)
From Verif Require Export Abs_Model Disk_Model.

(** ** PagedJournal (PagedJournal_v.rs)

    A [JournalRecord] there is a message history plus an optional boxed prior
    record. [Option<JournalRecord>] is therefore a list of histories, freshest
    first: [None] is [[]] and [Some(JournalRecord{message_seq, prior_rec})] is
    [message_seq :: prior_rec]. Functions on [Option<JournalRecord>] and the
    mutually recursive versions on [JournalRecord] become one function. *)
Notation Chain := (list MsgHistory) (only parsing).

Module Paged.
  (** 22-30 *)
  Fixpoint rec_wf (r : Chain) : Prop :=
    match r with
    | [] => True
    | m :: prior =>
        mh_wf m ∧
        match prior with [] => True | m' :: _ => rec_wf prior ∧ can_concat m' m end
    end.
  (** 32-41; [None] is vacuously valid (as in 285). *)
  Fixpoint valid (r : Chain) (bdy : LSN) : Prop :=
    match r with
    | [] => True
    | m :: prior =>
        rec_wf (m :: prior) ∧ bdy < seq_end m ∧
        (can_discard_to m bdy ∨ (prior ≠ [] ∧ valid prior bdy))
    end.
  (** 57-60 *)
  Definition cropped_prior (m : MsgHistory) (prior : Chain) (bdy : LSN) : Chain :=
    if decide (seq_start m ≤ bdy) then [] else prior.
  (** 62-80 *)
  Fixpoint can_crop_head_records (depth : nat) (r : Chain) (bdy : LSN) : Prop :=
    match r with
    | [] => depth = 0
    | m :: prior =>
        valid (m :: prior) bdy ∧
        match depth with
        | 0 => True
        | S d => can_crop_head_records d (cropped_prior m prior bdy) bdy
        end
    end.
  (** 82-106 *)
  Fixpoint crop_head_records (depth : nat) (r : Chain) (bdy : LSN) : Chain :=
    match r with
    | [] => []
    | m :: prior =>
        match depth with
        | 0 => m :: prior
        | S d => crop_head_records d (cropped_prior m prior bdy) bdy
        end
    end.
  (** 224-240 *)
  Fixpoint discard_old_journal_rec (r : Chain) (lsn : LSN) : Chain :=
    match r with
    | [] => []
    | m :: prior =>
        m :: (if decide (seq_start m ≤ lsn) then [] else discard_old_journal_rec prior lsn)
    end.

  (** 269-272 *)
  Record TruncatedJournal := mkTJ { boundary_lsn : LSN; freshest_rec : Chain }.
  (** 284-286 *)
  Definition tj_wf (tj : TruncatedJournal) : Prop := valid (freshest_rec tj) (boundary_lsn tj).
  (** 295-301 *)
  Definition tj_seq_end (tj : TruncatedJournal) : LSN :=
    match freshest_rec tj with [] => boundary_lsn tj | m :: _ => seq_end m end.
  (** 303-308 *)
  Definition tj_seq_start (tj : TruncatedJournal) : LSN := boundary_lsn tj.
  (** 310-315 *)
  Definition tj_can_discard_to (tj : TruncatedJournal) (lsn : LSN) : Prop :=
    tj_seq_start tj ≤ lsn ≤ tj_seq_end tj.
  (** 317-332 *)
  Definition discard_old_defn (tj : TruncatedJournal) (lsn : LSN) : TruncatedJournal :=
    mkTJ lsn (if decide (tj_seq_end tj = lsn) then []
              else discard_old_journal_rec (freshest_rec tj) lsn).
  (** 336-344, with [message_seq_after_crop] 195-204 *)
  Definition has_messages_at_depth (tj : TruncatedJournal) (m : MsgHistory) (depth : nat) : Prop :=
    freshest_rec tj ≠ [] ∧
    can_crop_head_records (S depth) (freshest_rec tj) (boundary_lsn tj) ∧
    match crop_head_records depth (freshest_rec tj) (boundary_lsn tj) with
    | [] => False
    | r :: _ => maybe_discard_old r (boundary_lsn tj) = m
    end.
  (** 346-354 *)
  Definition append_record (tj : TruncatedJournal) (m : MsgHistory) : TruncatedJournal :=
    mkTJ (boundary_lsn tj) (m :: freshest_rec tj).
  (** 356-358 *)
  Definition tj_can_crop (tj : TruncatedJournal) (depth : nat) : Prop :=
    can_crop_head_records depth (freshest_rec tj) (boundary_lsn tj).
  (** 360-368 *)
  Definition tj_crop (tj : TruncatedJournal) (depth : nat) : TruncatedJournal :=
    mkTJ (boundary_lsn tj) (crop_head_records depth (freshest_rec tj) (boundary_lsn tj)).
  (** 383-392 *)
  Definition tj_freeze_for_commit (tj frozen : TruncatedJournal) (depth : nat) : Prop :=
    tj_wf frozen ∧ tj_can_crop tj depth ∧
    tj_can_discard_to (tj_crop tj depth) (boundary_lsn frozen) ∧
    frozen = discard_old_defn (tj_crop tj depth) (boundary_lsn frozen).
  (** 396-400 *)
  Definition mkfs : TruncatedJournal := mkTJ 0 [].

  (** 408-412 *)
  Record State := mkState { truncated_journal : TruncatedJournal; unmarshalled_tail : MsgHistory }.
  (** 414-418 *)
  Definition wf (s : State) : Prop :=
    tj_wf (truncated_journal s) ∧ mh_wf (unmarshalled_tail s) ∧
    tj_seq_end (truncated_journal s) = seq_start (unmarshalled_tail s).
  (** 420-432 *)
  Definition st_start (s : State) : LSN := boundary_lsn (truncated_journal s).
  (** PagedJournal_v.rs 427-432 *)
  Definition st_end (s : State) : LSN := seq_end (unmarshalled_tail s).
  (** 434-442 *)
  Inductive Label :=
    | ReadForRecovery (messages : MsgHistory)
    | FreezeForCommit (frozen_journal : TruncatedJournal)
    | QueryEndLsn (end_lsn : LSN)
    | Put (messages : MsgHistory)
    | DiscardOld (start_lsn require_end : LSN)
    | Internal.
  (** 444-454 *)
  Definition read_for_recovery (pre post : State) (l : Label) (depth : nat) : Prop :=
    wf pre ∧ ∃ messages, l = ReadForRecovery messages ∧ mh_wf messages ∧
      has_messages_at_depth (truncated_journal pre) messages depth ∧ post = pre.
  (** 456-459 *)
  Definition freeze_for_commit (pre post : State) (l : Label) (depth : nat) : Prop :=
    ∃ frozen, l = FreezeForCommit frozen ∧
      tj_freeze_for_commit (truncated_journal pre) frozen depth ∧ post = pre.
  (** 461-464 *)
  Definition query_end_lsn (pre post : State) (l : Label) : Prop :=
    l = QueryEndLsn (st_end pre) ∧ post = pre.
  (** 469-475 *)
  Definition put (pre post : State) (l : Label) : Prop :=
    ∃ m, l = Put m ∧ mh_wf m ∧ seq_start m = st_end pre ∧
      post = mkState (truncated_journal pre) (mh_concat (unmarshalled_tail pre) m).
  (** 477-500 *)
  Definition discard_old (pre post : State) (l : Label) : Prop :=
    ∃ lsn require_end, l = DiscardOld lsn require_end ∧
      st_start pre ≤ lsn ≤ st_end pre ∧ st_end pre = require_end ∧
      post = if decide (seq_start (unmarshalled_tail pre) ≤ lsn)
             then mkState (mkTJ lsn []) (Abs_Model.discard_old (unmarshalled_tail pre) lsn)
             else mkState (discard_old_defn (truncated_journal pre) lsn) (unmarshalled_tail pre).
  (** 502-509 *)
  Definition internal_journal_marshal (pre post : State) (l : Label) (cut : LSN) : Prop :=
    l = Internal ∧ seq_start (unmarshalled_tail pre) < cut ∧
    can_discard_to (unmarshalled_tail pre) cut ∧
    post = mkState (append_record (truncated_journal pre) (discard_recent (unmarshalled_tail pre) cut))
                   (Abs_Model.discard_old (unmarshalled_tail pre) cut).
  (** 511-513 *)
  Definition internal_no_op (pre post : State) (l : Label) : Prop := l = Internal ∧ post = pre.
  (** 515-519 *)
  Definition initialize (s : State) (tj : TruncatedJournal) : Prop :=
    tj_wf tj ∧ s = mkState tj (empty_history_at (tj_seq_end tj)).
  (** [next], which the state_machine! macro generates from the transitions of PagedJournal_v.rs 408-521. *)
  Definition next (pre post : State) (l : Label) : Prop :=
    (∃ depth, read_for_recovery pre post l depth) ∨
    (∃ depth, freeze_for_commit pre post l depth) ∨
    query_end_lsn pre post l ∨ put pre post l ∨ discard_old pre post l ∨
    (∃ cut, internal_journal_marshal pre post l cut) ∨ internal_no_op pre post l.
End Paged.

(** ** LinkedJournal (LinkedJournal_v.rs) *)
(** 20-29 *)
Record JournalRecord := mkRec { message_seq : MsgHistory; prior_rec : Pointer }.
(** 58-62 *)
Record DiskView := mkDV { boundary_lsn : LSN; entries : gmap Address JournalRecord }.
(** 430-433 *)
Record TruncatedJournal := mkTJ { freshest_rec : Pointer; disk_view : DiskView }.

Module Linked.
  (** 32-35 *)
  Definition rec_wf (r : JournalRecord) : Prop :=
    mh_wf (message_seq r) ∧ ¬ mh_is_empty (message_seq r).
  (** 41-43 *)
  Definition cropped_prior (r : JournalRecord) (bdy : LSN) : Pointer :=
    if decide (bdy < seq_start (message_seq r)) then prior_rec r else None.
  (** 37-39 *)
  Definition has_link (r : JournalRecord) (bdy : LSN) : Prop :=
    bdy < seq_start (message_seq r) → is_Some (cropped_prior r bdy).
  (** 45-47 *)
  Definition contains_lsn (r : JournalRecord) (bdy lsn : LSN) : Prop :=
    seq_start (message_seq r) `max` bdy ≤ lsn < seq_end (message_seq r).

  (** 65-67 *)
  Definition entries_wf (dv : DiskView) : Prop :=
    ∀ a r, entries dv !! a = Some r → rec_wf r.
  (** 69-71 *)
  Definition is_nondangling_pointer (dv : DiskView) (ptr : Pointer) : Prop :=
    ∀ a, ptr = Some a → is_Some (entries dv !! a).
  (** 73-76 *)
  Definition nondangling_pointers (dv : DiskView) : Prop :=
    ∀ a r, entries dv !! a = Some r →
      is_nondangling_pointer dv (cropped_prior r (boundary_lsn dv)).
  (** 78-96 *)
  Definition blocks_can_concat (dv : DiskView) : Prop :=
    ∀ a r, entries dv !! a = Some r →
      ∀ p q, cropped_prior r (boundary_lsn dv) = Some p → entries dv !! p = Some q →
        can_concat (message_seq q) (message_seq r).
  (** 98-102 *)
  Definition blocks_each_have_link (dv : DiskView) : Prop :=
    ∀ a r, entries dv !! a = Some r → has_link r (boundary_lsn dv).
  (** 104-108 *)
  Definition block_in_bounds (dv : DiskView) (ptr : Pointer) : Prop :=
    is_nondangling_pointer dv ptr ∧
    ∀ a r, ptr = Some a → entries dv !! a = Some r → boundary_lsn dv < seq_end (message_seq r).
  (** 110-116 *)
  Definition dv_wf (dv : DiskView) : Prop :=
    entries_wf dv ∧ nondangling_pointers dv ∧ blocks_can_concat dv ∧ blocks_each_have_link dv.
  (** 118-126; Rust indexes the ranking at a non-dangling pointer, so inside its
      domain: the lookups are spelled out here. *)
  Definition valid_ranking (dv : DiskView) (rk : Ranking) : Prop :=
    dom (entries dv) ⊆ dom rk ∧
    ∀ a r p, entries dv !! a = Some r → cropped_prior r (boundary_lsn dv) = Some p →
      ∃ x y, rk !! p = Some x ∧ rk !! a = Some y ∧ x < y.
  (** 128-133 *)
  Definition acyclic (dv : DiskView) : Prop := ∃ rk, valid_ranking dv rk.
  (** 143-147 *)
  Definition dv_decodable (dv : DiskView) (ptr : Pointer) : Prop :=
    dv_wf dv ∧ is_nondangling_pointer dv ptr.
  (** 166-174 *)
  Definition dv_seq_end (dv : DiskView) (root : Pointer) : LSN :=
    match root with
    | None => boundary_lsn dv
    | Some a => match entries dv !! a with Some r => seq_end (message_seq r) | None => boundary_lsn dv end
    end.
  (** 177-182 *)
  Definition dv_discard_old (dv : DiskView) (bdy : LSN) : DiskView := mkDV bdy (entries dv).
  (** 184-188 *)
  Definition is_sub_disk (dv bigger : DiskView) : Prop :=
    boundary_lsn bigger = boundary_lsn dv ∧ entries dv ⊆ entries bigger.
  (** 203-207 *)
  Definition is_sub_disk_with_newer_lsn (dv bigger : DiskView) : Prop :=
    boundary_lsn bigger ≤ boundary_lsn dv ∧ entries dv ⊆ entries bigger.
  (** 297-306 *)
  Definition dv_next (dv : DiskView) (ptr : Pointer) : Pointer :=
    match ptr with
    | None => None
    | Some a => match entries dv !! a with
                | Some r => cropped_prior r (boundary_lsn dv)
                | None => None
                end
    end.
  (** 209-225: Rust recurses on the rank of [root]; here on fuel, the number of
      pages being enough on every acyclic view. The [!acyclic] branch (215,
      "silly") is not modelled: the function is only used on acyclic views. *)
  Fixpoint build_tight_fuel (fuel : nat) (dv : DiskView) (root : Pointer) : gmap Address JournalRecord :=
    match root, fuel with
    | Some a, S n =>
        match entries dv !! a with
        | Some r => <[a := r]> (build_tight_fuel n dv (dv_next dv root))
        | None => ∅
        end
    | _, _ => ∅
    end.
  (** Fuel for the recursions of LinkedJournal_v.rs: the number of records. *)
  Definition fuel_of (dv : DiskView) : nat := size (entries dv).
  (** LinkedJournal_v.rs 209-226 *)
  Definition dv_build_tight (dv : DiskView) (root : Pointer) : DiskView :=
    mkDV (boundary_lsn dv) (build_tight_fuel (fuel_of dv) dv root).
  (** 245-255 *)
  Fixpoint dv_can_crop (dv : DiskView) (root : Pointer) (depth : nat) : Prop :=
    match depth with
    | 0 => True
    | S d => is_Some root ∧ dv_can_crop dv (dv_next dv root) d
    end.
  (** 257-266 *)
  Fixpoint pointer_after_crop (dv : DiskView) (root : Pointer) (depth : nat) : Pointer :=
    match depth with
    | 0 => root
    | S d => pointer_after_crop dv (dv_next dv root) d
    end.

  (** 436-440 *)
  Definition tj_wf (tj : TruncatedJournal) : Prop :=
    dv_wf (disk_view tj) ∧ block_in_bounds (disk_view tj) (freshest_rec tj).
  (** 442-451 *)
  Definition tj_seq_start (tj : TruncatedJournal) : LSN := boundary_lsn (disk_view tj).
  (** LinkedJournal_v.rs 446-451 *)
  Definition tj_seq_end (tj : TruncatedJournal) : LSN := dv_seq_end (disk_view tj) (freshest_rec tj).
  (** 453-458 *)
  Definition tj_can_discard_to (tj : TruncatedJournal) (lsn : LSN) : Prop :=
    tj_seq_start tj ≤ lsn ≤ tj_seq_end tj.
  (** 460-470 *)
  Definition tj_discard_old (tj : TruncatedJournal) (lsn : LSN) : TruncatedJournal :=
    mkTJ (if decide (tj_seq_end tj = lsn) then None else freshest_rec tj)
         (dv_discard_old (disk_view tj) lsn).
  (** 527-535 *)
  Definition tj_build_tight (tj : TruncatedJournal) : TruncatedJournal :=
    mkTJ (freshest_rec tj) (dv_build_tight (disk_view tj) (freshest_rec tj)).
  (** 472-484 *)
  Definition valid_discard_old (tj : TruncatedJournal) (lsn : LSN) (new : TruncatedJournal) : Prop :=
    tj_wf new ∧ freshest_rec new = freshest_rec (tj_discard_old tj lsn) ∧
    is_sub_disk (disk_view new) (disk_view (tj_discard_old tj lsn)) ∧
    is_sub_disk (disk_view (tj_build_tight (tj_discard_old tj lsn))) (disk_view new).
  (** 486-490 *)
  Definition tj_decodable (tj : TruncatedJournal) : Prop := tj_wf tj ∧ acyclic (disk_view tj).
  (** 498-504 *)
  Definition tj_crop (tj : TruncatedJournal) (depth : nat) : TruncatedJournal :=
    mkTJ (pointer_after_crop (disk_view tj) (freshest_rec tj) depth) (disk_view tj).
  (** 513-525 *)
  Definition append_record (tj : TruncatedJournal) (a : Address) (m : MsgHistory) : TruncatedJournal :=
    mkTJ (Some a)
         (mkDV (boundary_lsn (disk_view tj))
               (<[a := mkRec m (freshest_rec tj)]> (entries (disk_view tj)))).
  (** 537-543 *)
  Definition mkfs : TruncatedJournal := mkTJ None (mkDV 0 ∅).
  (** 591-598 *)
  Definition bounded_discard (h : MsgHistory) (bdy : LSN) : MsgHistory :=
    if decide (seq_start h ≤ bdy) then Abs_Model.discard_old h bdy else h.

  (** 601-605 *)
  Record State := mkState { truncated_journal : TruncatedJournal; unmarshalled_tail : MsgHistory }.
  (** 608-614 *)
  Definition wf (s : State) : Prop :=
    tj_wf (truncated_journal s) ∧ mh_wf (unmarshalled_tail s) ∧
    tj_seq_start (truncated_journal s) ≤ tj_seq_end (truncated_journal s) ∧
    tj_seq_end (truncated_journal s) = seq_start (unmarshalled_tail s).
  (** 616-626 *)
  Definition st_start (s : State) : LSN := tj_seq_start (truncated_journal s).
  (** LinkedJournal_v.rs 621-626 *)
  Definition st_end (s : State) : LSN := seq_end (unmarshalled_tail s).
  (** 628-632 *)
  Definition unused_addr (s : State) (a : Address) : Prop :=
    entries (disk_view (truncated_journal s)) !! a = None.
  (** 634-642 *)
  Inductive Label :=
    | ReadForRecovery (messages : MsgHistory)
    | FreezeForCommit (frozen_journal : TruncatedJournal)
    | QueryEndLsn (end_lsn : LSN)
    | Put (messages : MsgHistory)
    | DiscardOld (start_lsn require_end : LSN)
    | Internal.
  (** 653-663, with [lbl_wf] 644-651 *)
  Definition read_for_recovery (pre post : State) (l : Label) (depth : nat) : Prop :=
    wf pre ∧ ∃ messages, l = ReadForRecovery messages ∧ mh_wf messages ∧
      tj_decodable (truncated_journal pre) ∧
      let dv := disk_view (truncated_journal pre) in
      dv_can_crop dv (freshest_rec (truncated_journal pre)) depth ∧
      ∃ a r, pointer_after_crop dv (freshest_rec (truncated_journal pre)) depth = Some a ∧
        entries dv !! a = Some r ∧
        maybe_discard_old (message_seq r) (boundary_lsn dv) = messages ∧ post = pre.
  (** 665-682 *)
  Definition freeze_for_commit (pre post : State) (l : Label) (depth : nat) : Prop :=
    wf pre ∧ ∃ fj, l = FreezeForCommit fj ∧ tj_decodable fj ∧
      tj_decodable (truncated_journal pre) ∧
      dv_can_crop (disk_view (truncated_journal pre)) (freshest_rec (truncated_journal pre)) depth ∧
      boundary_lsn (disk_view (truncated_journal pre)) ≤ tj_seq_start fj ∧
      tj_can_discard_to (tj_crop (truncated_journal pre) depth) (tj_seq_start fj) ∧
      valid_discard_old (tj_crop (truncated_journal pre) depth) (tj_seq_start fj) fj ∧
      post = pre.
  (** 684-689 *)
  Definition query_end_lsn (pre post : State) (l : Label) : Prop :=
    wf pre ∧ l = QueryEndLsn (st_end pre) ∧ post = pre.
  (** 691-698 *)
  Definition put (pre post : State) (l : Label) : Prop :=
    wf pre ∧ ∃ m, l = Put m ∧ mh_wf m ∧ seq_start m = st_end pre ∧
      post = mkState (truncated_journal pre) (mh_concat (unmarshalled_tail pre) m).
  (** 700-717 *)
  Definition discard_old (pre post : State) (l : Label) (new_tj : TruncatedJournal) : Prop :=
    wf pre ∧ ∃ start_lsn require_end, l = DiscardOld start_lsn require_end ∧
      require_end = st_end pre ∧ tj_can_discard_to (truncated_journal pre) start_lsn ∧
      valid_discard_old (truncated_journal pre) start_lsn new_tj ∧
      post = mkState new_tj (bounded_discard (unmarshalled_tail pre) start_lsn).
  (** 724-737 *)
  Definition internal_journal_marshal (pre post : State) (l : Label) (cut : LSN) (a : Address) : Prop :=
    unused_addr pre a ∧ wf pre ∧ l = Internal ∧
    seq_start (unmarshalled_tail pre) < cut ∧ can_discard_to (unmarshalled_tail pre) cut ∧
    post = mkState (append_record (truncated_journal pre) a (discard_recent (unmarshalled_tail pre) cut))
                   (Abs_Model.discard_old (unmarshalled_tail pre) cut).
  (** 739-742 *)
  Definition internal_no_op (pre post : State) (l : Label) : Prop :=
    wf pre ∧ l = Internal ∧ post = pre.
  (** 744-748 *)
  Definition initialize (s : State) (tj : TruncatedJournal) : Prop :=
    tj_decodable tj ∧ s = mkState tj (empty_history_at (tj_seq_end tj)).
  (** [next], which the state_machine! macro generates from the transitions of LinkedJournal_v.rs 601-790. *)
  Definition next (pre post : State) (l : Label) : Prop :=
    (∃ depth, read_for_recovery pre post l depth) ∨
    (∃ depth, freeze_for_commit pre post l depth) ∨
    query_end_lsn pre post l ∨ put pre post l ∨
    (∃ new_tj, discard_old pre post l new_tj) ∨
    (∃ cut a, internal_journal_marshal pre post l cut a) ∨ internal_no_op pre post l.
End Linked.
