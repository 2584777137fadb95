(** Model of Splinter/src/allocation_layer/AllocationCrashAwareJournal_v.rs and
    UnifiedCrashAwareJournal_v.rs. Definitions only. *)
From Verif Require Export AllocJournal_Model.

(** AllocationJournal_v.rs 31-33 *)
Definition img_accessible_aus (img : JournalImage) : gset AU :=
  to_aus (dom (entries (disk_view (img_tj img)))).

(** ** AllocationCrashAwareJournal (AllocationCrashAwareJournal_v.rs): each image has
    its own pages. *)
Module AllocCrash.
  (** 48-52; [Ephemeral] (17-21) is an option, [Unknown] being [None]. *)
  Record State := mkState {
    persistent : JournalImage;
    ephemeral : option AllocJournal.State;
    inflight : option JournalImage }.
  (** 62-73 *)
  Inductive Label :=
    | LoadEphemeralFromPersistent
    | ReadForRecovery (records : MsgHistory)
    | QueryEndLsn (end_lsn : LSN)
    | Put (records : MsgHistory)
    | Internal (alls deallocs : gset AU)
    | QueryLsnPersistence (sync_lsn : LSN)
    | CommitStart (new_boundary_lsn max_lsn : LSN)
    | CommitComplete (require_end : LSN) (discarded : gset AU)
    | Crash (keep_in_flight : bool).
  (** 54-60 *)
  Definition init (s : State) : Prop := s = mkState img_empty None None.
  Section Transitions.
  Context `{Geometry}.
  (** 31-43 *)
  Definition init_by (img : JournalImage) (aj : AllocJournal.State) : Prop :=
    valid_image img ∧
    aj = AllocJournal.mkState
      (Linked.mkState (img_tj img) (empty_history_at (Linked.tj_seq_end (img_tj img))))
      (build_lsn_au_index (img_tj img) (img_first img)) (img_first img) ma_empty.
  (** 75-83, for an [Internal] label and a known ephemeral journal [v] *)
  Definition fresh (s : State) (v : AllocJournal.State) (alls : gset AU) : Prop :=
    alls ## img_accessible_aus (persistent s) ∧ alls ## AllocJournal.accessible_aus v ∧
    ∀ f, inflight s = Some f → alls ## img_accessible_aus f.
  (** 85-92 *)
  Definition load_ephemeral_from_persistent (pre post : State) (l : Label) (nj : AllocJournal.State) : Prop :=
    l = LoadEphemeralFromPersistent ∧ ephemeral pre = None ∧ init_by (persistent pre) nj ∧
    post = mkState (persistent pre) (Some nj) (inflight pre).
  (** 94-104 *)
  Definition read_for_recovery (pre post : State) (l : Label) : Prop :=
    ∃ m v, l = ReadForRecovery m ∧ ephemeral pre = Some v ∧
      AllocJournal.next v v (AllocJournal.ReadForRecovery m) ∧ post = pre.
  (** 106-116 *)
  Definition query_end_lsn (pre post : State) (l : Label) : Prop :=
    ∃ n v, l = QueryEndLsn n ∧ ephemeral pre = Some v ∧
      AllocJournal.next v v (AllocJournal.QueryEndLsn n) ∧ post = pre.
  (** 118-129 *)
  Definition put (pre post : State) (l : Label) (nj : AllocJournal.State) : Prop :=
    ∃ m v, l = Put m ∧ ephemeral pre = Some v ∧ AllocJournal.next v nj (AllocJournal.Put m) ∧
      post = mkState (persistent pre) (Some nj) (inflight pre).
  (** 131-143 *)
  Definition internal (pre post : State) (l : Label) (nj : AllocJournal.State) : Prop :=
    ∃ alls deallocs v, l = Internal alls deallocs ∧ ephemeral pre = Some v ∧ fresh pre v alls ∧
      AllocJournal.next v nj (AllocJournal.InternalAllocations alls deallocs) ∧
      post = mkState (persistent pre) (Some nj) (inflight pre).
  (** 145-150 *)
  Definition query_lsn_persistence (pre post : State) (l : Label) : Prop :=
    ∃ n, l = QueryLsnPersistence n ∧ n ≤ Linked.tj_seq_end (img_tj (persistent pre)) ∧ post = pre.
  (** 152-172 *)
  Definition commit_start (pre post : State) (l : Label) (frozen : JournalImage) : Prop :=
    ∃ new_boundary_lsn max_lsn v, l = CommitStart new_boundary_lsn max_lsn ∧
      ephemeral pre = Some v ∧ inflight pre = None ∧
      Linked.tj_seq_start (img_tj frozen) = new_boundary_lsn ∧
      Linked.tj_seq_end (img_tj (persistent pre)) ≤ Linked.tj_seq_end (img_tj frozen) ∧
      Linked.tj_seq_start (img_tj frozen) ≤ max_lsn ∧
      AllocJournal.next v v (AllocJournal.FreezeForCommit frozen) ∧
      post = mkState (persistent pre) (ephemeral pre) (Some frozen).
  (** 174-204 *)
  Definition commit_complete (pre post : State) (l : Label) (nj : AllocJournal.State) : Prop :=
    ∃ require_end discarded v f, l = CommitComplete require_end discarded ∧
      ephemeral pre = Some v ∧ inflight pre = Some f ∧
      AllocJournal.next v nj (AllocJournal.DiscardOld (Linked.tj_seq_start (img_tj f)) require_end discarded) ∧
      post = mkState f (Some nj) None.
  (** 206-213 *)
  Definition crash (pre post : State) (l : Label) : Prop :=
    ∃ keep, l = Crash keep ∧
      post = mkState (match inflight pre with Some f => if keep : bool then f else persistent pre
                                            | None => persistent pre end) None None.
  (** The transitions of the state machine (47-289). *)
  Definition next (pre post : State) (l : Label) : Prop :=
    (∃ nj, load_ephemeral_from_persistent pre post l nj) ∨ read_for_recovery pre post l ∨
    query_end_lsn pre post l ∨ (∃ nj, put pre post l nj) ∨ (∃ nj, internal pre post l nj) ∨
    query_lsn_persistence pre post l ∨ (∃ f, commit_start pre post l f) ∨
    (∃ nj, commit_complete pre post l nj) ∨ crash pre post l.
  End Transitions.
End AllocCrash.

(** ** UnifiedCrashAwareJournal (UnifiedCrashAwareJournal_v.rs): the images share one disk. *)
(** 180-182 *)
Notation SharedDisk := (gmap Address JournalRecord) (only parsing).
(** 26-32 *)
Record ImageState := mkIS { is_freshest : Pointer; is_boundary : LSN; is_first : AU }.
(** 35-37 *)
Definition is_empty_image : ImageState := mkIS None 0 0.
(** 39-44, with [to_jdv] 185-187 *)
Definition to_tj (i : ImageState) (dv : SharedDisk) : TruncatedJournal :=
  mkTJ (is_freshest i) (mkDV (is_boundary i) dv).
(** 50-55 *)
Definition is_seq_end (i : ImageState) (dv : SharedDisk) : LSN := Linked.tj_seq_end (to_tj i dv).
(** 111-116 *)
Record EphemeralState := mkES {
  es_image : ImageState;
  es_tail : MsgHistory;
  es_index : gmap LSN AU;
  es_alloc : MiniAllocator }.
(** 151-158, with [to_lj] 144-149 *)
Definition to_aj (e : EphemeralState) (dv : SharedDisk) : AllocJournal.State :=
  AllocJournal.mkState (Linked.mkState (to_tj (es_image e) dv) (es_tail e))
    (es_index e) (is_first (es_image e)) (es_alloc e).
(** AllocationJournal_v.rs 126-132, whether an address is past the newest page *)
Definition past_pointer `{Geometry} (ptr : Pointer) (a : Address) : Prop :=
  match ptr with None => False | Some f => after_page f a end.
(** A decision procedure: no counterpart in /repo. *)
Global Instance after_page_dec `{Geometry} f a : Decision (after_page f a).
Proof. unfold after_page, addr_wf. apply _. Defined.
(** A decision procedure: no counterpart in /repo. *)
Global Instance past_pointer_dec `{Geometry} ptr a : Decision (past_pointer ptr a).
Proof. destruct ptr; simpl; apply _. Defined.
Section UnifiedView.
  Context `{Geometry}.
  (** 58-63 *)
  Definition is_valid (i : ImageState) (dv : SharedDisk) : Prop :=
    let jdv := mkDV (is_boundary i) dv in
    wf_addrs jdv ∧ pointer_is_upstream jdv (is_freshest i) (is_first i) ∧
    bounded_inactive_lsns jdv (build_lsn_au_index (to_tj i dv) (is_first i)) (is_freshest i).
  (** 78-83, with [tight_domain] 65-76 *)
  Definition tight_dv (i : ImageState) (dv : SharedDisk) : SharedDisk :=
    filter (λ kv, au kv.1 ∈ values (build_lsn_au_index (to_tj i dv) (is_first i)) ∧
                  ¬ past_pointer (is_freshest i) kv.1) dv.
  (** 120-129 *)
  Definition es_init_by (e : EphemeralState) (i : ImageState) (dv : SharedDisk) : Prop :=
    is_valid i dv ∧
    e = mkES i (empty_history_at (Linked.tj_seq_end (to_tj i dv))) (build_lsn_au_index (to_tj i dv) (is_first i)) ma_empty.
End UnifiedView.

Module Unified.
  (** 191-196; [Ephemeral] (175-178) is an option. *)
  Record State := mkState {
    ephemeral : option EphemeralState;
    inflight : option ImageState;
    persistent : ImageState;
    dv : SharedDisk }.
  (** 207-218: the labels of AllocationCrashAwareJournal. *)
  Notation Label := AllocCrash.Label (only parsing).
  (** 198-205 *)
  Definition init (s : State) : Prop := s = mkState None None is_empty_image ∅.
  Section Transitions.
  Context `{Geometry}.
  (** 220-230 *)
  Definition load_ephemeral_from_persistent (pre post : State) (l : Label) (ne : EphemeralState) : Prop :=
    l = AllocCrash.LoadEphemeralFromPersistent ∧ ephemeral pre = None ∧ is_valid (persistent pre) (dv pre) ∧
    es_init_by ne (persistent pre) (dv pre) ∧
    post = mkState (Some ne) (inflight pre) (persistent pre) (tight_dv (persistent pre) (dv pre)).
  (** 232-242 *)
  Definition read_for_recovery (pre post : State) (l : Label) : Prop :=
    ∃ m v, l = AllocCrash.ReadForRecovery m ∧ ephemeral pre = Some v ∧
      AllocJournal.next (to_aj v (dv pre)) (to_aj v (dv pre)) (AllocJournal.ReadForRecovery m) ∧ post = pre.
  (** 244-254 *)
  Definition query_end_lsn (pre post : State) (l : Label) : Prop :=
    ∃ n v, l = AllocCrash.QueryEndLsn n ∧ ephemeral pre = Some v ∧
      AllocJournal.next (to_aj v (dv pre)) (to_aj v (dv pre)) (AllocJournal.QueryEndLsn n) ∧ post = pre.
  (** 256-267 *)
  Definition put (pre post : State) (l : Label) (ne : EphemeralState) : Prop :=
    ∃ m v, l = AllocCrash.Put m ∧ ephemeral pre = Some v ∧
      AllocJournal.next (to_aj v (dv pre)) (to_aj ne (dv pre)) (AllocJournal.Put m) ∧
      post = mkState (Some ne) (inflight pre) (persistent pre) (dv pre).
  (** 269-287 *)
  Definition internal (pre post : State) (l : Label) (ne : EphemeralState) (ndv : SharedDisk) : Prop :=
    ∃ alls deallocs v, l = AllocCrash.Internal alls deallocs ∧ ephemeral pre = Some v ∧
      AllocJournal.next (to_aj v (dv pre)) (to_aj ne ndv) (AllocJournal.InternalAllocations alls deallocs) ∧
      post = mkState (Some ne) (inflight pre) (persistent pre) ndv.
  (** 289-294 *)
  Definition query_lsn_persistence (pre post : State) (l : Label) : Prop :=
    ∃ n, l = AllocCrash.QueryLsnPersistence n ∧ n ≤ is_seq_end (persistent pre) (dv pre) ∧ post = pre.
  (** 296-330; where Rust fills [first] with [arbitrary()] any unit is allowed, and
      the lookup of [new_bdy] must succeed. *)
  Definition commit_start (pre post : State) (l : Label) (frozen : ImageState) (depth : nat) : Prop :=
    ∃ new_boundary_lsn max_lsn v, l = AllocCrash.CommitStart new_boundary_lsn max_lsn ∧
      ephemeral pre = Some v ∧ inflight pre = None ∧
      is_seq_end (persistent pre) (dv pre) ≤ is_seq_end frozen (dv pre) ∧
      let new_bdy := is_boundary frozen in
      new_bdy ≤ max_lsn ∧ new_bdy = new_boundary_lsn ∧
      let tj := to_tj (es_image v) (dv pre) in
      Linked.dv_can_crop (disk_view tj) (is_freshest (es_image v)) depth ∧
      let cropped := Linked.tj_crop tj depth in
      Linked.tj_can_discard_to cropped new_bdy ∧
      (is_Some (is_freshest frozen) → es_index v !! new_bdy = Some (is_first frozen)) ∧
      is_freshest frozen = (if decide (Linked.tj_seq_end cropped = new_bdy) then None else freshest_rec cropped) ∧
      post = mkState (ephemeral pre) (Some frozen) (persistent pre) (dv pre).
  (** 332-357 *)
  Definition commit_complete (pre post : State) (l : Label) (ne : EphemeralState) (ndv : SharedDisk) : Prop :=
    ∃ require_end discarded v f, l = AllocCrash.CommitComplete require_end discarded ∧
      ephemeral pre = Some v ∧ inflight pre = Some f ∧
      AllocJournal.next (to_aj v (dv pre)) (to_aj ne ndv)
        (AllocJournal.DiscardOld (is_boundary f) require_end discarded) ∧
      post = mkState (Some ne) None f ndv.
  (** 359-366 *)
  Definition crash (pre post : State) (l : Label) : Prop :=
    ∃ keep, l = AllocCrash.Crash keep ∧
      post = mkState None None (match inflight pre with Some f => if keep : bool then f else persistent pre
                                                      | None => persistent pre end) (dv pre).
  (** The transitions of the state machine (190-513). *)
  Definition next (pre post : State) (l : Label) : Prop :=
    (∃ ne, load_ephemeral_from_persistent pre post l ne) ∨ read_for_recovery pre post l ∨
    query_end_lsn pre post l ∨ (∃ ne, put pre post l ne) ∨ (∃ ne ndv, internal pre post l ne ndv) ∨
    query_lsn_persistence pre post l ∨ (∃ f depth, commit_start pre post l f depth) ∨
    (∃ ne ndv, commit_complete pre post l ne ndv) ∨ crash pre post l.
  End Transitions.
End Unified.
