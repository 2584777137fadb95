(** The store assembled from its layers: the coordination of
    abstract_system/AbstractCrashAwareSystem_v.rs and the crash-tolerant map of
    AbstractCrashAwareMap_v.rs, with a journal on disk pages in place of the plain
    histories and a be-tree in place of the plain map. /repo has each layer and
    the claim that it may take the place of the abstract one (the *Refinement_v.rs
    files), but not the assembled machine. Definitions only. *)
From Verif Require Export Abs_Model Betree_Model LinkedBetree_Model LikesBetree_Model CrashJournal_Model.

(** ** The layers *)
(** What AbstractCrashAwareMap_v.rs 34-189 uses of a map: images, states that can
    be loaded from an image, and steps with the labels of AbstractMap_v.rs 25-38. *)
Record MapLayer := mkMapLayer {
  ml_image : Type;
  ml_state : Type;
  ml_empty : Stamped ml_image;
  ml_load : ml_state → Stamped ml_image → Prop;
  ml_next : ml_state → ml_state → BLabel ml_image → Prop }.
(** What AbstractCrashAwareSystem_v.rs 52-664 uses of a journal. *)
Record JournalLayer := mkJournalLayer {
  jl_state : Type;
  jl_init : jl_state → Prop;
  jl_next : jl_state → jl_state → CTJournal.Label → Prop;
  jl_in_flight : jl_state → bool }.

(** The be-trees, from the most abstract one to the one that counts the
    references to allocation units. *)
(** PagedBetree_v.rs 327-406, PivotBetree_v.rs 486-564, FilteredBetree_v.rs
    611-697, LinkedBetree_v.rs 1063-1471, LikesBetree_v.rs 1028-1770,
    AllocationBetree_v.rs 25-208 *)
Inductive Tree := PagedTree | PivotTree | FilteredTree | LinkedTree | CountedTree | UnitsTree.
(** PagedBetree_v.rs 327-406 *)
Definition paged_layer : MapLayer := mkMapLayer _ _ Betree_Model.Paged.empty_image Betree_Model.Paged.initialize Betree_Model.Paged.next.
(** PivotBetree_v.rs 486-564 *)
Definition pivot_layer : MapLayer := mkMapLayer _ _ Pivot.empty_image Pivot.initialize Pivot.next.
(** FilteredBetree_v.rs 611-697 *)
Definition filtered_layer : MapLayer := mkMapLayer _ _ Filtered.empty_image Filtered.initialize Filtered.next.
(** LinkedBetree_v.rs 1058-1061, 1448-1471: an image is loaded with an empty
    memtable that goes on at the number of the image. *)
Definition linked_start (img : Stamped SLB) : BState SLB :=
  mkBS (empty_memtable (st_seq_end img)) (st_value img).
(** LinkedBetree_v.rs 1063-1471, with the fresh addresses of 1209-1240 *)
Definition linked_layer : MapLayer :=
  mkMapLayer _ _ LinkedBetree_Model.Linked.empty_image
    (λ s img, LinkedBetree_Model.Linked.initialize s (linked_start img)) LinkedBetree_Model.Linked.strong_next.
(** LikesBetree_v.rs 1028-1770 *)
Definition counted_layer : MapLayer :=
  mkMapLayer _ _ LinkedBetree_Model.Linked.empty_image
    (λ s img, LikesBetree.initialize s (linked_start img)) LikesBetree.next.
(** AllocationBetree_v.rs 25-208 *)
Definition units_layer : MapLayer :=
  mkMapLayer _ _ LinkedBetree_Model.Linked.empty_image
    (λ s img, AllocBetree.initialize s (linked_start img)) AllocBetree.next.
(** The layer of each tree: see above. *)
Definition tree_layer (t : Tree) : MapLayer :=
  match t with
  | PagedTree => paged_layer | PivotTree => pivot_layer | FilteredTree => filtered_layer
  | LinkedTree => linked_layer | CountedTree => counted_layer | UnitsTree => units_layer
  end.

(** AllocationCrashAwareJournalRefinement_v.rs 106-130 *)
Definition outer_label (l : AllocCrash.Label) : CTJournal.Label :=
  match l with
  | AllocCrash.LoadEphemeralFromPersistent => CTJournal.LoadEphemeralFromPersistentLabel
  | AllocCrash.ReadForRecovery m => CTJournal.ReadForRecoveryLabel m
  | AllocCrash.QueryEndLsn n => CTJournal.QueryEndLsnLabel n
  | AllocCrash.Put m => CTJournal.PutLabel m
  | AllocCrash.Internal _ _ => CTJournal.InternalLabel
  | AllocCrash.QueryLsnPersistence n => CTJournal.QueryLsnPersistenceLabel n
  | AllocCrash.CommitStart b m => CTJournal.CommitStartLabel b m
  | AllocCrash.CommitComplete e _ => CTJournal.CommitCompleteLabel e
  | AllocCrash.Crash k => CTJournal.CrashLabel k
  end.
(** Whether an option is present: Verus's [is Some]. *)
(** AbstractCrashAwareSystem_v.rs 637 *)
Definition present {A} (o : option A) : bool := match o with Some _ => true | None => false end.
(** The journals on pages: with pages of its own for each image, or on one disk. *)
(** AllocationCrashAwareJournal_v.rs 47-289, UnifiedCrashAwareJournal_v.rs 190-513 *)
Inductive Pages := OwnPages | SharedPages.
(** AllocationCrashAwareJournal_v.rs 47-289, UnifiedCrashAwareJournal_v.rs 190-513 *)
Definition journal_layer `{Geometry} (p : Pages) : JournalLayer :=
  match p with
  | OwnPages => mkJournalLayer AllocCrash.State AllocCrash.init
      (λ s s' l, ∃ l', outer_label l' = l ∧ AllocCrash.next s s' l') (λ s, present (AllocCrash.inflight s))
  | SharedPages => mkJournalLayer Unified.State Unified.init
      (λ s s' l, ∃ l', outer_label l' = l ∧ Unified.next s s' l') (λ s, present (Unified.inflight s))
  end.

(** ** The crash-tolerant map over a be-tree (AbstractCrashAwareMap_v.rs 34-189) *)
Module TreeMap.
  Section TreeMap.
  Context (M : MapLayer).
  (** 29-48 *)
  Record State := mkState {
    persistent : Stamped (ml_image M);
    ephemeral : option (ml_state M);
    in_flight : option (Stamped (ml_image M)) }.
  (** 51-55 *)
  Definition init (s : State) : Prop := s = mkState (ml_empty M) None None.
  (** 69-93 *)
  Definition load_ephemeral_from_persistent (pre post : State) (l : CTMap.Label) : Prop :=
    ∃ end_lsn new_map, l = CTMap.LoadEphemeralFromPersistentLabel end_lsn ∧
      ephemeral pre = None ∧ end_lsn = st_seq_end (persistent pre) ∧
      ml_load M new_map (persistent pre) ∧
      post = mkState (persistent pre) (Some new_map) (in_flight pre).
  (** 99-107 *)
  Definition put_records (pre post : State) (l : CTMap.Label) (new_map : ml_state M) : Prop :=
    ∃ records v, l = CTMap.PutRecordsLabel records ∧ ephemeral pre = Some v ∧
      ml_next M v new_map (Put records) ∧
      post = mkState (persistent pre) (Some new_map) (in_flight pre).
  (** 111-123: the code checks a step of the map but keeps the old state; a query
      changes no tree. *)
  Definition query (pre post : State) (l : CTMap.Label) (new_map : ml_state M) : Prop :=
    ∃ end_lsn key value v, l = CTMap.QueryLabel end_lsn key value ∧ ephemeral pre = Some v ∧
      ml_next M v new_map (Query end_lsn key value) ∧ post = pre.
  (** 127-138 *)
  Definition freeze_map_internal (pre post : State) (l : CTMap.Label)
      (frozen_map : Stamped (ml_image M)) (new_map : ml_state M) : Prop :=
    ∃ v, l = CTMap.InternalLabel ∧ ephemeral pre = Some v ∧ in_flight pre = None ∧
      ml_next M v new_map (FreezeAs frozen_map) ∧
      post = mkState (persistent pre) (Some new_map) (Some frozen_map).
  (** 142-151 *)
  Definition ephemeral_internal (pre post : State) (l : CTMap.Label) (new_map : ml_state M) : Prop :=
    ∃ v, l = CTMap.InternalLabel ∧ ephemeral pre = Some v ∧
      ml_next M v new_map Internal ∧
      post = mkState (persistent pre) (Some new_map) (in_flight pre).
  (** 155-161 *)
  Definition commit_start (pre post : State) (l : CTMap.Label) : Prop :=
    ∃ new_boundary_lsn v f, l = CTMap.CommitStartLabel new_boundary_lsn ∧
      ephemeral pre = Some v ∧ in_flight pre = Some f ∧
      st_seq_end (persistent pre) ≤ new_boundary_lsn ∧
      new_boundary_lsn = st_seq_end f ∧ post = pre.
  (** 165-170 *)
  Definition commit_complete (pre post : State) (l : CTMap.Label) : Prop :=
    ∃ f, l = CTMap.CommitCompleteLabel ∧ in_flight pre = Some f ∧
      post = mkState f (ephemeral pre) None.
  (** 174-187; see [CTMap.crash]. *)
  Definition crash (pre post : State) (l : CTMap.Label) : Prop :=
    ∃ keep, l = CTMap.CrashLabel keep ∧
      post = mkState (if keep then default (persistent pre) (in_flight pre) else persistent pre) None None.
  (** [next], which the state_machine! macro generates from the transitions of AbstractCrashAwareMap_v.rs 34-189. *)
  Definition next (pre post : State) (l : CTMap.Label) : Prop :=
    load_ephemeral_from_persistent pre post l ∨
    (∃ m, put_records pre post l m) ∨
    (∃ m, query pre post l m) ∨
    (∃ f m, freeze_map_internal pre post l f m) ∨
    (∃ m, ephemeral_internal pre post l m) ∨
    commit_start pre post l ∨
    commit_complete pre post l ∨
    crash pre post l.
  End TreeMap.
  Arguments mkState {M}. Arguments persistent {M}. Arguments ephemeral {M}. Arguments in_flight {M}.
  Arguments init {M}. Arguments next {M}.
End TreeMap.

(** ** The whole store (AbstractCrashAwareSystem_v.rs), with the start of a commit
    repaired (C06). *)
Module Store.
  Section Store.
  Context (J : JournalLayer) (M : MapLayer).
  (** 52-92 *)
  Record State := mkState {
    journal : jl_state J;
    mapadt : TreeMap.State M;
    ephemeral : option CoordSys.Known;
    superblock_in_flight : bool }.
  (** 112-124 *)
  Definition init (s : State) : Prop :=
    jl_init J (journal s) ∧ TreeMap.init (mapadt s) ∧ ephemeral s = None ∧ superblock_in_flight s = false.
  (** 130-164 *)
  Definition load_ephemeral_from_persistent (pre post : State) (l : CTAM.Label) : Prop :=
    ∃ nj nm lsn, l = CTAM.Noop ∧
      jl_next J (journal pre) nj CTJournal.LoadEphemeralFromPersistentLabel ∧
      TreeMap.next (mapadt pre) nm (CTMap.LoadEphemeralFromPersistentLabel lsn) ∧
      post = mkState nj nm (Some (CoordSys.mkKnown AsyncMap.init_ephemeral_state ∅ lsn)) (superblock_in_flight pre).
  (** 170-202 *)
  Definition recover (pre post : State) (l : CTAM.Label) : Prop :=
    ∃ nj nm records e, l = CTAM.Noop ∧ ephemeral pre = Some e ∧ mh_wf records ∧
      jl_next J (journal pre) nj (CTJournal.ReadForRecoveryLabel records) ∧
      TreeMap.next (mapadt pre) nm (CTMap.PutRecordsLabel records) ∧
      post = mkState nj nm (Some (CoordSys.mkKnown (CoordSys.progress e) (CoordSys.sync_reqs e) (seq_end records)))
               (superblock_in_flight pre).
  (** 210-255 *)
  Definition accept_request (pre post : State) (l : CTAM.Label) : Prop :=
    ∃ e req, ephemeral pre = Some e ∧ l = CTAM.OperateOp (AsyncMap.RequestOp req) ∧
      req ∉ requests (CoordSys.progress e) ∧
      post = mkState (journal pre) (mapadt pre)
        (Some (CoordSys.mkKnown (mkEph ({[req]} ∪ requests (CoordSys.progress e)) (replies (CoordSys.progress e)))
                 (CoordSys.sync_reqs e) (CoordSys.map_lsn e)))
        (superblock_in_flight pre).
  (** 260-321 *)
  Definition query (pre post : State) (l : CTAM.Label) : Prop :=
    ∃ nj nm e req reply key value, ephemeral pre = Some e ∧
      l = CTAM.OperateOp (AsyncMap.ExecuteOp req reply) ∧
      req_input req = QueryInput key ∧ reply_output reply = QueryOutput value ∧
      req ∈ requests (CoordSys.progress e) ∧ req_id req = reply_id reply ∧
      reply ∉ replies (CoordSys.progress e) ∧
      jl_next J (journal pre) nj (CTJournal.QueryEndLsnLabel (CoordSys.map_lsn e)) ∧
      TreeMap.next (mapadt pre) nm (CTMap.QueryLabel (CoordSys.map_lsn e) key value) ∧
      post = mkState nj nm
        (Some (CoordSys.mkKnown (mkEph (requests (CoordSys.progress e) ∖ {[req]}) ({[reply]} ∪ replies (CoordSys.progress e)))
                 (CoordSys.sync_reqs e) (CoordSys.map_lsn e)))
        (superblock_in_flight pre).
  (** 325-392 *)
  Definition put (pre post : State) (l : CTAM.Label) : Prop :=
    ∃ nj nm e req reply key value, ephemeral pre = Some e ∧
      l = CTAM.OperateOp (AsyncMap.ExecuteOp req reply) ∧
      req_input req = PutInput key value ∧ reply_output reply = PutOutput ∧
      req ∈ requests (CoordSys.progress e) ∧ req_id req = reply_id reply ∧
      reply ∉ replies (CoordSys.progress e) ∧
      let singleton := singleton_at (CoordSys.map_lsn e) (mkKM key (Define value)) in
      jl_next J (journal pre) nj (CTJournal.PutLabel singleton) ∧
      TreeMap.next (mapadt pre) nm (CTMap.PutRecordsLabel singleton) ∧
      post = mkState nj nm
        (Some (CoordSys.mkKnown (mkEph (requests (CoordSys.progress e) ∖ {[req]}) ({[reply]} ∪ replies (CoordSys.progress e)))
                 (CoordSys.sync_reqs e) (CoordSys.map_lsn e + 1)))
        (superblock_in_flight pre).
  (** 396-419 *)
  Definition deliver_reply (pre post : State) (l : CTAM.Label) : Prop :=
    ∃ e reply, ephemeral pre = Some e ∧ l = CTAM.OperateOp (AsyncMap.ReplyOp reply) ∧
      reply ∈ replies (CoordSys.progress e) ∧
      post = mkState (journal pre) (mapadt pre)
        (Some (CoordSys.mkKnown (mkEph (requests (CoordSys.progress e)) (replies (CoordSys.progress e) ∖ {[reply]}))
                 (CoordSys.sync_reqs e) (CoordSys.map_lsn e)))
        (superblock_in_flight pre).
  (** 423-440 *)
  Definition journal_internal (pre post : State) (l : CTAM.Label) : Prop :=
    ∃ nj e, ephemeral pre = Some e ∧ l = CTAM.Noop ∧ jl_next J (journal pre) nj CTJournal.InternalLabel ∧
      post = mkState nj (mapadt pre) (ephemeral pre) (superblock_in_flight pre).
  (** 444-461 *)
  Definition map_internal (pre post : State) (l : CTAM.Label) : Prop :=
    ∃ nm e, ephemeral pre = Some e ∧ l = CTAM.Noop ∧ TreeMap.next (mapadt pre) nm CTMap.InternalLabel ∧
      post = mkState (journal pre) nm (ephemeral pre) (superblock_in_flight pre).
  (** 465-491 *)
  Definition req_sync (pre post : State) (l : CTAM.Label) : Prop :=
    ∃ nj e id, ephemeral pre = Some e ∧ l = CTAM.ReqSyncOp id ∧ CoordSys.sync_reqs e !! id = None ∧
      jl_next J (journal pre) nj (CTJournal.QueryEndLsnLabel (CoordSys.map_lsn e)) ∧
      post = mkState nj (mapadt pre)
        (Some (CoordSys.mkKnown (CoordSys.progress e) (<[id := CoordSys.map_lsn e]> (CoordSys.sync_reqs e)) (CoordSys.map_lsn e)))
        (superblock_in_flight pre).
  (** 495-523 *)
  Definition reply_sync (pre post : State) (l : CTAM.Label) : Prop :=
    ∃ nj e id lsn, ephemeral pre = Some e ∧ l = CTAM.ReplySyncOp id ∧ CoordSys.sync_reqs e !! id = Some lsn ∧
      jl_next J (journal pre) nj (CTJournal.QueryLsnPersistenceLabel lsn) ∧
      post = mkState nj (mapadt pre)
        (Some (CoordSys.mkKnown (CoordSys.progress e) (delete id (CoordSys.sync_reqs e)) (CoordSys.map_lsn e)))
        (superblock_in_flight pre).
  (** 527-557, repaired: the journal moves to its post state (see C06). *)
  Definition commit_start (pre post : State) (l : CTAM.Label) : Prop :=
    ∃ new_boundary_lsn nj e, ephemeral pre = Some e ∧ l = CTAM.Noop ∧
      jl_next J (journal pre) nj (CTJournal.CommitStartLabel new_boundary_lsn (CoordSys.map_lsn e)) ∧
      TreeMap.next (mapadt pre) (mapadt pre) (CTMap.CommitStartLabel new_boundary_lsn) ∧
      post = mkState nj (mapadt pre) (ephemeral pre) true.
  (** 565-572 *)
  Definition superblock_write_lands (pre post : State) (l : CTAM.Label) : Prop :=
    l = CTAM.SyncOp ∧ superblock_in_flight pre = true ∧
    post = mkState (journal pre) (mapadt pre) (ephemeral pre) false.
  (** 576-610 *)
  Definition commit_complete (pre post : State) (l : CTAM.Label) : Prop :=
    ∃ nm nj e, superblock_in_flight pre = false ∧ ephemeral pre = Some e ∧ l = CTAM.Noop ∧
      jl_next J (journal pre) nj (CTJournal.CommitCompleteLabel (CoordSys.map_lsn e)) ∧
      TreeMap.next (mapadt pre) nm CTMap.CommitCompleteLabel ∧
      post = mkState nj nm (ephemeral pre) (superblock_in_flight pre).
  (** 637 *)
  Definition keep_in_flight (s : State) : bool := jl_in_flight J (journal s) && negb (superblock_in_flight s).
  (** 614-659 *)
  Definition crash (pre post : State) (l : CTAM.Label) : Prop :=
    ∃ nj nm, l = CTAM.CrashOp ∧
      jl_next J (journal pre) nj (CTJournal.CrashLabel (keep_in_flight pre)) ∧
      TreeMap.next (mapadt pre) nm (CTMap.CrashLabel (keep_in_flight pre)) ∧
      post = mkState nj nm None false.
  (** [next] of AbstractCrashAwareSystem_v.rs 52-664 *)
  Definition next (pre post : State) (l : CTAM.Label) : Prop :=
    load_ephemeral_from_persistent pre post l ∨ recover pre post l ∨ accept_request pre post l ∨
    query pre post l ∨ put pre post l ∨ deliver_reply pre post l ∨ journal_internal pre post l ∨
    map_internal pre post l ∨ req_sync pre post l ∨ reply_sync pre post l ∨
    superblock_write_lands pre post l ∨ commit_start pre post l ∨ commit_complete pre post l ∨
    crash pre post l.
  End Store.
  Arguments mkState {J M}. Arguments journal {J M}. Arguments mapadt {J M}.
  Arguments ephemeral {J M}. Arguments superblock_in_flight {J M}. Arguments init {J M}. Arguments next {J M}.
End Store.
