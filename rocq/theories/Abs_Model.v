(** Model of Splinter/src/abstract_system/: StampedMap_v.rs, MsgHistory_v.rs,
    AbstractMap_v.rs, AbstractJournal_v.rs, AbstractCrashAwareMap_v.rs,
    AbstractCrashAwareJournal_v.rs, AbstractCrashAwareSystem_v.rs.
    Definitions only. *)
From Verif Require Export Spec_Model.

(** StampedMap_v.rs 10 *)
Notation LSN := nat (only parsing).
(** StampedMap_v.rs 18-24; only the instance [T = TotalKMMap] is shared, the
    be-tree layers instantiate [Stamped] with trees. *)
Record Stamped (T : Type) := mkStamped { st_value : T; st_seq_end : LSN }.
Arguments mkStamped {T}. Arguments st_value {T}. Arguments st_seq_end {T}.
(** StampedMap_v.rs 24 *)
Definition StampedMap := Stamped TotalKMMap.
(** StampedMap_v.rs 26-28 *)
Definition stamped_empty : StampedMap := mkStamped kmmap_empty 0.

(** MsgHistory_v.rs 15-18 *)
Record KeyedMessage := mkKM { km_key : Key; km_message : Message }.
(** Decidable equality, or an order's decision procedure: no counterpart in /repo. *)
Global Instance KeyedMessage_eq_dec : EqDecision KeyedMessage.
Proof. solve_decision. Defined.

(** MsgHistory_v.rs 27-36 *)
Record MsgHistory := mkMH { msgs : gmap LSN KeyedMessage; seq_start : LSN; seq_end : LSN }.

(** MsgHistory_v.rs 57-59 *)
Definition mh_contains (h : MsgHistory) (lsn : LSN) : Prop := seq_start h ≤ lsn < seq_end h.
(** MsgHistory_v.rs 39-42 and 68-70 *)
Definition mh_wf (h : MsgHistory) : Prop :=
  seq_start h ≤ seq_end h ∧ ∀ lsn, is_Some (msgs h !! lsn) ↔ mh_contains h lsn.
(** MsgHistory_v.rs 72-74 *)
Definition mh_is_empty (h : MsgHistory) : Prop := seq_start h = seq_end h.
(** MsgHistory_v.rs 76-81 *)
Definition mh_len (h : MsgHistory) : nat := seq_end h - seq_start h.
(** MsgHistory_v.rs 83-85 *)
Definition can_follow (h : MsgHistory) (lsn : LSN) : Prop := seq_start h = lsn.
(** MsgHistory_v.rs 87-89 *)
Definition can_concat (h other : MsgHistory) : Prop := can_follow other (seq_end h).
(** MsgHistory_v.rs 91-99: [union_prefer_right] is [other ∪ self] in std++. *)
Definition mh_concat (h other : MsgHistory) : MsgHistory :=
  mkMH (msgs other ∪ msgs h) (seq_start h) (seq_end other).
(** MsgHistory_v.rs 152-154 *)
Definition can_discard_to (h : MsgHistory) (lsn : LSN) : Prop := seq_start h ≤ lsn ≤ seq_end h.
(** MsgHistory_v.rs 157-165. [Map::new] is a filter here; the two agree whenever
    the stated precondition [can_discard_to] holds of a well-formed history. *)
Definition discard_recent (h : MsgHistory) (lsn : LSN) : MsgHistory :=
  mkMH (filter (λ p, seq_start h ≤ p.1 < lsn) (msgs h)) (seq_start h) lsn.
(** MsgHistory_v.rs 244-252 (same remark). *)
Definition discard_old (h : MsgHistory) (lsn : LSN) : MsgHistory :=
  mkMH (filter (λ p, lsn ≤ p.1 < seq_end h) (msgs h)) lsn (seq_end h).
(** MsgHistory_v.rs 260-270 *)
Definition maybe_discard_old (h : MsgHistory) (lsn : LSN) : MsgHistory :=
  if decide (seq_start h ≤ lsn) then discard_old h lsn else h.
(** MsgHistory_v.rs 302-310 *)
Definition includes_subseq (h subseq : MsgHistory) : Prop :=
  seq_start h ≤ seq_start subseq ∧ seq_end subseq ≤ seq_end h ∧
  ∀ lsn, mh_contains subseq lsn → mh_contains h lsn ∧ msgs h !! lsn = msgs subseq !! lsn.
(** MsgHistory_v.rs 312-314 *)
Definition empty_history_at (lsn : LSN) : MsgHistory := mkMH ∅ lsn lsn.
(** MsgHistory_v.rs 316-318 *)
Definition singleton_at (lsn : LSN) (msg : KeyedMessage) : MsgHistory :=
  mkMH {[lsn := msg]} lsn (lsn + 1).

(** The step in MsgHistory_v.rs 191-196: merge one logged message into the map. *)
Definition apply_msg (m : TotalKMMap) (km : KeyedMessage) : TotalKMMap :=
  kmmap_insert m (km_key km) (merge (m (km_key km)) (km_message km)).
(** MsgHistory_v.rs 176-198: the recursion that pops the last entry, on the
    number [n] of entries counted from [start]. A missing entry (impossible in a
    well-formed history) leaves the map unchanged. *)
Fixpoint apply_first (ms : gmap LSN KeyedMessage) (start n : nat) (orig : StampedMap) : StampedMap :=
  match n with
  | 0 => orig
  | S n' =>
      let sub_map := apply_first ms start n' orig in
      mkStamped
        (match ms !! (start + n') with
         | Some km => apply_msg (st_value sub_map) km
         | None => st_value sub_map
         end)
        (st_seq_end sub_map + 1)
  end.
(** MsgHistory_v.rs 176-198 *)
Definition apply_to_stamped_map (h : MsgHistory) (orig : StampedMap) : StampedMap :=
  apply_first (msgs h) (seq_start h) (seq_end h - seq_start h) orig.
(** MsgHistory_v.rs 320-327 *)
Definition map_plus_history (m : StampedMap) (h : MsgHistory) : StampedMap :=
  apply_to_stamped_map h m.

(** ** AbstractMap (AbstractMap_v.rs 20-83) *)
Module AbstractMap.
  (** 23 *)
  Record State := mkState { stamped_map : StampedMap }.
  (** 25-38 *)
  Inductive Label :=
    | QueryLabel (end_lsn : LSN) (key : Key) (value : Value)
    | PutLabel (puts : MsgHistory)
    | FreezeAsLabel (stamped_map : StampedMap)
    | InternalLabel.
  (** 41-43 *)
  Definition initialize (s : State) (persistent_map : StampedMap) : Prop :=
    s = mkState persistent_map.
  (** 48-52 *)
  Definition query (pre post : State) (l : Label) : Prop :=
    ∃ end_lsn key value, l = QueryLabel end_lsn key value ∧
      end_lsn = st_seq_end (stamped_map pre) ∧
      value = msg_value (st_value (stamped_map pre) key) ∧ post = pre.
  (** 59-63 *)
  Definition put (pre post : State) (l : Label) : Prop :=
    ∃ puts, l = PutLabel puts ∧
      can_follow puts (st_seq_end (stamped_map pre)) ∧
      post = mkState (map_plus_history (stamped_map pre) puts).
  (** 71-74 *)
  Definition freeze_as (pre post : State) (l : Label) : Prop :=
    l = FreezeAsLabel (stamped_map pre) ∧ post = pre.
  (** 79-81 *)
  Definition internal (pre post : State) (l : Label) : Prop :=
    l = InternalLabel ∧ post = pre.
  (** [next], which the state_machine! macro generates from the transitions of AbstractMap_v.rs 20-83. *)
  Definition next (pre post : State) (l : Label) : Prop :=
    query pre post l ∨ put pre post l ∨ freeze_as pre post l ∨ internal pre post l.
End AbstractMap.

(** ** AbstractJournal (AbstractJournal_v.rs 17-104) *)
Module AbstractJournal.
  (** 18-21 *)
  Record State := mkState { journal : MsgHistory }.
  (** 28-36 *)
  Inductive Label :=
    | ReadForRecoveryLabel (messages : MsgHistory)
    | FreezeForCommitLabel (frozen_journal : MsgHistory)
    | QueryEndLsnLabel (end_lsn : LSN)
    | PutLabel (messages : MsgHistory)
    | DiscardOldLabel (start_lsn require_end : LSN)
    | InternalLabel.
  (** 23-26 *)
  Definition wf (s : State) : Prop := mh_wf (journal s).
  (** 43-46 *)
  Definition initialize (s : State) (persistent_journal : MsgHistory) : Prop :=
    mh_wf persistent_journal ∧ s = mkState persistent_journal.
  (** 54-59 *)
  Definition read_for_recovery (pre post : State) (l : Label) : Prop :=
    wf pre ∧ ∃ messages, l = ReadForRecoveryLabel messages ∧
      includes_subseq (journal pre) messages ∧ post = pre.
  (** 63-68 *)
  Definition freeze_for_commit (pre post : State) (l : Label) : Prop :=
    wf pre ∧ ∃ frozen_journal, l = FreezeForCommitLabel frozen_journal ∧
      mh_wf frozen_journal ∧ includes_subseq (journal pre) frozen_journal ∧ post = pre.
  (** 72-76, with [can_end_at] 38-40 *)
  Definition observe_fresh_journal (pre post : State) (l : Label) : Prop :=
    wf pre ∧ ∃ end_lsn, l = QueryEndLsnLabel end_lsn ∧
      seq_end (journal pre) = end_lsn ∧ post = pre.
  (** 80-85 *)
  Definition put (pre post : State) (l : Label) : Prop :=
    wf pre ∧ ∃ messages, l = PutLabel messages ∧
      seq_end (journal pre) = seq_start messages ∧
      post = mkState (mh_concat (journal pre) messages).
  (** 89-95 *)
  Definition discard_old (pre post : State) (l : Label) : Prop :=
    wf pre ∧ ∃ start_lsn require_end, l = DiscardOldLabel start_lsn require_end ∧
      seq_end (journal pre) = require_end ∧
      can_discard_to (journal pre) start_lsn ∧
      post = mkState (discard_old (journal pre) start_lsn).
  (** 99-102 *)
  Definition internal (pre post : State) (l : Label) : Prop :=
    wf pre ∧ l = InternalLabel ∧ post = pre.
  (** [next], which the state_machine! macro generates from the transitions of AbstractJournal_v.rs 17-104. *)
  Definition next (pre post : State) (l : Label) : Prop :=
    read_for_recovery pre post l ∨ freeze_for_commit pre post l ∨
    observe_fresh_journal pre post l ∨ put pre post l ∨ discard_old pre post l ∨
    internal pre post l.
End AbstractJournal.

(** ** CrashTolerantMap (AbstractCrashAwareMap_v.rs 34-189) *)
Module CTMap.
  (** 29-48; [Ephemeral::Unknown]/[Known{v}] is [option]. *)
  Record State := mkState {
    persistent : StampedMap;
    ephemeral : option AbstractMap.State;
    in_flight : option StampedMap }.
  (** 58-66 *)
  Inductive Label :=
    | LoadEphemeralFromPersistentLabel (end_lsn : LSN)
    | PutRecordsLabel (records : MsgHistory)
    | QueryLabel (end_lsn : LSN) (key : Key) (value : Value)
    | InternalLabel
    | CommitStartLabel (new_boundary_lsn : LSN)
    | CommitCompleteLabel
    | CrashLabel (keep_in_flight : bool).
  (** 51-55 *)
  Definition init (s : State) : Prop := s = mkState stamped_empty None None.
  (** 69-93 *)
  Definition load_ephemeral_from_persistent (pre post : State) (l : Label) : Prop :=
    ∃ end_lsn new_map, l = LoadEphemeralFromPersistentLabel end_lsn ∧
      ephemeral pre = None ∧ end_lsn = st_seq_end (persistent pre) ∧
      AbstractMap.initialize new_map (persistent pre) ∧
      post = mkState (persistent pre) (Some new_map) (in_flight pre).
  (** 99-107 *)
  Definition put_records (pre post : State) (l : Label) (new_map : AbstractMap.State) : Prop :=
    ∃ records v, l = PutRecordsLabel records ∧ ephemeral pre = Some v ∧
      AbstractMap.next v new_map (AbstractMap.PutLabel records) ∧
      post = mkState (persistent pre) (Some new_map) (in_flight pre).
  (** 111-123 *)
  Definition query (pre post : State) (l : Label) (new_map : AbstractMap.State) : Prop :=
    ∃ end_lsn key value v, l = QueryLabel end_lsn key value ∧ ephemeral pre = Some v ∧
      AbstractMap.next v new_map (AbstractMap.QueryLabel end_lsn key value) ∧ post = pre.
  (** 127-138 *)
  Definition freeze_map_internal (pre post : State) (l : Label)
      (frozen_map : StampedMap) (new_map : AbstractMap.State) : Prop :=
    ∃ v, l = InternalLabel ∧ ephemeral pre = Some v ∧ in_flight pre = None ∧
      AbstractMap.next v new_map (AbstractMap.FreezeAsLabel frozen_map) ∧
      post = mkState (persistent pre) (Some new_map) (Some frozen_map).
  (** 142-151 *)
  Definition ephemeral_internal (pre post : State) (l : Label)
      (new_map : AbstractMap.State) : Prop :=
    ∃ v, l = InternalLabel ∧ ephemeral pre = Some v ∧
      AbstractMap.next v new_map AbstractMap.InternalLabel ∧
      post = mkState (persistent pre) (Some new_map) (in_flight pre).
  (** 155-161 *)
  Definition commit_start (pre post : State) (l : Label) : Prop :=
    ∃ new_boundary_lsn v f, l = CommitStartLabel new_boundary_lsn ∧
      ephemeral pre = Some v ∧ in_flight pre = Some f ∧
      st_seq_end (persistent pre) ≤ new_boundary_lsn ∧
      new_boundary_lsn = st_seq_end f ∧ post = pre.
  (** 165-170 *)
  Definition commit_complete (pre post : State) (l : Label) : Prop :=
    ∃ f, l = CommitCompleteLabel ∧ in_flight pre = Some f ∧
      post = mkState f (ephemeral pre) None.
  (** 174-187; [in_flight.unwrap()] of [None] is unspecified in Rust: we keep
      [persistent] there (the coordination system never takes that case). *)
  Definition crash (pre post : State) (l : Label) : Prop :=
    ∃ keep, l = CrashLabel keep ∧
      post = mkState (if keep then default (persistent pre) (in_flight pre) else persistent pre)
                     None None.
  (** [next], which the state_machine! macro generates from the transitions of AbstractCrashAwareMap_v.rs 34-189. *)
  Definition next (pre post : State) (l : Label) : Prop :=
    load_ephemeral_from_persistent pre post l ∨
    (∃ m, put_records pre post l m) ∨
    (∃ m, query pre post l m) ∨
    (∃ f m, freeze_map_internal pre post l f m) ∨
    (∃ m, ephemeral_internal pre post l m) ∨
    commit_start pre post l ∨
    commit_complete pre post l ∨
    crash pre post l.
End CTMap.

(** ** CrashTolerantJournal (AbstractCrashAwareJournal_v.rs 37-215) *)
Module CTJournal.
  (** 38-48 *)
  Record State := mkState {
    persistent : MsgHistory;
    ephemeral : option AbstractJournal.State;
    in_flight : option MsgHistory }.
  (** 58-81 *)
  Inductive Label :=
    | LoadEphemeralFromPersistentLabel
    | ReadForRecoveryLabel (records : MsgHistory)
    | QueryEndLsnLabel (end_lsn : LSN)
    | PutLabel (records : MsgHistory)
    | InternalLabel
    | QueryLsnPersistenceLabel (sync_lsn : LSN)
    | CommitStartLabel (new_boundary_lsn max_lsn : LSN)
    | CommitCompleteLabel (require_end : LSN)
    | CrashLabel (keep_in_flight : bool).
  (** 51-55 *)
  Definition init (s : State) : Prop := s = mkState (mkMH ∅ 0 0) None None.
  (** 88-93 *)
  Definition load_ephemeral_from_persistent (pre post : State) (l : Label)
      (new_journal : AbstractJournal.State) : Prop :=
    l = LoadEphemeralFromPersistentLabel ∧ ephemeral pre = None ∧
    AbstractJournal.initialize new_journal (persistent pre) ∧
    post = mkState (persistent pre) (Some new_journal) (in_flight pre).
  (** 100-109 *)
  Definition read_for_recovery (pre post : State) (l : Label) : Prop :=
    ∃ records v, l = ReadForRecoveryLabel records ∧ ephemeral pre = Some v ∧
      AbstractJournal.next v v (AbstractJournal.ReadForRecoveryLabel records) ∧ post = pre.
  (** 113-121 *)
  Definition query_end_lsn (pre post : State) (l : Label) : Prop :=
    ∃ end_lsn v, l = QueryEndLsnLabel end_lsn ∧ ephemeral pre = Some v ∧
      AbstractJournal.next v v (AbstractJournal.QueryEndLsnLabel end_lsn) ∧ post = pre.
  (** 125-134 *)
  Definition put (pre post : State) (l : Label) (new_journal : AbstractJournal.State) : Prop :=
    ∃ records v, l = PutLabel records ∧ ephemeral pre = Some v ∧
      AbstractJournal.next v new_journal (AbstractJournal.PutLabel records) ∧
      post = mkState (persistent pre) (Some new_journal) (in_flight pre).
  (** 138-147 *)
  Definition internal (pre post : State) (l : Label) (new_journal : AbstractJournal.State) : Prop :=
    ∃ v, l = InternalLabel ∧ ephemeral pre = Some v ∧
      AbstractJournal.next v new_journal AbstractJournal.InternalLabel ∧
      post = mkState (persistent pre) (Some new_journal) (in_flight pre).
  (** 151-154 *)
  Definition query_lsn_persistence (pre post : State) (l : Label) : Prop :=
    ∃ sync_lsn, l = QueryLsnPersistenceLabel sync_lsn ∧
      sync_lsn ≤ seq_end (persistent pre) ∧ post = pre.
  (** 158-182 *)
  Definition commit_start (pre post : State) (l : Label) (frozen_journal : MsgHistory) : Prop :=
    ∃ new_boundary_lsn max_lsn v, l = CommitStartLabel new_boundary_lsn max_lsn ∧
      ephemeral pre = Some v ∧ in_flight pre = None ∧
      mh_wf frozen_journal ∧
      seq_start frozen_journal = new_boundary_lsn ∧
      seq_end (persistent pre) ≤ seq_end frozen_journal ∧
      seq_start frozen_journal ≤ max_lsn ∧
      AbstractJournal.next v v (AbstractJournal.FreezeForCommitLabel frozen_journal) ∧
      post = mkState (persistent pre) (ephemeral pre) (Some frozen_journal).
  (** 186-204 *)
  Definition commit_complete (pre post : State) (l : Label)
      (new_journal : AbstractJournal.State) : Prop :=
    ∃ require_end v f, l = CommitCompleteLabel require_end ∧
      ephemeral pre = Some v ∧ in_flight pre = Some f ∧
      AbstractJournal.next v new_journal
        (AbstractJournal.DiscardOldLabel (seq_start f) require_end) ∧
      post = mkState f (Some new_journal) None.
  (** 208-213 *)
  Definition crash (pre post : State) (l : Label) : Prop :=
    ∃ keep, l = CrashLabel keep ∧
      post = mkState
        (match in_flight pre with Some f => if keep : bool then f else persistent pre
                                | None => persistent pre end) None None.
  (** [next], which the state_machine! macro generates from the transitions of AbstractCrashAwareJournal_v.rs 37-215. *)
  Definition next (pre post : State) (l : Label) : Prop :=
    (∃ j, load_ephemeral_from_persistent pre post l j) ∨
    read_for_recovery pre post l ∨
    query_end_lsn pre post l ∨
    (∃ j, put pre post l j) ∨
    (∃ j, internal pre post l j) ∨
    query_lsn_persistence pre post l ∨
    (∃ f, commit_start pre post l f) ∨
    (∃ j, commit_complete pre post l j) ∨
    crash pre post l.
End CTJournal.

(** ** CoordinationSystem (AbstractCrashAwareSystem_v.rs) *)
Module CoordSys.
  (** Known, 38-45 *)
  Record Known := mkKnown {
    progress : EphemeralState;
    sync_reqs : gmap SyncReqId LSN;
    map_lsn : LSN }.
  (** 52-92 *)
  Record State := mkState {
    journal : CTJournal.State;
    mapadt : CTMap.State;
    ephemeral : option Known;
    superblock_in_flight : bool }.
  (** 97-99: the label wraps a CrashTolerantAsyncMap label; wrapper dropped. *)
  Definition Label := CTAM.Label.
  (** 112-124 *)
  Definition init (s : State) : Prop :=
    CTJournal.init (journal s) ∧ CTMap.init (mapadt s) ∧
    ephemeral s = None ∧ superblock_in_flight s = false.
  (** 130-164 *)
  Definition load_ephemeral_from_persistent (pre post : State) (l : Label)
      (nj : CTJournal.State) (nm : CTMap.State) (lsn : LSN) : Prop :=
    l = CTAM.Noop ∧
    CTJournal.next (journal pre) nj CTJournal.LoadEphemeralFromPersistentLabel ∧
    CTMap.next (mapadt pre) nm (CTMap.LoadEphemeralFromPersistentLabel lsn) ∧
    post = mkState nj nm (Some (mkKnown AsyncMap.init_ephemeral_state ∅ lsn))
                   (superblock_in_flight pre).
  (** 170-202 *)
  Definition recover (pre post : State) (l : Label)
      (nj : CTJournal.State) (nm : CTMap.State) (records : MsgHistory) : Prop :=
    ∃ e, l = CTAM.Noop ∧ ephemeral pre = Some e ∧ mh_wf records ∧
      CTJournal.next (journal pre) nj (CTJournal.ReadForRecoveryLabel records) ∧
      CTMap.next (mapadt pre) nm (CTMap.PutRecordsLabel records) ∧
      post = mkState nj nm (Some (mkKnown (progress e) (sync_reqs e) (seq_end records)))
                     (superblock_in_flight pre).
  (** 210-255 *)
  Definition accept_request (pre post : State) (l : Label) : Prop :=
    ∃ e req, ephemeral pre = Some e ∧ l = CTAM.OperateOp (AsyncMap.RequestOp req) ∧
      req ∉ requests (progress e) ∧
      post = mkState (journal pre) (mapadt pre)
        (Some (mkKnown (mkEph ({[req]} ∪ requests (progress e)) (replies (progress e)))
                       (sync_reqs e) (map_lsn e)))
        (superblock_in_flight pre).
  (** 260-321 *)
  Definition query (pre post : State) (l : Label)
      (nj : CTJournal.State) (nm : CTMap.State) : Prop :=
    ∃ e req reply key value, ephemeral pre = Some e ∧
      l = CTAM.OperateOp (AsyncMap.ExecuteOp req reply) ∧
      req_input req = QueryInput key ∧ reply_output reply = QueryOutput value ∧
      req ∈ requests (progress e) ∧ req_id req = reply_id reply ∧
      reply ∉ replies (progress e) ∧
      CTJournal.next (journal pre) nj (CTJournal.QueryEndLsnLabel (map_lsn e)) ∧
      CTMap.next (mapadt pre) nm (CTMap.QueryLabel (map_lsn e) key value) ∧
      post = mkState nj nm
        (Some (mkKnown (mkEph (requests (progress e) ∖ {[req]}) ({[reply]} ∪ replies (progress e)))
                       (sync_reqs e) (map_lsn e)))
        (superblock_in_flight pre).
  (** 325-392 *)
  Definition put (pre post : State) (l : Label)
      (nj : CTJournal.State) (nm : CTMap.State) : Prop :=
    ∃ e req reply key value, ephemeral pre = Some e ∧
      l = CTAM.OperateOp (AsyncMap.ExecuteOp req reply) ∧
      req_input req = PutInput key value ∧ reply_output reply = PutOutput ∧
      req ∈ requests (progress e) ∧ req_id req = reply_id reply ∧
      reply ∉ replies (progress e) ∧
      let singleton := singleton_at (map_lsn e) (mkKM key (Define value)) in
      CTJournal.next (journal pre) nj (CTJournal.PutLabel singleton) ∧
      CTMap.next (mapadt pre) nm (CTMap.PutRecordsLabel singleton) ∧
      post = mkState nj nm
        (Some (mkKnown (mkEph (requests (progress e) ∖ {[req]}) ({[reply]} ∪ replies (progress e)))
                       (sync_reqs e) (map_lsn e + 1)))
        (superblock_in_flight pre).
  (** 396-419 *)
  Definition deliver_reply (pre post : State) (l : Label) : Prop :=
    ∃ e reply, ephemeral pre = Some e ∧ l = CTAM.OperateOp (AsyncMap.ReplyOp reply) ∧
      reply ∈ replies (progress e) ∧
      post = mkState (journal pre) (mapadt pre)
        (Some (mkKnown (mkEph (requests (progress e)) (replies (progress e) ∖ {[reply]}))
                       (sync_reqs e) (map_lsn e)))
        (superblock_in_flight pre).
  (** 423-440 *)
  Definition journal_internal (pre post : State) (l : Label) (nj : CTJournal.State) : Prop :=
    ∃ e, ephemeral pre = Some e ∧ l = CTAM.Noop ∧
      CTJournal.next (journal pre) nj CTJournal.InternalLabel ∧
      post = mkState nj (mapadt pre) (ephemeral pre) (superblock_in_flight pre).
  (** 444-461 *)
  Definition map_internal (pre post : State) (l : Label) (nm : CTMap.State) : Prop :=
    ∃ e, ephemeral pre = Some e ∧ l = CTAM.Noop ∧
      CTMap.next (mapadt pre) nm CTMap.InternalLabel ∧
      post = mkState (journal pre) nm (ephemeral pre) (superblock_in_flight pre).
  (** 465-491 *)
  Definition req_sync (pre post : State) (l : Label) (nj : CTJournal.State) : Prop :=
    ∃ e id, ephemeral pre = Some e ∧ l = CTAM.ReqSyncOp id ∧
      sync_reqs e !! id = None ∧
      CTJournal.next (journal pre) nj (CTJournal.QueryEndLsnLabel (map_lsn e)) ∧
      post = mkState nj (mapadt pre)
        (Some (mkKnown (progress e) (<[id := map_lsn e]> (sync_reqs e)) (map_lsn e)))
        (superblock_in_flight pre).
  (** 495-523 *)
  Definition reply_sync (pre post : State) (l : Label) (nj : CTJournal.State) : Prop :=
    ∃ e id lsn, ephemeral pre = Some e ∧ l = CTAM.ReplySyncOp id ∧
      sync_reqs e !! id = Some lsn ∧
      CTJournal.next (journal pre) nj (CTJournal.QueryLsnPersistenceLabel lsn) ∧
      post = mkState nj (mapadt pre)
        (Some (mkKnown (progress e) (delete id (sync_reqs e)) (map_lsn e)))
        (superblock_in_flight pre).
  (** 527-557, as written: the journal (and map) post state in the premises is
      [pre.journal] (resp. [pre.mapadt]). *)
  Definition commit_start (pre post : State) (l : Label) (new_boundary_lsn : LSN) : Prop :=
    ∃ e, ephemeral pre = Some e ∧ l = CTAM.Noop ∧
      CTJournal.next (journal pre) (journal pre)
        (CTJournal.CommitStartLabel new_boundary_lsn (map_lsn e)) ∧
      CTMap.next (mapadt pre) (mapadt pre) (CTMap.CommitStartLabel new_boundary_lsn) ∧
      post = mkState (journal pre) (mapadt pre) (ephemeral pre) true.
  (** The evident intention of 527-557: the journal moves to its post state. Not
      in the code; used to state what holds once the defect is repaired. *)
  Definition commit_start_fixed (pre post : State) (l : Label)
      (new_boundary_lsn : LSN) (nj : CTJournal.State) : Prop :=
    ∃ e, ephemeral pre = Some e ∧ l = CTAM.Noop ∧
      CTJournal.next (journal pre) nj
        (CTJournal.CommitStartLabel new_boundary_lsn (map_lsn e)) ∧
      CTMap.next (mapadt pre) (mapadt pre) (CTMap.CommitStartLabel new_boundary_lsn) ∧
      post = mkState nj (mapadt pre) (ephemeral pre) true.
  (** 565-572 *)
  Definition superblock_write_lands (pre post : State) (l : Label) : Prop :=
    l = CTAM.SyncOp ∧ superblock_in_flight pre = true ∧
    post = mkState (journal pre) (mapadt pre) (ephemeral pre) false.
  (** 576-610 *)
  Definition commit_complete (pre post : State) (l : Label)
      (nm : CTMap.State) (nj : CTJournal.State) : Prop :=
    ∃ e, superblock_in_flight pre = false ∧ ephemeral pre = Some e ∧ l = CTAM.Noop ∧
      CTJournal.next (journal pre) nj (CTJournal.CommitCompleteLabel (map_lsn e)) ∧
      CTMap.next (mapadt pre) nm CTMap.CommitCompleteLabel ∧
      post = mkState nj nm (ephemeral pre) (superblock_in_flight pre).
  (** 637 *)
  Definition keep_in_flight (s : State) : bool :=
    match CTJournal.in_flight (journal s) with
    | Some _ => negb (superblock_in_flight s) | None => false end.
  (** 614-659 *)
  Definition crash (pre post : State) (l : Label)
      (nj : CTJournal.State) (nm : CTMap.State) : Prop :=
    l = CTAM.CrashOp ∧
    CTJournal.next (journal pre) nj (CTJournal.CrashLabel (keep_in_flight pre)) ∧
    CTMap.next (mapadt pre) nm (CTMap.CrashLabel (keep_in_flight pre)) ∧
    post = mkState nj nm None false.
  (** All transitions except the start of a commit. *)
  (** Most of [next] of AbstractCrashAwareSystem_v.rs 52-664. *)
  Definition next_common (pre post : State) (l : Label) : Prop :=
    (∃ nj nm lsn, load_ephemeral_from_persistent pre post l nj nm lsn) ∨
    (∃ nj nm r, recover pre post l nj nm r) ∨
    accept_request pre post l ∨
    (∃ nj nm, query pre post l nj nm) ∨
    (∃ nj nm, put pre post l nj nm) ∨
    deliver_reply pre post l ∨
    (∃ nj, journal_internal pre post l nj) ∨
    (∃ nm, map_internal pre post l nm) ∨
    (∃ nj, req_sync pre post l nj) ∨
    (∃ nj, reply_sync pre post l nj) ∨
    superblock_write_lands pre post l ∨
    (∃ nm nj, commit_complete pre post l nm nj) ∨
    (∃ nj nm, crash pre post l nj nm).
  (** The code as written. *)
  (** [next], which the state_machine! macro generates from the transitions of AbstractCrashAwareSystem_v.rs 52-664. *)
  Definition next (pre post : State) (l : Label) : Prop :=
    next_common pre post l ∨ ∃ b, commit_start pre post l b.
  (** The code with [commit_start] repaired. *)
  (** [next] of AbstractCrashAwareSystem_v.rs 52-664 after the repair. *)
  Definition next_fixed (pre post : State) (l : Label) : Prop :=
    next_common pre post l ∨ ∃ b nj, commit_start_fixed pre post l b nj.
End CoordSys.
