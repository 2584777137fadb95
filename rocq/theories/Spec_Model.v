(** Model of the trusted specification layer: Splinter/src/spec/
    Messages_t.rs, TotalKMMap_t.rs, FloatingSeq_t.rs, MapSpec_t.rs.
    Definitions only. *)
From stdpp Require Export base numbers list gmap sets fin_maps fin_sets countable.

(** KeyType_t.rs 14-16: [Key(u64)]. Simplification: unbounded [N]; only the
    total order with least element 0 is used. *)
Notation Key := N (only parsing).
(** Messages_t.rs 13-16: [Value(u64)], [Delta(u64)]; unbounded. *)
Notation Value := N (only parsing).
(** Messages_t.rs 16 *)
Notation Delta := N (only parsing).
(** MapSpec_t.rs 178, 322. *)
Notation ID := N (only parsing).
(** MapSpec_t.rs 322 *)
Notation SyncReqId := N (only parsing).

(** Messages_t.rs 20-22, 25-27 *)
Definition default_value : Value := 0%N.
(** Messages_t.rs 25-27 *)
Definition nop_delta : Delta := 0%N.

(** Messages_t.rs 33-38 *)
Inductive Message :=
  | Define (value : Value)
  | Update (delta : Delta).

(** Messages_t.rs 42-51 *)
Definition combine_deltas (new old : Delta) : Delta :=
  if N.eqb new nop_delta then old
  else if N.eqb old nop_delta then new
  else new.

(** Messages_t.rs 54-56 *)
Definition apply_delta (delta : Delta) (value : Value) : Value := value.

(** Messages_t.rs 58-68; [self] is the older message. *)
Definition merge (self new : Message) : Message :=
  match self, new with
  | _, Define new_value => Define new_value
  | Update old_delta, Update new_delta =>
      Update (combine_deltas new_delta old_delta)
  | Define value, Update delta => Define (apply_delta delta value)
  end.

(** Messages_t.rs 70-73 *)
Definition message_empty : Message := Define default_value.

(** The Verus projection [m->value]. It is unspecified on [Update]; we fix it to
    the default value there (reachable stores hold only [Define], proved in
    Spec_Proof.v). *)
(** The projection of Messages_t.rs 33-38. *)
Definition msg_value (m : Message) : Value :=
  match m with Define v => v | Update _ => default_value end.

(** TotalKMMap_t.rs 15: a total map is a function, so [wf] (53-55) is built
    into the type. *)
Definition TotalKMMap := Key → Message.
(** TotalKMMap_t.rs 22-26 *)
Definition kmmap_empty : TotalKMMap := λ _, message_empty.
(** TotalKMMap_t.rs 38-45 *)
Definition kmmap_insert (m : TotalKMMap) (key : Key) (value : Message) : TotalKMMap :=
  λ k, if decide (k = key) then value else m k.

(** FloatingSeq_t.rs 20-29 *)
Record FloatingSeq (T : Type) := mkFS { fs_start : nat; fs_entries : list T }.
Arguments mkFS {T}. Arguments fs_start {T}. Arguments fs_entries {T}.

Section floating_seq.
  Context {T : Type}.
  Implicit Types s : FloatingSeq T.
  (** FloatingSeq_t.rs 35-39 *)
  Definition fs_new (start length : nat) (f : nat → T) : FloatingSeq T :=
    mkFS start ((λ i, f (i + start)) <$> seq 0 (length - start)).
  (** FloatingSeq_t.rs 46-49 *)
  Definition fs_len s : nat := fs_start s + length (fs_entries s).
  (** FloatingSeq_t.rs 51-54 *)
  Definition fs_first_active_index s : nat := fs_start s.
  (** FloatingSeq_t.rs 56-59 *)
  Definition fs_is_active s (i : nat) : Prop := fs_start s ≤ i < fs_len s.
  (** FloatingSeq_t.rs 61-73; [None] outside the active range, where the Rust
      value is unspecified. *)
  Definition fs_get s (i : nat) : option T :=
    if decide (fs_start s ≤ i) then fs_entries s !! (i - fs_start s) else None.
  (** FloatingSeq_t.rs 81-88 *)
  Definition fs_get_prefix s (end_idx : nat) : FloatingSeq T :=
    if decide (end_idx ≤ fs_start s) then mkFS end_idx []
    else mkFS (fs_start s) (take (end_idx - fs_start s) (fs_entries s)).
  (** FloatingSeq_t.rs 93-102 *)
  Definition fs_get_suffix s (new_start : nat) : FloatingSeq T :=
    mkFS new_start (drop (new_start - fs_start s) (fs_entries s)).
  (** FloatingSeq_t.rs 110-113 *)
  Definition fs_append s (elts : list T) : FloatingSeq T :=
    mkFS (fs_start s) (fs_entries s ++ elts).
  (** FloatingSeq_t.rs 115-121 *)
  Definition fs_last s : option T := fs_get s (fs_len s - 1).
  (** FloatingSeq_t.rs 123-127 *)
  Definition fs_drop_last s : FloatingSeq T := fs_get_prefix s (fs_len s - 1).
End floating_seq.

(** MapSpec_t.rs 27-31 *)
Inductive Input :=
  | QueryInput (key : Key)
  | PutInput (key : Key) (value : Value)
  | NoopInput.
(** MapSpec_t.rs 36-41 *)
Inductive Output :=
  | QueryOutput (value : Value)
  | PutOutput
  | NoopOutput.

(** Decidable equality, or an order's decision procedure: no counterpart in /repo. *)
Global Instance Input_eq_dec : EqDecision Input.
Proof. solve_decision. Defined.
(** Decidable equality, or an order's decision procedure: no counterpart in /repo. *)
Global Instance Output_eq_dec : EqDecision Output.
Proof. solve_decision. Defined.
(** Decidable equality, or an order's decision procedure: no counterpart in /repo. *)
Global Instance Message_eq_dec : EqDecision Message.
Proof. solve_decision. Defined.
(** Countability, for std++'s finite maps: no counterpart in /repo. *)
Global Instance Input_countable : Countable Input.
Proof.
  refine (inj_countable'
    (λ i, match i with QueryInput k => inl k | PutInput k v => inr (inl (k, v))
                     | NoopInput => inr (inr ()) end)
    (λ x, match x with inl k => QueryInput k | inr (inl (k, v)) => PutInput k v
                     | inr (inr _) => NoopInput end) _).
  by intros [].
Defined.
(** Countability, for std++'s finite maps: no counterpart in /repo. *)
Global Instance Output_countable : Countable Output.
Proof.
  refine (inj_countable'
    (λ i, match i with QueryOutput k => inl k | PutOutput => inr (inl ())
                     | NoopOutput => inr (inr ()) end)
    (λ x, match x with inl k => QueryOutput k | inr (inl _) => PutOutput
                     | inr (inr _) => NoopOutput end) _).
  by intros [].
Defined.

(** ** MapSpec (MapSpec_t.rs 77-175) *)
Module MapSpec.
  (** 78 *)
  Record State := mkState { kmmap : TotalKMMap }.
  (** 80-84 *)
  Inductive Label :=
    | Query (input : Input) (output : Output)
    | Put (input : Input) (output : Output)
    | Noop (input : Input) (output : Output).
  (** my_init, 45-47 *)
  Definition my_init : State := mkState kmmap_empty.
  (** getInput, 50-56 *)
  Definition getInput (l : Label) : Input :=
    match l with Query i _ => i | Put i _ => i | Noop i _ => i end.
  (** getOutput, 58-64 *)
  Definition getOutput (l : Label) : Output :=
    match l with Query _ o => o | Put _ o => o | Noop _ o => o end.
  (** 95-104 *)
  Definition query (pre post : State) (l : Label) : Prop :=
    ∃ key value, l = Query (QueryInput key) (QueryOutput value) ∧
      msg_value (kmmap pre key) = value ∧ post = pre.
  (** 106-115 *)
  Definition put (pre post : State) (l : Label) : Prop :=
    ∃ key value, l = Put (PutInput key value) PutOutput ∧
      post = mkState (kmmap_insert (kmmap pre) key (Define value)).
  (** 117-124 *)
  Definition noop (pre post : State) (l : Label) : Prop :=
    l = Noop NoopInput NoopOutput ∧ post = pre.
  (** The state machine's [next]. *)
  (** [next], which the state_machine! macro generates from the transitions of MapSpec_t.rs 77-175. *)
  Definition next (pre post : State) (l : Label) : Prop :=
    query pre post l ∨ put pre post l ∨ noop pre post l.
End MapSpec.

(** MapSpec_t.rs 181-191 *)
Record Request := mkReq { req_input : Input; req_id : ID }.
(** MapSpec_t.rs 188-191 *)
Record Reply := mkReply { reply_output : Output; reply_id : ID }.
(** Decidable equality, or an order's decision procedure: no counterpart in /repo. *)
Global Instance Request_eq_dec : EqDecision Request.
Proof. solve_decision. Defined.
(** Decidable equality, or an order's decision procedure: no counterpart in /repo. *)
Global Instance Reply_eq_dec : EqDecision Reply.
Proof. solve_decision. Defined.
(** Countability, for std++'s finite maps: no counterpart in /repo. *)
Global Instance Request_countable : Countable Request.
Proof.
  refine (inj_countable' (λ r, (req_input r, req_id r))
                         (λ p, mkReq p.1 p.2) _).
  by intros [].
Defined.
(** Countability, for std++'s finite maps: no counterpart in /repo. *)
Global Instance Reply_countable : Countable Reply.
Proof.
  refine (inj_countable' (λ r, (reply_output r, reply_id r))
                         (λ p, mkReply p.1 p.2) _).
  by intros [].
Defined.

(** PersistentState, MapSpec_t.rs 204-207, wraps a MapSpec state; we drop the
    wrapper. *)
Definition PersistentState := MapSpec.State.
(** EphemeralState, MapSpec_t.rs 229-236 *)
Record EphemeralState := mkEph { requests : gset Request; replies : gset Reply }.

(** ** AsyncMap (MapSpec_t.rs 250-320) *)
Module AsyncMap.
  (** 251-259 *)
  Inductive Label :=
    | RequestOp (req : Request)
    | ExecuteOp (req : Request) (reply : Reply)
    | ReplyOp (reply : Reply).
  (** 269-276 *)
  Record State := mkState { persistent : PersistentState; ephemeral : EphemeralState }.
  (** 261-267 *)
  Definition init_persistent_state : PersistentState := MapSpec.my_init.
  (** MapSpec_t.rs 261-267 *)
  Definition init_ephemeral_state : EphemeralState := mkEph ∅ ∅.
  (** request, 280-288 *)
  Definition request (pre post : State) (l : Label) : Prop :=
    ∃ req, l = RequestOp req ∧
      req ∉ requests (ephemeral pre) ∧
      post = mkState (persistent pre)
        (mkEph ({[req]} ∪ requests (ephemeral pre)) (replies (ephemeral pre))).
  (** execute, 292-313 *)
  Definition execute (pre post : State) (l : Label)
      (map_label : MapSpec.Label) (post_persistent : PersistentState) : Prop :=
    ∃ req reply, l = ExecuteOp req reply ∧
      req_id req = reply_id reply ∧
      req ∈ requests (ephemeral pre) ∧
      reply ∉ replies (ephemeral pre) ∧
      MapSpec.getInput map_label = req_input req ∧
      MapSpec.getOutput map_label = reply_output reply ∧
      MapSpec.next (persistent pre) post_persistent map_label ∧
      post = mkState post_persistent
        (mkEph (requests (ephemeral pre) ∖ {[req]})
               ({[reply]} ∪ replies (ephemeral pre))).
  (** reply, 315-319 *)
  Definition reply (pre post : State) (l : Label) : Prop :=
    ∃ r, l = ReplyOp r ∧
      r ∈ replies (ephemeral pre) ∧
      post = mkState (persistent pre)
        (mkEph (requests (ephemeral pre)) (replies (ephemeral pre) ∖ {[r]})).
  (** [next], which the state_machine! macro generates from the transitions of MapSpec_t.rs 250-320. *)
  Definition next (pre post : State) (l : Label) : Prop :=
    request pre post l ∨
    (∃ map_label post_persistent, execute pre post l map_label post_persistent) ∨
    reply pre post l.
  (** The initial state of the wrapped machine (261-267). *)
  Definition init : State := mkState init_persistent_state init_ephemeral_state.
End AsyncMap.

(** MapSpec_t.rs 326 *)
Definition Version := PersistentState.
(** SingletonVersions, MapSpec_t.rs 328-330 *)
Definition SingletonVersions (appv : MapSpec.State) : FloatingSeq Version :=
  fs_new 0 1 (λ _, appv).

(** ** CrashTolerantAsyncMap (MapSpec_t.rs 341-533) *)
Module CTAM.
  (** 342-364 *)
  Record State := mkState {
    versions : FloatingSeq Version;
    async_ephemeral : EphemeralState;
    sync_requests : gmap SyncReqId nat }.
  (** 366-373 *)
  Inductive Label :=
    | OperateOp (base_op : AsyncMap.Label)
    | CrashOp
    | SyncOp
    | ReqSyncOp (sync_req_id : SyncReqId)
    | ReplySyncOp (sync_req_id : SyncReqId)
    | Noop.
  (** 378-380 *)
  Definition stable_index (s : State) : nat := fs_first_active_index (versions s).
  (** 383-387 *)
  Definition init : State :=
    mkState (fs_new 0 1 (λ _, AsyncMap.init_persistent_state))
            AsyncMap.init_ephemeral_state ∅.
  (** 392-399 *)
  Definition optionally_append_version (v v' : FloatingSeq Version) : Prop :=
    (0 < fs_len v' ∧ fs_drop_last v' = v) ∨ v' = v.
  (** operate, 404-426. [last] must be active; the Rust value is unspecified
      otherwise and the state machine's invariant (502-506) excludes it. *)
  Definition operate (pre post : State) (l : Label)
      (new_versions : FloatingSeq Version) (new_eph : EphemeralState) : Prop :=
    ∃ base_op p p', l = OperateOp base_op ∧
      optionally_append_version (versions pre) new_versions ∧
      fs_last (versions pre) = Some p ∧
      fs_last new_versions = Some p' ∧
      AsyncMap.next (AsyncMap.mkState p (async_ephemeral pre))
                    (AsyncMap.mkState p' new_eph) base_op ∧
      post = mkState new_versions new_eph (sync_requests pre).
  (** crash, 431-442 *)
  Definition crash (pre post : State) (l : Label) : Prop :=
    l = CrashOp ∧
    post = mkState (fs_get_prefix (versions pre) (stable_index pre + 1))
                   AsyncMap.init_ephemeral_state ∅.
  (** sync, 446-459 *)
  Definition sync (pre post : State) (l : Label) (new_stable_index : nat) : Prop :=
    l = SyncOp ∧
    stable_index pre ≤ new_stable_index < fs_len (versions pre) ∧
    post = mkState (fs_get_suffix (versions pre) new_stable_index)
                   (async_ephemeral pre) (sync_requests pre).
  (** req_sync, 465-474 *)
  Definition req_sync (pre post : State) (l : Label) : Prop :=
    ∃ id, l = ReqSyncOp id ∧
      sync_requests pre !! id = None ∧
      post = mkState (versions pre) (async_ephemeral pre)
        (<[id := fs_len (versions pre) - 1]> (sync_requests pre)).
  (** reply_sync, 481-491 *)
  Definition reply_sync (pre post : State) (l : Label) : Prop :=
    ∃ id v, l = ReplySyncOp id ∧
      sync_requests pre !! id = Some v ∧
      v ≤ stable_index pre ∧
      post = mkState (versions pre) (async_ephemeral pre)
        (delete id (sync_requests pre)).
  (** noop, 495-499 *)
  Definition noop (pre post : State) (l : Label) : Prop := l = Noop ∧ post = pre.
  (** [next], which the state_machine! macro generates from the transitions of MapSpec_t.rs 341-533. *)
  Definition next (pre post : State) (l : Label) : Prop :=
    (∃ nv ne, operate pre post l nv ne) ∨
    crash pre post l ∨
    (∃ i, sync pre post l i) ∨
    req_sync pre post l ∨
    reply_sync pre post l ∨
    noop pre post l.
End CTAM.

(** Executions of a labelled transition system: [run next s ls s'] holds when
    [ls] is the list of labels taken from [s] to [s']. *)
(** Behaviours: no counterpart in /repo, where a state machine is its [init] and [next]. *)
Inductive run {S L : Type} (next : S → S → L → Prop) : S → list L → S → Prop :=
  | run_nil s : run next s [] s
  | run_snoc s ls s' l s'' :
      run next s ls s' → next s' s'' l → run next s (ls ++ [l]) s''.
