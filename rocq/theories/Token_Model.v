(** Model of the interface between the auditor and the implementer:
    Splinter/src/trusted/KVStoreTokenized_t.rs (the tokens),
    trusted/ClientAPI_t.rs (the calls that make and take them, with what they do
    physically) and the restart of trusted/TrustedEntry_t.rs, on spec/AsyncDisk_t.rs.
    Definitions only. *)
From Verif Require Export Exec_Model.

(** Countability, for std++'s multisets: no counterpart in /repo. *)
Global Instance XInput_countable : Countable XInput.
Proof.
  refine (inj_countable'
    (λ i, match i with XQuery k => inl k | XPut k v => inr (inl (k, v)) | XSync => inr (inr true)
                     | XNoop => inr (inr false) end)
    (λ x, match x with inl k => XQuery k | inr (inl (k, v)) => XPut k v | inr (inr true) => XSync
                     | inr (inr false) => XNoop end) _).
  by intros [].
Defined.
(** Countability: no counterpart in /repo. *)
Global Instance XOutput_countable : Countable XOutput.
Proof.
  refine (inj_countable'
    (λ i, match i with XQueryOutput v => inl v | XPutOutput => inr 0%N | XSyncOutput => inr 1%N
                     | XNoopOutput => inr 2%N end)
    (λ x, match x with inl v => XQueryOutput v | inr 0%N => XPutOutput | inr 1%N => XSyncOutput
                     | inr _ => XNoopOutput end) _).
  by intros [].
Defined.
(** Countability: no counterpart in /repo. *)
Global Instance XRequest_countable : Countable XRequest.
Proof.
  refine (inj_countable' (λ r, (xreq_input r, xreq_id r)) (λ p, mkXReq p.1 p.2) _). by intros [].
Defined.
(** Countability: no counterpart in /repo. *)
Global Instance XReply_countable : Countable XReply.
Proof.
  refine (inj_countable' (λ r, (xreply_output r, xreply_id r)) (λ p, mkXReply p.1 p.2) _). by intros [].
Defined.

(** ReqReply_t.rs 39-49 *)
Definition mapspec_req (r : XRequest) : Request :=
  mkReq match xreq_input r with
        | XQuery k => QueryInput k | XPut k v => PutInput k v | _ => NoopInput
        end (xreq_id r).
(** ReqReply_t.rs 58-68 *)
Definition mapspec_reply (r : XReply) : Reply :=
  mkReply match xreply_output r with
          | XQueryOutput v => QueryOutput v | XPutOutput => PutOutput | _ => NoopOutput
          end (xreply_id r).

(** ** The tokens (KVStoreTokenized_t.rs 13-115) *)
Module Tokens.
  Section Tokens.
  Context {P : Type} (PM : ProgramModel P).
  (** 14-35 *)
  Record State := mkState {
    model : P;
    requests : gmultiset XRequest;
    replies : gmultiset XReply;
    disk_requests : gmultiset (ID * DiskRequest);
    disk_responses : gmultiset (ID * DiskResponse) }.
  (** 37-46 *)
  Inductive Label :=
    | ExecuteOp (req : XRequest) (reply : XReply)
    | InternalOp
    | RequestSyncOp (sync_req_id : SyncReqId)
    | ReplySyncOp (sync_req_id : SyncReqId)
    | DiskOp (reqs : gmultiset (ID * DiskRequest)) (resps : gmultiset (ID * DiskResponse)).
  (** 48-57 *)
  Definition initialize (s : State) : Prop :=
    pm_init PM (model s) ∧ s = mkState (model s) ∅ ∅ ∅ ∅.
  (** 61-65 *)
  Definition internal (pre post : State) (l : Label) (new : P) : Prop :=
    l = InternalOp ∧ pm_next PM (model pre) new ProgInternal ∧
    post = mkState new (requests pre) (replies pre) (disk_requests pre) (disk_responses pre).
  (** 67-77. [typed = false] is the code as written; [typed = true] adds that the
      reply is not a sync acknowledgement, as 69 says of the request. *)
  Definition execute_transition (typed : bool) (pre post : State) (l : Label) (new : P) : Prop :=
    ∃ req reply, l = ExecuteOp req reply ∧ xreq_input req ≠ XSync ∧
      (typed = true → xreply_output reply ≠ XSyncOutput) ∧
      req ∈ requests pre ∧
      pm_next PM (model pre) new (UserIO (Execute (mapspec_req req) (mapspec_reply reply))) ∧
      post = mkState new (requests pre ∖ {[+ req +]}) (replies pre ⊎ {[+ reply +]})
               (disk_requests pre) (disk_responses pre).
  (** 79-92 *)
  Definition disk_transitions (pre post : State) (l : Label) (new : P) : Prop :=
    ∃ reqs resps, l = DiskOp reqs resps ∧ resps ⊆ disk_responses pre ∧
      pm_next PM (model pre) new (DiskIO (mkInfo reqs resps)) ∧
      post = mkState new (requests pre) (replies pre) (disk_requests pre ⊎ reqs)
               (disk_responses pre ∖ resps).
  (** 96-104 *)
  Definition accept_sync_request (pre post : State) (l : Label) (new : P) : Prop :=
    ∃ id, l = RequestSyncOp id ∧ mkXReq XSync id ∈ requests pre ∧
      pm_next PM (model pre) new (UserIO (AcceptSync id)) ∧
      post = mkState new (requests pre ∖ {[+ mkXReq XSync id +]}) (replies pre)
               (disk_requests pre) (disk_responses pre).
  (** 106-114 *)
  Definition deliver_sync_reply (pre post : State) (l : Label) (new : P) : Prop :=
    ∃ id, l = ReplySyncOp id ∧
      pm_next PM (model pre) new (UserIO (DeliverSync id)) ∧
      post = mkState new (requests pre) (replies pre ⊎ {[+ mkXReply XSyncOutput id +]})
               (disk_requests pre) (disk_responses pre).
  (** [next], which the tokenized_state_machine! macro generates from the
      transitions of 59-114. *)
  Definition next (typed : bool) (pre post : State) (l : Label) : Prop :=
    ∃ new, internal pre post l new ∨ execute_transition typed pre post l new ∨
      disk_transitions pre post l new ∨ accept_sync_request pre post l new ∨
      deliver_sync_reply pre post l new.
  End Tokens.
  Arguments State : clear implicits.
  Arguments mkState {P}.
End Tokens.

(** ** The interface (ClientAPI_t.rs) *)
Module API.
  (** The places where the interface does not keep its word, as switches.
      [typed]: see [Tokens.execute_transition]. [strict]: nothing draws a number
      between a prediction (112-116) and the sending of the request it was made
      for (119-129), which nothing in the interface asks for. [keeps]: a restart
      continues the numbering (54 starts it at 0). *)
  Record Config := mkConfig { typed : bool; strict : bool; keeps : bool }.
  (** ClientAPI_t.rs 28-160 as it is. *)
  Definition as_written : Config := mkConfig false false false.
  (** ClientAPI_t.rs 28-160, repaired. *)
  Definition repaired : Config := mkConfig true true true.

  (** What is seen at the interface. [Send] carries the id in the token and the
      number the request gets. ClientAPI_t.rs 65-142. *)
  Inductive Label :=
    | Receive (req : XRequest)
    | SendReply (reply : XReply)
    | Step (l : Tokens.Label)
    | Predict (id : ID)
    | Send (id number : ID) (r : DiskRequest)
    | ReceiveResponse (id : ID) (resp : DiskResponse)
    | DiskInternal
    | Crash.

  Section API.
  Context {P : Type} (PM : ProgramModel P) `{Geometry} (c : Config).
  (** The tokens the implementer holds, the prediction in its hand, the counter
      of ClientAPI_t.rs 29 (a [u64] there, unbounded here), and the disk. *)
  Record State := mkState {
    tokens : Tokens.State P;
    predicted : option ID;
    counter : ID;
    disk : AsyncDisk.State }.
  (** TrustedEntry_t.rs 14-19, ClientAPI_t.rs 41-55, on a formatted disk
      (SystemModel_t.rs 70-81). *)
  Definition init (s : State) : Prop :=
    Tokens.initialize PM (tokens s) ∧ pm_is_mkfs PM (disk s) ∧ predicted s = None ∧ counter s = 0%N.
  (** No disk request is being numbered (see [strict]): ClientAPI_t.rs 112-129. *)
  Definition quiet (s : State) : Prop :=
    strict c = true → predicted s = None ∧ Tokens.disk_requests (tokens s) = ∅.
  (** ClientAPI_t.rs 65-81, 84-95: which request comes is up to the client. *)
  Definition receive (pre post : State) (l : Label) : Prop :=
    ∃ input, quiet pre ∧ l = Receive (mkXReq input (counter pre)) ∧
      let t := tokens pre in
      post = mkState (Tokens.mkState (Tokens.model t) (Tokens.requests t ⊎ {[+ mkXReq input (counter pre) +]})
                        (Tokens.replies t) (Tokens.disk_requests t) (Tokens.disk_responses t))
               (predicted pre) (counter pre + 1)%N (disk pre).
  (** ClientAPI_t.rs 100-109 *)
  Definition send_reply (pre post : State) (l : Label) : Prop :=
    ∃ reply, l = SendReply reply ∧ reply ∈ Tokens.replies (tokens pre) ∧
      let t := tokens pre in
      post = mkState (Tokens.mkState (Tokens.model t) (Tokens.requests t) (Tokens.replies t ∖ {[+ reply +]})
                        (Tokens.disk_requests t) (Tokens.disk_responses t))
               (predicted pre) (counter pre) (disk pre).
  (** A transition of the tokens. One that asks for something of the disk needs a
      predicted id to ask under (Implementation_v.rs 510-555, 812-846).
      Simplification: it asks for one thing, since 119-129 sends one at a time and
      there is no second id to predict. *)
  Definition step (pre post : State) (l : Label) : Prop :=
    ∃ tl t', l = Step tl ∧ Tokens.next PM (typed c) (tokens pre) t' tl ∧
      (∀ reqs resps, tl = Tokens.DiskOp reqs resps → reqs = ∅ ∨
         ∃ id r, reqs = {[+ (id, r) +]} ∧ predicted pre = Some id ∧
           (strict c = true → Tokens.disk_requests (tokens pre) = ∅)) ∧
      post = mkState t' (predicted pre) (counter pre) (disk pre).
  (** ClientAPI_t.rs 112-116: the number that would be drawn now. *)
  Definition predict (pre post : State) (l : Label) : Prop :=
    quiet pre ∧ l = Predict (counter pre) ∧
    post = mkState (tokens pre) (Some (counter pre)) (counter pre) (disk pre).
  (** ClientAPI_t.rs 119-129: the request goes to the disk under the number drawn
      now; the token is used up. *)
  Definition send_disk_request (pre post : State) (l : Label) : Prop :=
    ∃ id r d, l = Send id (counter pre) r ∧ predicted pre = Some id ∧
      (id, r) ∈ Tokens.disk_requests (tokens pre) ∧
      AsyncDisk.disk_ops (disk pre) d (AsyncDisk.DiskOps {[counter pre := r]} ∅) ∧
      let t := tokens pre in
      post = mkState (Tokens.mkState (Tokens.model t) (Tokens.requests t) (Tokens.replies t)
                        (Tokens.disk_requests t ∖ {[+ (id, r) +]}) (Tokens.disk_responses t))
               None (counter pre + 1)%N d.
  (** ClientAPI_t.rs 134-142, by its contract (the body is a stub): some response
      the disk has ready. *)
  Definition receive_disk_response (pre post : State) (l : Label) : Prop :=
    ∃ id resp d, l = ReceiveResponse id resp ∧
      AsyncDisk.disk_ops (disk pre) d (AsyncDisk.DiskOps ∅ {[id := resp]}) ∧
      let t := tokens pre in
      post = mkState (Tokens.mkState (Tokens.model t) (Tokens.requests t) (Tokens.replies t)
                        (Tokens.disk_requests t) (Tokens.disk_responses t ⊎ {[+ (id, resp) +]}))
               (predicted pre) (counter pre) d.
  (** AsyncDisk_t.rs 152-210: the disk carries out one request. *)
  Definition disk_internal (pre post : State) (l : Label) : Prop :=
    ∃ d, l = DiskInternal ∧ AsyncDisk.next (disk pre) d AsyncDisk.Internal ∧
      post = mkState (tokens pre) (predicted pre) (counter pre) d.
  (** The machine fails; TrustedEntry_t.rs 14-19 runs again: new tokens, a new
      interface. AsyncDisk_t.rs 213-218. *)
  Definition crash (pre post : State) (l : Label) : Prop :=
    ∃ t d, l = Crash ∧ Tokens.initialize PM t ∧ AsyncDisk.crash (disk pre) d AsyncDisk.Crash ∧
      post = mkState t None (if keeps c then counter pre else 0%N) d.
  (** The calls of ClientAPI_t.rs 65-142, the transitions, the disk, a failure. *)
  Definition next (pre post : State) (l : Label) : Prop :=
    receive pre post l ∨ send_reply pre post l ∨ step pre post l ∨ predict pre post l ∨
    send_disk_request pre post l ∨ receive_disk_response pre post l ∨
    disk_internal pre post l ∨ crash pre post l.
  End API.
  Arguments State : clear implicits.
  Arguments mkState {P}.
End API.
