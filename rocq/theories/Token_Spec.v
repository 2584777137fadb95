(** Small specifications for the interface between auditor and implementer (C44,
    C45). *)
From Verif Require Import Spec_Model Spec_Spec Disk_Model System_Model System_Spec Token_Model.

(** What the interface's events are for the auditor's system (SystemModel_t.rs
    44-68): a sync request and a sync acknowledgement are kept apart from the
    others, and the traffic between server and disk is invisible. *)
Definition sys_label (l : API.Label) : SystemModel.Label :=
  match l with
  | API.Receive req =>
      match xreq_input req with
      | XSync => SystemModel.AcceptSyncRequest (xreq_id req)
      | XQuery k => SystemModel.AcceptRequest (mkReq (QueryInput k) (xreq_id req))
      | XPut k v => SystemModel.AcceptRequest (mkReq (PutInput k v) (xreq_id req))
      | XNoop => SystemModel.AcceptRequest (mkReq NoopInput (xreq_id req))
      end
  | API.SendReply reply =>
      match xreply_output reply with
      | XSyncOutput => SystemModel.DeliverSyncReply (xreply_id reply)
      | XQueryOutput v => SystemModel.DeliverReply (mkReply (QueryOutput v) (xreply_id reply))
      | XPutOutput => SystemModel.DeliverReply (mkReply PutOutput (xreply_id reply))
      | XNoopOutput => SystemModel.DeliverReply (mkReply NoopOutput (xreply_id reply))
      end
  | API.Step (Tokens.ExecuteOp req reply) =>
      SystemModel.ProgramUIOp (Execute (mapspec_req req) (mapspec_reply reply))
  | API.Step Tokens.InternalOp => SystemModel.ProgramInternal
  | API.Step (Tokens.RequestSyncOp id) => SystemModel.ProgramUIOp (AcceptSync id)
  | API.Step (Tokens.ReplySyncOp id) => SystemModel.ProgramUIOp (DeliverSync id)
  | API.Step (Tokens.DiskOp reqs resps) => SystemModel.ProgramDiskOp (mkInfo reqs resps)
  | API.Predict _ | API.Send _ _ _ | API.ReceiveResponse _ _ => SystemModel.Noop
  | API.DiskInternal => SystemModel.DiskInternal
  | API.Crash => SystemModel.Crash
  end.

(** A formatted disk has nothing in transit. *)
Definition idle_when_formatted {P} (PM : ProgramModel P) : Prop :=
  ∀ d, pm_is_mkfs PM d → AsyncDisk.requests d = ∅ ∧ AsyncDisk.responses d = ∅.

(** The auditor's promises to the holder of tokens (KVStoreTrait_t.rs 40-66): the
    program is what the model token says, the disk has every response for which
    there is a token, and a sync request for which there is a token is pending. *)
Definition program_promise {P} (m : API.State P) (s : SystemModel.State (P:=P)) : Prop :=
  SystemModel.program s = Tokens.model (API.tokens m).
Definition response_promise {P} (m : API.State P) (s : SystemModel.State (P:=P)) : Prop :=
  ∀ id r, (id, r) ∈ Tokens.disk_responses (API.tokens m) →
    AsyncDisk.responses (SystemModel.disk s) !! id = Some r.
Definition sync_promise {P} (m : API.State P) (s : SystemModel.State (P:=P)) : Prop :=
  ∀ id, mkXReq XSync id ∈ Tokens.requests (API.tokens m) → id ∈ SystemModel.sync_requests s.
(** As the code has it (KVStoreTrait_t.rs 52-66): for every request. *)
Definition request_promise {P} (m : API.State P) (s : SystemModel.State (P:=P)) : Prop :=
  ∀ req, req ∈ Tokens.requests (API.tokens m) → xreq_id req ∈ SystemModel.sync_requests s.

(** The contract of [send_disk_request] (ClientAPI_t.rs 119-129): the number a
    request gets is the one in its token. *)
Definition numbers_as_predicted (ls : list API.Label) : Prop :=
  ∀ id number r, API.Send id number r ∈ ls → number = id.
(** The number an event uses up: that of a client's request, or the one under
    which a request goes to the disk. *)
Definition draws (l : API.Label) : option ID :=
  match l with
  | API.Receive req => Some (xreq_id req)
  | API.Send _ number _ => Some number
  | _ => None
  end.
(** No two requests, from a client or to the disk, ever get the same number. *)
Definition numbers_distinct (ls : list API.Label) : Prop :=
  ∀ i j l l' n, ls !! i = Some l → ls !! j = Some l' → draws l = Some n → draws l' = Some n → i = j.
