(** Small specifications for the disk, the request bags and the whole system
    (C21, C22, C23, C35), independent of the state machines' internals. *)
From Verif Require Import Spec_Model Spec_Spec Disk_Model System_Model.

(** ** Disk traces (C21) *)
(** What an observer inside the disk sees: requests submitted and responses
    handed over, one read or write taking effect, a crash. *)
Inductive disk_event :=
  | EOps (reqs : gmap ID DiskRequest) (resps : gmap ID DiskResponse)
  | ERead (id : ID) (a : Address) (data : RawPage)
  | EWrite (id : ID) (a : Address) (data : RawPage)
  | ECrash.

(** The label under which the disk's state machine takes the event. *)
Definition disk_label (e : disk_event) : AsyncDisk.Label :=
  match e with
  | EOps reqs resps => AsyncDisk.DiskOps reqs resps
  | ERead _ _ _ | EWrite _ _ _ => AsyncDisk.Internal
  | ECrash => AsyncDisk.Crash
  end.

(** The disk's transitions, with the effect of internal steps made visible: a
    step under the event's label; an internal step answers exactly the request
    named in the event. *)
Definition disk_step `{Geometry} (pre post : AsyncDisk.State) (e : disk_event) : Prop :=
  AsyncDisk.next pre post (disk_label e) ∧
  match e with
  | ERead id a data =>
      AsyncDisk.requests pre !! id = Some (ReadReq a) ∧
      AsyncDisk.requests post !! id = None ∧
      AsyncDisk.responses post !! id = Some (ReadResp data)
  | EWrite id a data =>
      AsyncDisk.requests pre !! id = Some (WriteReq a data) ∧
      AsyncDisk.requests post !! id = None
  | _ => True
  end.

(** The page the latest write in [tr] left at [a]; [None] when never written. *)
Definition last_page (tr : list disk_event) (a : Address) : option RawPage :=
  fold_left (λ acc e, match e with
                      | EWrite _ a' d => if decide (a' = a) then Some d else acc
                      | _ => acc end) tr None.

Definition submits (e : disk_event) (id : ID) (q : DiskRequest) : Prop :=
  ∃ reqs resps, e = EOps reqs resps ∧ reqs !! id = Some q.
Definition answers (e : disk_event) (id : ID) (r : DiskResponse) : Prop :=
  ∃ reqs resps, e = EOps reqs resps ∧ resps !! id = Some r.
(** [e] is the moment request [q] takes effect on the disk, with answer [r]. *)
Definition performs (e : disk_event) (id : ID) (q : DiskRequest) (r : DiskResponse) : Prop :=
  match q with
  | ReadReq a => ∃ d, e = ERead id a d ∧ r = ReadResp d
  | WriteReq a d => e = EWrite id a d ∧ r = WriteResp
  end.
(** No crash and no other submission under [id] strictly between [i] and [j]. *)
Definition undisturbed (tr : list disk_event) (id : ID) (i j : nat) : Prop :=
  ∀ m e, i < m < j → tr !! m = Some e → e ≠ ECrash ∧ ∀ q, ¬ submits e id q.

(** ** Client-visible events of the system (C22, C23) *)
(** RefinementObligation_t.rs 23-29 *)
Definition externally_visible (l : CTAM.Label) : Prop :=
  match l with
  | CTAM.OperateOp (AsyncMap.RequestOp _) | CTAM.OperateOp (AsyncMap.ReplyOp _) => True
  | CTAM.ReqSyncOp _ | CTAM.ReplySyncOp _ | CTAM.CrashOp => True
  | _ => False
  end.
(** RefinementObligation_t.rs 33-60: the project's own correspondence. *)
Definition label_correspondence (l : SystemModel.Label) (a : CTAM.Label) : Prop :=
  match l with
  | SystemModel.AcceptRequest req => a = CTAM.OperateOp (AsyncMap.RequestOp req)
  | SystemModel.DeliverReply reply => a = CTAM.OperateOp (AsyncMap.ReplyOp reply)
  | SystemModel.ProgramUIOp (AcceptSync id) => a = CTAM.ReqSyncOp id
  | SystemModel.ProgramUIOp (DeliverSync id) => a = CTAM.ReplySyncOp id
  | SystemModel.Crash => a = CTAM.CrashOp
  | _ => ¬ externally_visible a
  end.
(** A stricter correspondence: executions are matched as well, only a disk-internal
    step may make versions durable, and everything else is invisible. *)
Definition sys_event (l : SystemModel.Label) (a : CTAM.Label) : Prop :=
  match l with
  | SystemModel.AcceptRequest req => a = CTAM.OperateOp (AsyncMap.RequestOp req)
  | SystemModel.DeliverReply reply => a = CTAM.OperateOp (AsyncMap.ReplyOp reply)
  | SystemModel.ProgramUIOp (Execute req reply) => a = CTAM.OperateOp (AsyncMap.ExecuteOp req reply)
  | SystemModel.ProgramUIOp (AcceptSync id) => a = CTAM.ReqSyncOp id
  | SystemModel.ProgramUIOp (DeliverSync id) => a = CTAM.ReplySyncOp id
  | SystemModel.Crash => a = CTAM.CrashOp
  | SystemModel.DiskInternal => a = CTAM.SyncOp ∨ a = CTAM.Noop
  | _ => a = CTAM.Noop
  end.
(** The same with the sync handshake left out. *)
Definition sys_data_event (l : SystemModel.Label) (a : CTAM.Label) : Prop :=
  match l with
  | SystemModel.ProgramUIOp (AcceptSync _) | SystemModel.ProgramUIOp (DeliverSync _) => a = CTAM.Noop
  | _ => sys_event l a
  end.

(** A sync a client requested at [i] and was told about at [j] keeps everything
    that was visible at [i] visible, as a prefix, at every point after [j]. *)
Definition client_syncs_durable (ls : list SystemModel.Label) (logs : list (list Input)) : Prop :=
  ∀ i j id, ls !! i = Some (SystemModel.AcceptSyncRequest id) →
    ls !! j = Some (SystemModel.DeliverSyncReply id) →
    ∃ a, logs !! i = Some a ∧ ∀ k b, j < k → logs !! k = Some b → a `prefix_of` b.

(** Every acknowledgement delivered to a client answers an earlier request with
    that id, and no request is answered twice. *)
Definition syncs_answered_once (ls : list SystemModel.Label) : Prop :=
  ∀ j id, ls !! j = Some (SystemModel.DeliverSyncReply id) →
    (∃ i, i < j ∧ ls !! i = Some (SystemModel.AcceptSyncRequest id)) ∧
    (∀ j', ls !! j' = Some (SystemModel.DeliverSyncReply id) → j' = j).
(** The same for ordinary requests: every reply answers an earlier request, with
    the same id, and no request is answered twice. *)
Definition requests_answered_once (ls : list SystemModel.Label) : Prop :=
  ∀ j reply, ls !! j = Some (SystemModel.DeliverReply reply) →
    (∃ i req, i < j ∧ ls !! i = Some (SystemModel.AcceptRequest req) ∧ req_id req = reply_id reply) ∧
    (∀ j' reply', ls !! j' = Some (SystemModel.DeliverReply reply') → reply_id reply' = reply_id reply → j' = j).
