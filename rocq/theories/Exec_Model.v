(** Model of the executable key-value server:
    Splinter/src/implementation/Implementation_v.rs, the executable half of
    implementation/DiskLayout_v.rs, trusted/ReqReply_t.rs and the request
    numbering of trusted/ClientAPI_t.rs, running on spec/AsyncDisk_t.rs.
    Only executable state and effects are modelled: the [Tracked]/[Ghost]
    tokens and proof blocks are erased. Definitions only. *)
From Verif Require Export Abs_Model Disk_Model System_Model.

(** ReqReply_t.rs 14-20 *)
Inductive XInput :=
  | XQuery (k : Key)
  | XPut (k : Key) (v : Value)
  | XSync
  | XNoop.
(** Decidable equality, or an order's decision procedure: no counterpart in /repo. *)
Global Instance XInput_eq_dec : EqDecision XInput.
Proof. solve_decision. Defined.
(** ReqReply_t.rs 24-31 *)
Inductive XOutput :=
  | XQueryOutput (v : Value)
  | XPutOutput
  | XSyncOutput
  | XNoopOutput.
(** Decidable equality, or an order's decision procedure: no counterpart in /repo. *)
Global Instance XOutput_eq_dec : EqDecision XOutput.
Proof. solve_decision. Defined.
(** ReqReply_t.rs 33-37 and 52-56 *)
Record XRequest := mkXReq { xreq_input : XInput; xreq_id : ID }.
(** ReqReply_t.rs 52-56 *)
Record XReply := mkXReply { xreply_output : XOutput; xreply_id : ID }.
(** Decidable equality, or an order's decision procedure: no counterpart in /repo. *)
Global Instance XRequest_eq_dec : EqDecision XRequest.
Proof. solve_decision. Defined.
(** Decidable equality, or an order's decision procedure: no counterpart in /repo. *)
Global Instance XReply_eq_dec : EqDecision XReply.
Proof. solve_decision. Defined.

(** DiskLayout_v.rs 45-48; [seq_start] is a [u64] there, unbounded here. *)
Record Journal := mkJournal { j_history : list KeyedMessage; j_start : nat }.
(** DiskLayout_v.rs 50-63 *)
Definition journal_view (j : Journal) : MsgHistory :=
  mkMH (map_seq (j_start j) (j_history j)) (j_start j) (length (j_history j) + j_start j).
(** Implementation_v.rs 106-109 *)
Definition to_stamped_map (j : Journal) : StampedMap :=
  map_plus_history stamped_empty (journal_view j).
(** DiskLayout_v.rs 66-80: what the superblock holding this journal stands for. *)
Definition superblock_view (j : Journal) : Superblock :=
  let map := to_stamped_map j in mkSB (MapSpec.mkState (st_value map)) (st_seq_end map).
(** Implementation_v.rs 111-115 *)
Definition journal_empty : Journal := mkJournal [] 0.
(** Implementation_v.rs 117-127 *)
Definition journal_insert (j : Journal) (k : Key) (v : Value) : Journal :=
  mkJournal (j_history j ++ [mkKM k (Define v)]) (j_start j).

(** DiskLayout_v.rs 92-106: [marshall] and [unmarshall] are declared but not
    written ([assume(false)], [unreached()]). They are a parameter here, over
    the superblock's only field, the journal; [None] is a failed decode. That
    decoding undoes encoding, for the journals the puts of the execution can make,
    is a hypothesis of the theorems that need it. *)
Class Codec := {
  marshall : Journal → RawPage;
  unmarshall_journal : RawPage → option Journal }.

(** Implementation_v.rs 56-59 and 132-142 (executable fields only). *)
Record Impl := mkImpl {
  journal : Journal;
  satisfied_reqs : list XRequest;
  deferred_reqs : list XRequest }.
(** Implementation_v.rs 944-964 *)
Definition impl_new : Impl := mkImpl journal_empty [] [].

(** The two places where the code is unfinished, as switches: [answers] says
    whether [handle_query] does what its commented-out body intends (380-383,
    390, 413), [restores] whether [recover] stores the journal it read
    (869-870: "self.store = superblock.store" is commented out). [continues]
    says whether a restart goes on numbering requests where it was
    (ClientAPI_t.rs 54 starts at 0; see C45). *)
Record Config := mkConfig { answers : bool; restores : bool; continues : bool }.
(** The code as committed. *)
(** Implementation_v.rs 370-420 and 789-925 as they are. *)
Definition as_written : Config := mkConfig false false false.
(** Both gaps filled in, with either way of numbering. *)
(** Implementation_v.rs 380-413 and 869-870, uncommented. *)
Definition repaired (continues : bool) : Config := mkConfig true true continues.

(** What one call of a handler does: the new state, the replies passed to
    [ClientAPI::send_reply] in order, and the disk request passed to
    [ClientAPI::send_disk_request] after them, if any. *)
(** The shape of the handlers of Implementation_v.rs 242-787. *)
Notation Effect := (Impl * list XReply * option DiskRequest)%type (only parsing).

(** The value the commented-out body of [handle_query] looks up in the store
    (380-383), computed from the journal which replaced that store: the newest
    entry for the key, or 0. *)
Definition journal_get (j : Journal) (k : Key) : Value :=
  fold_left (λ acc km, if decide (km_key km = k) then msg_value (km_message km) else acc)
            (j_history j) 0%N.

(** Implementation_v.rs 242-287 *)
Definition handle_noop (s : Impl) (req : XRequest) : Effect :=
  (s, [mkXReply XNoopOutput (xreq_id req)], None).
(** Implementation_v.rs 289-355 *)
Definition handle_put (s : Impl) (req : XRequest) (k : Key) (v : Value) : Effect :=
  (mkImpl (journal_insert (journal s) k v) (satisfied_reqs s) (deferred_reqs s),
   [mkXReply XPutOutput (xreq_id req)], None).
(** Implementation_v.rs 370-420: the body is a comment, so nothing happens. *)
Definition handle_query (c : Config) (s : Impl) (req : XRequest) (k : Key) : Effect :=
  if answers c then (s, [mkXReply (XQueryOutput (journal_get (journal s) k)) (xreq_id req)], None)
  else (s, [], None).

Section handlers.
  Context `{Codec}.
  (** Implementation_v.rs 486-563 *)
  Definition send_superblock (s : Impl) : Impl * option DiskRequest :=
    (mkImpl (journal s) (deferred_reqs s) (satisfied_reqs s),
     Some (WriteReq superblock_addr (marshall (journal s)))).
  (** Implementation_v.rs 470-484 *)
  Definition maybe_launch_superblock (s : Impl) : Impl * option DiskRequest :=
    match deferred_reqs s with
    | [] => (s, None)
    | _ => match satisfied_reqs s with
           | [] => send_superblock s
           | _ => (s, None)
           end
    end.
  (** Implementation_v.rs 422-468 *)
  Definition handle_sync_request (s : Impl) (req : XRequest) : Effect :=
    let '(s', dr) := maybe_launch_superblock
      (mkImpl (journal s) (satisfied_reqs s) (deferred_reqs s ++ [req])) in
    (s', [], dr).
  (** Implementation_v.rs 661-674 *)
  Definition handle_user_request (c : Config) (s : Impl) (req : XRequest) : Effect :=
    match xreq_input req with
    | XNoop => handle_noop s req
    | XPut k v => handle_put s req k v
    | XQuery k => handle_query c s req k
    | XSync => handle_sync_request s req
    end.
  (** Implementation_v.rs 565-595 with 622-659: [pop] takes the last request first. *)
  Definition deliver_inflight_replies (ready : list XRequest) : list XReply :=
    map (λ r, mkXReply XSyncOutput (xreq_id r)) (rev ready).
  (** Implementation_v.rs 717-787: neither the id nor the kind of the response
      is looked at. *)
  Definition handle_disk_response (s : Impl) (id : ID) (resp : DiskResponse) : Effect :=
    let ready := satisfied_reqs s in
    let '(s', dr) := maybe_launch_superblock (mkImpl (journal s) [] (deferred_reqs s)) in
    (s', deliver_inflight_replies ready, dr).
  (** Implementation_v.rs 858-870, second half of [recover]: [None] is a panic
      (a write response, or a page [unmarshall] rejects). *)
  Definition recover_response (c : Config) (s : Impl) (resp : DiskResponse) : option Impl :=
    match resp with
    | WriteResp => None
    | ReadResp data =>
        match unmarshall_journal data with
        | None => None
        | Some j => Some (if restores c then mkImpl j (satisfied_reqs s) (deferred_reqs s) else s)
        end
    end.
End handlers.

(** ** The server process, its API and the disk *)
Module Exec.
  (** Where [kvstore_main] (966-986) stands: before [recover]'s read request,
      waiting for its answer, in the event loop, or panicked. *)
  Inductive Proc := Starting | Recovering | Ready (s : Impl) | Panicked.
  (** The process, the counter of ClientAPI_t.rs 29 that numbers user requests
      and disk requests alike (a [u64] there, unbounded here), and the disk. *)
  Record State := mkState { proc : Proc; next_id : ID; disk : AsyncDisk.State }.

  (** What happens in one step. [Recv], [Done]: the loop body received a user
      request or a disk response and ran the handler to completion, sending the
      replies [outs]. [RecvCut], [DoneCut]: the machine failed inside that
      handler, after the replies [outs] had been sent. *)
  (** The observable steps of Implementation_v.rs 966-986. *)
  Inductive Label :=
    | Boot
    | Recovered
    | Recv (req : XRequest) (outs : list XReply)
    | RecvCut (req : XRequest) (outs : list XReply)
    | Done (outs : list XReply)
    | DoneCut (outs : list XReply)
    | DiskInternal
    | Crash
    | Panic.

  (** A machine failure: the process starts again with a new ClientAPI
      (ClientAPI_t.rs 54), the disk crashes (AsyncDisk_t.rs 213-218). *)
  Definition after_crash (c : Config) (n : ID) (d : AsyncDisk.State) : State :=
    mkState Starting (if continues c then n else 0%N)
      (AsyncDisk.mkState ∅ ∅ (AsyncDisk.content d)).
  (** A freshly formatted disk, DiskLayout_v.rs 120-128: the superblock holds
      the encoding of the empty journal, nothing is in transit. *)
  Definition init `{Codec} (s : State) : Prop :=
    ∃ c, s = mkState Starting 0%N (AsyncDisk.mkState ∅ ∅ c) ∧
      c !! superblock_addr = Some (marshall journal_empty).

  (** ClientAPI_t.rs 119-129: the requests of one handler under the next id. *)
  Definition numbered (n : ID) (dr : option DiskRequest) : gmap ID DiskRequest :=
    match dr with Some r => {[n := r]} | None => ∅ end.
  (** Ids consumed by [numbered]. *)
  (** ClientAPI_t.rs 119-129 *)
  Definition used (dr : option DiskRequest) : ID := match dr with Some _ => 1%N | None => 0%N end.

  Section next.
    Context `{Geometry} `{Codec} (c : Config).
    (** Implementation_v.rs 797-852: ask for the superblock. *)
    Definition boot (pre post : State) (l : Label) : Prop :=
      l = Boot ∧ proc pre = Starting ∧ ∃ d,
        AsyncDisk.disk_ops (disk pre) d
          (AsyncDisk.DiskOps (numbered (next_id pre) (Some (ReadReq superblock_addr))) ∅) ∧
        post = mkState Recovering (next_id pre + 1)%N d.
    (** Implementation_v.rs 857-925: any available response is taken
        (ClientAPI_t.rs 134-142, by its contract rather than its stub body). *)
    Definition recovered (pre post : State) (l : Label) : Prop :=
      proc pre = Recovering ∧ ∃ id resp d,
        AsyncDisk.disk_ops (disk pre) d (AsyncDisk.DiskOps ∅ {[id := resp]}) ∧
        match recover_response c impl_new resp with
        | Some s => l = Recovered ∧ post = mkState (Ready s) (next_id pre) d
        | None => l = Panic ∧ post = mkState Panicked (next_id pre) d
        end.
    (** Implementation_v.rs 981-984 with ClientAPI_t.rs 65-81. *)
    Definition recv (pre post : State) (l : Label) : Prop :=
      ∃ s input s' outs dr d, proc pre = Ready s ∧
        let req := mkXReq input (next_id pre) in
        handle_user_request c s req = (s', outs, dr) ∧
        AsyncDisk.disk_ops (disk pre) d (AsyncDisk.DiskOps (numbered (next_id pre + 1)%N dr) ∅) ∧
        l = Recv req outs ∧
        post = mkState (Ready s') (next_id pre + 1 + used dr)%N d.
    (** The same, cut short by a crash after some of the replies. The disk
        request comes last in every handler and a crash drops it (a crash after
        it took effect is [recv], [DiskInternal], [Crash]). *)
    (** Implementation_v.rs 981-984, interrupted *)
    Definition recv_cut (pre post : State) (l : Label) : Prop :=
      ∃ s input s' outs dr n, proc pre = Ready s ∧
        let req := mkXReq input (next_id pre) in
        handle_user_request c s req = (s', outs, dr) ∧
        l = RecvCut req (take n outs) ∧ post = after_crash c (next_id pre + 1)%N (disk pre).
    (** Implementation_v.rs 977-980 *)
    Definition done (pre post : State) (l : Label) : Prop :=
      ∃ s id resp s' outs dr d, proc pre = Ready s ∧
        handle_disk_response s id resp = (s', outs, dr) ∧
        AsyncDisk.disk_ops (disk pre) d
          (AsyncDisk.DiskOps (numbered (next_id pre) dr) {[id := resp]}) ∧
        l = Done outs ∧ post = mkState (Ready s') (next_id pre + used dr)%N d.
    (** The same, cut short by a crash. *)
    (** Implementation_v.rs 977-980, interrupted *)
    Definition done_cut (pre post : State) (l : Label) : Prop :=
      ∃ s id resp s' outs dr n, proc pre = Ready s ∧
        handle_disk_response s id resp = (s', outs, dr) ∧
        AsyncDisk.responses (disk pre) !! id = Some resp ∧
        l = DoneCut (take n outs) ∧ post = after_crash c (next_id pre) (disk pre).
    (** AsyncDisk_t.rs 152-210: the disk carries out one request. *)
    Definition disk_internal (pre post : State) (l : Label) : Prop :=
      l = DiskInternal ∧ ∃ d, AsyncDisk.next (disk pre) d AsyncDisk.Internal ∧
        post = mkState (proc pre) (next_id pre) d.
    (** AsyncDisk_t.rs 213-218 *)
    Definition crash (pre post : State) (l : Label) : Prop :=
      l = Crash ∧ post = after_crash c (next_id pre) (disk pre).
    (** One step of the machine. *)
    (** Implementation_v.rs 966-986 on AsyncDisk_t.rs 106-242 *)
    Definition next (pre post : State) (l : Label) : Prop :=
      boot pre post l ∨ recovered pre post l ∨ recv pre post l ∨ recv_cut pre post l ∨
      done pre post l ∨ done_cut pre post l ∨ disk_internal pre post l ∨ crash pre post l.
  End next.
End Exec.
