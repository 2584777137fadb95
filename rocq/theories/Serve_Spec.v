(** Small specifications for the executable server at the interface (C46, C47). *)
From Verif Require Import Spec_Model Spec_Spec Disk_Model System_Model System_Spec Exec_Model Exec_Spec Token_Model
  Serve_Model.

(** What clients see: a request taken, a reply sent, a failure of the machine. *)
Inductive Seen := Took (req : XRequest) | Gave (reply : XReply) | Failed.
(** ... of the executable server, ... *)
Definition seen_exec (l : Exec.Label) : list Seen :=
  match l with
  | Exec.Recv req outs => Took req :: (Gave <$> outs)
  | Exec.RecvCut req outs => Took req :: (Gave <$> outs) ++ [Failed]
  | Exec.Done outs => Gave <$> outs
  | Exec.DoneCut outs => (Gave <$> outs) ++ [Failed]
  | Exec.Crash => [Failed]
  | _ => []
  end.
(** ... and at the interface. *)
Definition seen_api (l : API.Label) : list Seen :=
  match l with
  | API.Receive req => [Took req]
  | API.SendReply reply => [Gave reply]
  | API.Crash => [Failed]
  | _ => []
  end.

(** The contract of the superblock's [unmarshall] (DiskLayout_v.rs 100-106): what
    it returns stands for what the specification reads in the page. *)
Definition decodes_superblocks `{Codec} `{Decoder} : Prop :=
  ∀ page j, unmarshall_journal page = Some j → unmarshall page = superblock_view j.

(** The holder of the tokens has handed in all of them, and has nothing predicted. *)
Definition settled {P} (m : API.State P) : Prop :=
  API.predicted m = None ∧ ∃ p, API.tokens m = Tokens.mkState p ∅ ∅ ∅ ∅.

(** The journal in the superblock on the disk. *)
Definition on_disk `{Codec} (d : AsyncDisk.State) : option Journal :=
  AsyncDisk.content d !! superblock_addr ≫= unmarshall_journal.
(** The server and the interface's state agree: same disk, same numbering, no
    token kept back; and a server in its main loop keeps the (corrected) invariant,
    holds the newest version, owes exactly the syncs the model records, and has on
    the disk a prefix of its journal: that of the version the model calls
    persistent, or that of the write in flight. *)
Definition agree `{Codec} (s : Exec.State) (m : API.State AtomicState.State) : Prop :=
  API.disk m = Exec.disk s ∧ API.counter m = Exec.next_id s ∧ settled m ∧
  let p := Tokens.model (API.tokens m) in
  ∀ im, Exec.proc s = Exec.Ready im →
    kept_inv im p ∧ AtomicState.mapspec p = Some (volatile_map im) ∧
    (∀ id, is_Some (AtomicState.sync_req_map p !! id) ↔
      id ∈ (xreq_id <$> satisfied_reqs im ++ deferred_reqs im)) ∧
    ∃ j, on_disk (Exec.disk s) = Some j ∧ j_history j `prefix_of` j_history (journal im) ∧
      (length (j_history j) = AtomicState.persistent_version p ∨
       ∃ info, AtomicState.in_flight p = Some info ∧ length (j_history j) = AtomicState.if_version info).

(** *** What a holder of tokens may conclude *)
(** Once recovered, there is a newest version, the one being written is still
    kept, and the oldest kept is the one the model calls persistent. *)
Definition versions_kept (m : API.State AtomicState.State) : Prop :=
  AtomicState.client_ready (Tokens.model (API.tokens m)) →
  let p := Tokens.model (API.tokens m) in
  is_Some (AtomicState.mapspec p) ∧
  (∀ info, AtomicState.in_flight p = Some info → is_Some (AtomicState.sb_at p (AtomicState.if_version info))) ∧
  fs_start (AtomicState.history p) = AtomicState.persistent_version p.
(** Before the superblock was asked for, no response has come. *)
Definition nothing_before_asking (m : API.State AtomicState.State) : Prop :=
  AtomicState.recovery_state (Tokens.model (API.tokens m)) = AtomicState.Begin →
  ∀ x, x ∉ Tokens.disk_responses (API.tokens m).
(** While it is awaited, a response is the superblock as it is on the disk. *)
Definition superblock_comes (m : API.State AtomicState.State) : Prop :=
  AtomicState.recovery_state (Tokens.model (API.tokens m)) = AtomicState.AwaitingSuperblock →
  ∀ id r, (id, r) ∈ Tokens.disk_responses (API.tokens m) →
    ∃ page, r = ReadResp page ∧ AsyncDisk.content (API.disk m) !! superblock_addr = Some page.
(** Once recovered, a response acknowledges the write in flight. *)
Definition write_comes (m : API.State AtomicState.State) : Prop :=
  AtomicState.client_ready (Tokens.model (API.tokens m)) →
  ∀ id r, (id, r) ∈ Tokens.disk_responses (API.tokens m) → r = WriteResp ∧
    ∃ info, AtomicState.in_flight (Tokens.model (API.tokens m)) = Some info ∧ AtomicState.if_req_id info = id.
(** The id of a sync request still to be accepted is not among those accepted. *)
Definition sync_is_new (m : API.State AtomicState.State) : Prop :=
  AtomicState.client_ready (Tokens.model (API.tokens m)) →
  ∀ id, mkXReq XSync id ∈ Tokens.requests (API.tokens m) →
    AtomicState.sync_req_map (Tokens.model (API.tokens m)) !! id = None.
(** As Implementation_v.rs 697-715 states it: for any request, whatever the token. *)
Definition any_sync_is_new (m : API.State AtomicState.State) : Prop :=
  AtomicState.client_ready (Tokens.model (API.tokens m)) →
  ∀ id, AtomicState.sync_req_map (Tokens.model (API.tokens m)) !! id = None.
