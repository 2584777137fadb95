(** Model of the whole program running on the crashing disk:
    Splinter/src/trusted/ProgramModelTrait_t.rs, trusted/SystemModel_t.rs,
    implementation/AtomicState_v.rs, implementation/ConcreteProgramModel_v.rs,
    implementation/MultisetMapRelation_v.rs and the superblock part of
    implementation/DiskLayout_v.rs. Definitions only. *)
From stdpp Require Export gmultiset.
From Verif Require Export Spec_Model Disk_Model.

(** Decidable equality, or an order's decision procedure: no counterpart in /repo. *)
Global Instance DiskRequest_eq_dec : EqDecision DiskRequest.
Proof. solve_decision. Defined.
(** Decidable equality, or an order's decision procedure: no counterpart in /repo. *)
Global Instance DiskResponse_eq_dec : EqDecision DiskResponse.
Proof. solve_decision. Defined.
(** Countability, for std++'s finite maps: no counterpart in /repo. *)
Global Instance DiskRequest_countable : Countable DiskRequest.
Proof.
  refine (inj_countable'
    (λ r, match r with ReadReq a => inl a | WriteReq a d => inr (a, d) end)
    (λ x, match x with inl a => ReadReq a | inr (a, d) => WriteReq a d end) _).
  by intros [].
Defined.
(** Countability, for std++'s finite maps: no counterpart in /repo. *)
Global Instance DiskResponse_countable : Countable DiskResponse.
Proof.
  refine (inj_countable'
    (λ r, match r with ReadResp d => inl d | WriteResp => inr () end)
    (λ x, match x with inl d => ReadResp d | inr _ => WriteResp end) _).
  by intros [].
Defined.

(** ** Multisets used as maps (MultisetMapRelation_v.rs) *)
Section multiset_map.
  Context {K V : Type} `{Countable K, Countable V}.
  (** MultisetMapRelation_v.rs 9-12 *)
  Definition all_elems_single (m : gmultiset (K * V)) : Prop :=
    ∀ e, e ∈ m → multiplicity e m = 1.
  (** MultisetMapRelation_v.rs 14-20. Which of several entries with one key is
      chosen is unspecified there; here the first in enumeration order. *)
  Definition multiset_to_map (kvs : gmultiset (K * V)) : gmap K V :=
    list_to_map (elements kvs).
  (** MultisetMapRelation_v.rs 24-28 *)
  Definition unique_keys (m : gmultiset (K * V)) : Prop :=
    all_elems_single m ∧ ∀ p1 p2, p1 ∈ m → p2 ∈ m → p1 = p2 ∨ p1.1 ≠ p2.1.
  (** MultisetMapRelation_v.rs 131-134 *)
  Definition multiset_map_singleton (k : K) (v : V) : gmultiset (K * V) := {[+ (k, v) +]}.
End multiset_map.

(** ** The superblock (DiskLayout_v.rs) *)
(** DiskLayout_v.rs 38-42 *)
Record Superblock := mkSB { sb_store : PersistentState; sb_version : nat }.
(** DiskLayout_v.rs 82-90. [spec_marshall] and [spec_unmarshall] are
    uninterpreted, and ModelRefinement_v.rs 23-27 assumes
    [spec_unmarshall(spec_marshall(sb)) == sb]. Only the decoder is a parameter
    here; wherever the code uses the page [spec_marshall(sb)] the model allows
    any page that decodes to [sb] (see [marshalled]), which covers every encoder
    satisfying that assumption. *)
Class Decoder := { unmarshall : RawPage → Superblock }.
(** DiskLayout_v.rs 82-90 *)
Definition marshalled `{Decoder} (sb : Superblock) (data : RawPage) : Prop :=
  unmarshall data = sb.
(** DiskLayout_v.rs 108-110 *)
Definition superblock_addr : Address := mkAddr 0 0.
(** DiskLayout_v.rs 19-23 *)
Definition singleton_floating_seq (at_index : nat) (kmmap : TotalKMMap) : FloatingSeq Version :=
  fs_new at_index (at_index + 1) (λ _, MapSpec.mkState kmmap).
(** DiskLayout_v.rs 118-126 *)
Definition mkfs `{Decoder} (disk : gmap Address RawPage) : Prop :=
  ∃ data, disk !! superblock_addr = Some data ∧ marshalled (mkSB MapSpec.my_init 0) data.

(** ** Program labels (ProgramModelTrait_t.rs) *)
(** ProgramModelTrait_t.rs 23-35 *)
Inductive ProgramUserOp :=
  | Execute (req : Request) (reply : Reply)
  | AcceptSync (sync_req_id : SyncReqId)
  | DeliverSync (sync_req_id : SyncReqId).
(** ProgramModelTrait_t.rs 37-40 *)
Record ProgramDiskInfo := mkInfo {
  info_reqs : gmultiset (ID * DiskRequest);
  info_resps : gmultiset (ID * DiskResponse) }.
(** ProgramModelTrait_t.rs 44-53 *)
Inductive ProgramLabel :=
  | UserIO (op : ProgramUserOp)
  | DiskIO (info : ProgramDiskInfo)
  | ProgInternal.

(** ** AtomicState (AtomicState_v.rs) *)
Module AtomicState.
  (** 13-20 *)
  Inductive RecoveryState := Begin | AwaitingSuperblock | RecoveryComplete.
  (** 22-25 *)
  Record InflightInfo := mkInflight { if_version : nat; if_req_id : ID }.
  (** 27-41 *)
  Record State := mkState {
    recovery_state : RecoveryState;
    history : FloatingSeq PersistentState;
    persistent_version : nat;
    in_flight : option InflightInfo;
    sync_req_map : gmap SyncReqId nat }.
  (** 50-56 *)
  Definition valid_request_reply_pair (req : Request) (reply : Reply) : Prop :=
    req_id req = reply_id reply ∧
    match req_input req, reply_output reply with
    | QueryInput _, QueryOutput _ | PutInput _ _, PutOutput | NoopInput, NoopOutput => True
    | _, _ => False
    end.
  (** 58-68 *)
  Definition to_map_label (req : Request) (reply : Reply) : MapSpec.Label :=
    match req_input req with
    | QueryInput _ => MapSpec.Query (req_input req) (reply_output reply)
    | PutInput _ _ => MapSpec.Put (req_input req) (reply_output reply)
    | NoopInput => MapSpec.Noop (req_input req) (reply_output reply)
    end.
  (** 84-93: the other fields are [arbitrary()], so any value here. *)
  Definition init (s : State) : Prop := recovery_state s = Begin.
  (** 225-228 *)
  Definition client_ready (s : State) : Prop := recovery_state s = RecoveryComplete.
  (** 221-223; [None] where the Rust value is unspecified. *)
  Definition mapspec (s : State) : option MapSpec.State := fs_last (history s).
  (** 230-236 *)
  Definition sb_at (s : State) (v : nat) : option Superblock :=
    (λ st, mkSB st v) <$> fs_get (history s) v.
  (** 238-245 *)
  Definition ephemeral_sb (s : State) : option Superblock := sb_at s (fs_len (history s) - 1).
  (** 95-106 *)
  Definition map_transition (pre post : State) (req : Request) (reply : Reply) : Prop :=
    ∃ h p p', client_ready pre ∧
      fs_len (history pre) ≤ fs_len h ≤ fs_len (history pre) + 1 ∧
      fs_get_prefix h (fs_len (history pre)) = history pre ∧
      valid_request_reply_pair req reply ∧
      mapspec pre = Some p ∧ mapspec post = Some p' ∧
      MapSpec.next p p' (to_map_label req reply) ∧
      post = mkState (recovery_state pre) h (persistent_version pre) (in_flight pre)
                     (sync_req_map pre).
  (** 108-116 *)
  Definition accept_sync_request (pre post : State) (id : SyncReqId) : Prop :=
    client_ready pre ∧
    post = mkState (recovery_state pre) (history pre) (persistent_version pre) (in_flight pre)
             (<[id := fs_len (history pre) - 1]> (sync_req_map pre)).
  (** 118-127: the version test is an implication, so it holds trivially for an
      id that is not in the map. *)
  Definition deliver_sync_reply (pre post : State) (id : SyncReqId) : Prop :=
    client_ready pre ∧
    (∀ v, sync_req_map pre !! id = Some v → v ≤ fs_first_active_index (history pre)) ∧
    post = mkState (recovery_state pre) (history pre) (persistent_version pre) (in_flight pre)
             (delete id (sync_req_map pre)).
  (** 118-127 with the missing membership requirement added (not in the code). *)
  Definition deliver_sync_reply_fixed (pre post : State) (id : SyncReqId) : Prop :=
    is_Some (sync_req_map pre !! id) ∧ deliver_sync_reply pre post id.
  (** 129-137 *)
  Definition initiate_recovery (pre post : State) (reqs : gmultiset (ID * DiskRequest))
      (resps : gmultiset (ID * DiskResponse)) (rid : ID) : Prop :=
    recovery_state pre = Begin ∧
    reqs = {[+ (rid, ReadReq superblock_addr) +]} ∧
    resps = ∅ ∧
    post = mkState AwaitingSuperblock (history pre) (persistent_version pre) (in_flight pre)
             (sync_req_map pre).
  (** 139-155 *)
  Definition complete_recovery `{Decoder} (pre post : State) (reqs : gmultiset (ID * DiskRequest))
      (resps : gmultiset (ID * DiskResponse)) (rid : ID) (raw_page : RawPage) : Prop :=
    recovery_state pre = AwaitingSuperblock ∧
    reqs = ∅ ∧
    resps = {[+ (rid, ReadResp raw_page) +]} ∧
    let superblock := unmarshall raw_page in
    post = mkState RecoveryComplete
             (singleton_floating_seq (sb_version superblock) (MapSpec.kmmap (sb_store superblock)))
             (sb_version superblock) None ∅.
  (** 157-171 *)
  Definition execute_sync_begin `{Decoder} (pre post : State) (reqs : gmultiset (ID * DiskRequest))
      (resps : gmultiset (ID * DiskResponse)) (rid : ID) : Prop :=
    ∃ sb data, ephemeral_sb pre = Some sb ∧ marshalled sb data ∧
    client_ready pre ∧
    in_flight pre = None ∧
    reqs = {[+ (rid, WriteReq superblock_addr data) +]} ∧
    resps = ∅ ∧
    post = mkState (recovery_state pre) (history pre) (persistent_version pre)
             (Some (mkInflight (sb_version sb) rid)) (sync_req_map pre).
  (** 173-190 *)
  Definition execute_sync_end (pre post : State) (reqs : gmultiset (ID * DiskRequest))
      (resps : gmultiset (ID * DiskResponse)) : Prop :=
    ∃ info, client_ready pre ∧
    in_flight pre = Some info ∧
    reqs = ∅ ∧
    resps = {[+ (if_req_id info, WriteResp) +]} ∧
    post = mkState RecoveryComplete (fs_get_suffix (history pre) (if_version info))
             (if_version info) None (sync_req_map pre).
  (** 192-200; the disk event (43-48) only selects the case. *)
  Definition disk_transition `{Decoder} (pre post : State) (reqs : gmultiset (ID * DiskRequest))
      (resps : gmultiset (ID * DiskResponse)) : Prop :=
    (∃ rid, initiate_recovery pre post reqs resps rid) ∨
    (∃ rid raw_page, complete_recovery pre post reqs resps rid raw_page) ∨
    (∃ rid, execute_sync_begin pre post reqs resps rid) ∨
    execute_sync_end pre post reqs resps.
  (** 215-219 *)
  Definition internal_transitions (pre post : State) : Prop := pre = post ∧ client_ready pre.
End AtomicState.

(** ** The program-model trait (ProgramModelTrait_t.rs 55-59), as a record *)
Record ProgramModel (P : Type) := mkPM {
  pm_is_mkfs : AsyncDisk.State → Prop;
  pm_init : P → Prop;
  pm_next : P → P → ProgramLabel → Prop }.
Arguments pm_is_mkfs {P}. Arguments pm_init {P}. Arguments pm_next {P}.

(** ** ConcreteProgramModel (ConcreteProgramModel_v.rs); its only field is the
    atomic state, so the wrapper is dropped. *)
Module Concrete.
  (** 27-32 *)
  Definition is_mkfs `{Decoder} (disk : AsyncDisk.State) : Prop :=
    mkfs (AsyncDisk.content disk) ∧ AsyncDisk.requests disk = ∅ ∧ AsyncDisk.responses disk = ∅.
  (** 39-67 *)
  Definition next `{Decoder} (pre post : AtomicState.State) (l : ProgramLabel) : Prop :=
    match l with
    | UserIO (Execute req reply) => AtomicState.map_transition pre post req reply
    | UserIO (AcceptSync id) => AtomicState.accept_sync_request pre post id
    | UserIO (DeliverSync id) => AtomicState.deliver_sync_reply pre post id
    | DiskIO info => AtomicState.disk_transition pre post (info_reqs info) (info_resps info)
    | ProgInternal => AtomicState.internal_transitions pre post
    end.
  (** 39-67 with the repaired sync reply (not in the code). *)
  Definition next_fixed `{Decoder} (pre post : AtomicState.State) (l : ProgramLabel) : Prop :=
    match l with
    | UserIO (DeliverSync id) => AtomicState.deliver_sync_reply_fixed pre post id
    | _ => next pre post l
    end.
  (** 26-68 *)
  Definition model `{Decoder} : ProgramModel AtomicState.State :=
    mkPM _ is_mkfs AtomicState.init next.
  (** 26-68, repaired *)
  Definition model_fixed `{Decoder} : ProgramModel AtomicState.State :=
    mkPM _ is_mkfs AtomicState.init next_fixed.
End Concrete.

(** ** SystemModel (SystemModel_t.rs 23-198) *)
Module SystemModel.
  Section system.
  Context {P : Type} (PM : ProgramModel P) `{Geometry}.
  (** 24-40 *)
  Record State := mkState {
    program : P;
    disk : AsyncDisk.State;
    requests : gmultiset Request;
    replies : gmultiset Reply;
    sync_requests : gmultiset SyncReqId;
    sync_replies : gmultiset SyncReqId;
    id_history : gmultiset ID }.
  (** 44-68 *)
  Inductive Label :=
    | AcceptRequest (req : Request)
    | DeliverReply (reply : Reply)
    | AcceptSyncRequest (sync_req_id : SyncReqId)
    | DeliverSyncReply (sync_req_id : SyncReqId)
    | ProgramUIOp (op : ProgramUserOp)
    | ProgramDiskOp (info : ProgramDiskInfo)
    | ProgramInternal
    | DiskInternal
    | Crash
    | Noop.
  (** 70-81 *)
  Definition initialize (s : State) : Prop :=
    pm_is_mkfs PM (disk s) ∧ pm_init PM (program s) ∧
    s = mkState (program s) (disk s) ∅ ∅ ∅ ∅ ∅.
  (** 83-89 *)
  Definition fresh_id (s : State) (id : ID) : Prop := id ∉ id_history s.
  (** 92-97 *)
  Definition accept_request (pre post : State) (l : Label) : Prop :=
    ∃ req, l = AcceptRequest req ∧ fresh_id pre (req_id req) ∧
      post = mkState (program pre) (disk pre) (requests pre ⊎ {[+ req +]}) (replies pre)
               (sync_requests pre) (sync_replies pre) (id_history pre ⊎ {[+ req_id req +]}).
  (** 100-104 *)
  Definition deliver_reply (pre post : State) (l : Label) : Prop :=
    ∃ reply, l = DeliverReply reply ∧ reply ∈ replies pre ∧
      post = mkState (program pre) (disk pre) (requests pre) (replies pre ∖ {[+ reply +]})
               (sync_requests pre) (sync_replies pre) (id_history pre).
  (** 106-116 *)
  Definition program_execute (pre post : State) (l : Label) (new_program : P) : Prop :=
    ∃ req reply, l = ProgramUIOp (Execute req reply) ∧ req ∈ requests pre ∧
      pm_next PM (program pre) new_program (UserIO (Execute req reply)) ∧
      post = mkState new_program (disk pre) (requests pre ∖ {[+ req +]}) (replies pre ⊎ {[+ reply +]})
               (sync_requests pre) (sync_replies pre) (id_history pre).
  (** 124-129 *)
  Definition accept_sync_request (pre post : State) (l : Label) : Prop :=
    ∃ id, l = AcceptSyncRequest id ∧ fresh_id pre id ∧
      post = mkState (program pre) (disk pre) (requests pre) (replies pre)
               (sync_requests pre ⊎ {[+ id +]}) (sync_replies pre) (id_history pre ⊎ {[+ id +]}).
  (** 131-138: nothing requires [id] to be a pending request. *)
  Definition program_accept_sync_request (pre post : State) (l : Label) (new_program : P) : Prop :=
    ∃ id, l = ProgramUIOp (AcceptSync id) ∧
      pm_next PM (program pre) new_program (UserIO (AcceptSync id)) ∧
      post = mkState new_program (disk pre) (requests pre) (replies pre)
               (sync_requests pre ∖ {[+ id +]}) (sync_replies pre) (id_history pre).
  (** 131-138 with the requirement of KVStoreTokenized_t.rs 97 that the request
      is pending (not in SystemModel_t.rs). *)
  Definition program_accept_sync_request_fixed (pre post : State) (l : Label) (new_program : P) : Prop :=
    program_accept_sync_request pre post l new_program ∧
    ∀ id, l = ProgramUIOp (AcceptSync id) → id ∈ sync_requests pre.
  (** 140-147 *)
  Definition program_deliver_sync_reply (pre post : State) (l : Label) (new_program : P) : Prop :=
    ∃ id, l = ProgramUIOp (DeliverSync id) ∧
      pm_next PM (program pre) new_program (UserIO (DeliverSync id)) ∧
      post = mkState new_program (disk pre) (requests pre) (replies pre)
               (sync_requests pre) (sync_replies pre ⊎ {[+ id +]}) (id_history pre).
  (** 150-154 *)
  Definition deliver_sync_reply (pre post : State) (l : Label) : Prop :=
    ∃ id, l = DeliverSyncReply id ∧ id ∈ sync_replies pre ∧
      post = mkState (program pre) (disk pre) (requests pre) (replies pre)
               (sync_requests pre) (sync_replies pre ∖ {[+ id +]}) (id_history pre).
  (** 156-169 *)
  Definition program_disk (pre post : State) (l : Label) (new_program : P)
      (new_disk : AsyncDisk.State) : Prop :=
    ∃ info, l = ProgramDiskOp info ∧
      pm_next PM (program pre) new_program (DiskIO info) ∧
      AsyncDisk.next (disk pre) new_disk
        (AsyncDisk.DiskOps (multiset_to_map (info_reqs info)) (multiset_to_map (info_resps info))) ∧
      post = mkState new_program new_disk (requests pre) (replies pre)
               (sync_requests pre) (sync_replies pre) (id_history pre).
  (** 171-175 *)
  Definition program_internal (pre post : State) (l : Label) (new_program : P) : Prop :=
    l = ProgramInternal ∧ pm_next PM (program pre) new_program ProgInternal ∧
    post = mkState new_program (disk pre) (requests pre) (replies pre)
             (sync_requests pre) (sync_replies pre) (id_history pre).
  (** 177-181 *)
  Definition disk_internal (pre post : State) (l : Label) (new_disk : AsyncDisk.State) : Prop :=
    l = DiskInternal ∧ AsyncDisk.next (disk pre) new_disk AsyncDisk.Internal ∧
    post = mkState (program pre) new_disk (requests pre) (replies pre)
             (sync_requests pre) (sync_replies pre) (id_history pre).
  (** 183-193: the delivered-but-unread sync replies and the id history survive. *)
  Definition crash (pre post : State) (l : Label) (new_program : P)
      (new_disk : AsyncDisk.State) : Prop :=
    l = Crash ∧ pm_init PM new_program ∧ AsyncDisk.next (disk pre) new_disk AsyncDisk.Crash ∧
    post = mkState new_program new_disk ∅ ∅ ∅ (sync_replies pre) (id_history pre).
  (** 195-197 *)
  Definition noop (pre post : State) (l : Label) : Prop := l = Noop ∧ post = pre.
  (** The state machine's [next], over the given acceptance of sync requests. *)
  (** [next], which the state_machine! macro generates from the transitions of SystemModel_t.rs 23-198. *)
  Definition next_with (accept : State → State → Label → P → Prop) (pre post : State) (l : Label) : Prop :=
    accept_request pre post l ∨ deliver_reply pre post l ∨
    (∃ p, program_execute pre post l p) ∨ accept_sync_request pre post l ∨
    (∃ p, accept pre post l p) ∨ (∃ p, program_deliver_sync_reply pre post l p) ∨
    deliver_sync_reply pre post l ∨ (∃ p d, program_disk pre post l p d) ∨
    (∃ p, program_internal pre post l p) ∨ (∃ d, disk_internal pre post l d) ∨
    (∃ p d, crash pre post l p d) ∨ noop pre post l.
  (** As written (92-197). *)
  Definition next : State → State → Label → Prop := next_with program_accept_sync_request.
  (** Repaired. *)
  (** [next] of SystemModel_t.rs 23-198 after the repair. *)
  Definition next_fixed : State → State → Label → Prop := next_with program_accept_sync_request_fixed.
  End system.
End SystemModel.
