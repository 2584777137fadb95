(** Properties of the disk (C21), of the whole program running on it (C22, C23)
    and of request bags seen as maps (C35). *)
From Verif Require Import Spec_Model Spec_Spec Disk_Model System_Model System_Spec AsyncDisk_Proof System_Proof System_Example.

(** ** C21: the disk *)
(** Every execution of the disk is one of the event traces used below. *)
Theorem C21_executions_are_event_traces `{Geometry} s0 ls s :
  run AsyncDisk.next s0 ls s ↔ ∃ tr, run disk_step s0 tr s ∧ disk_label <$> tr = ls.
Proof. exact (disk_run_events s0 ls s). Qed.
Print Assumptions C21_executions_are_event_traces.
(** Each address holds the page of the last write processed for it, whole, no
    matter which crashes happened. *)
Theorem C21_content_is_last_write `{Geometry} c0 tr s a :
  run disk_step (AsyncDisk.mkState ∅ ∅ c0) tr s →
  AsyncDisk.content s !! a = match last_page tr a with Some d => Some d | None => c0 !! a end.
Proof. exact (disk_content c0 tr s a). Qed.
Print Assumptions C21_content_is_last_write.
(** A response answers an earlier request with its id, performed in between
    without a crash; a read response carries what the address held then. *)
Theorem C21_response_is_right `{Geometry} c0 tr s n e id r :
  run disk_step (AsyncDisk.mkState ∅ ∅ c0) tr s → tr !! n = Some e → answers e id r →
  ∃ i m q e1 e2, i < m < n ∧ tr !! i = Some e1 ∧ submits e1 id q ∧
    tr !! m = Some e2 ∧ performs e2 id q r ∧ undisturbed tr id i n ∧
    ∀ a d, q = ReadReq a →
      match last_page (take m tr) a with Some x => Some x | None => c0 !! a end = Some d →
      r = ReadResp d.
Proof. exact (disk_answer c0 tr s n e id r). Qed.
Print Assumptions C21_response_is_right.
(** Between two responses with one id there is a new request with that id. *)
Theorem C21_one_response_per_request `{Geometry} c0 tr s n n' e e' id r r' :
  run disk_step (AsyncDisk.mkState ∅ ∅ c0) tr s → n < n' →
  tr !! n = Some e → answers e id r → tr !! n' = Some e' → answers e' id r' →
  ∃ i e1 q, n < i < n' ∧ tr !! i = Some e1 ∧ submits e1 id q.
Proof. exact (disk_answer_once c0 tr s n n' e e' id r r'). Qed.
Print Assumptions C21_one_response_per_request.
(** Reads and writes take effect only for a request submitted since the last
    crash, and at most once for each. *)
Theorem C21_effects_were_requested `{Geometry} c0 tr s n e id q r :
  run disk_step (AsyncDisk.mkState ∅ ∅ c0) tr s → tr !! n = Some e → performs e id q r →
  ∃ i e1, i < n ∧ tr !! i = Some e1 ∧ submits e1 id q ∧ undisturbed tr id i n ∧
    ∀ m e' q' r', i < m < n → tr !! m = Some e' → ¬ performs e' id q' r'.
Proof. exact (disk_perform c0 tr s n e id q r). Qed.
Print Assumptions C21_effects_were_requested.
(** A request is lost in no other way than by a crash. *)
Theorem C21_requests_are_kept `{Geometry} s0 tr s i e id q :
  run disk_step s0 tr s → tr !! i = Some e → submits e id q →
  (∀ m e', i < m → tr !! m = Some e' → e' ≠ ECrash ∧ ∀ q' r', ¬ performs e' id q' r') →
  AsyncDisk.requests s !! id = Some q.
Proof. exact (disk_kept s0 tr s i e id q). Qed.
Print Assumptions C21_requests_are_kept.
(** A crash empties the queues and changes no page. *)
Theorem C21_crash_loses_queues_only `{Geometry} s s' :
  disk_step s s' ECrash → s' = AsyncDisk.mkState ∅ ∅ (AsyncDisk.content s).
Proof. exact (disk_crash s s'). Qed.
Print Assumptions C21_crash_loses_queues_only.
Example C21_example : ∃ s, run disk_step (AsyncDisk.mkState ∅ ∅ DiskEx.c0) DiskEx.tr s ∧
  AsyncDisk.content s !! DiskEx.a1 = Some [8%N].
Proof. exact DiskEx.runs. Qed.

(** ** C22: the whole program is a crash-tolerant store *)
(** With the two missing guards on sync requests added, every execution is, event
    for event, one of the crash-tolerant store; its visible operations form a log
    that explains every reply, that only crashes cut, and of which everything
    visible when a client asked for an acknowledged sync survives. *)
Theorem C22_repaired_system_allowed `{Geometry} `{Decoder} s0 ls s :
  SystemModel.initialize Concrete.model_fixed s0 →
  run (SystemModel.next_fixed Concrete.model_fixed) s0 ls s →
  ∃ als, Forall2 sys_event ls als ∧ (∃ t, run CTAM.next CTAM.init als t) ∧
    ∃ logs, explained als logs ∧ syncs_durable als logs ∧ client_syncs_durable ls logs.
Proof. exact (fixed_correct s0 ls s). Qed.
Print Assumptions C22_repaired_system_allowed.
(** As written, everything but the sync handshake is right. *)
Theorem C22_as_written_data_allowed `{Geometry} `{Decoder} s0 ls s :
  SystemModel.initialize Concrete.model s0 →
  run (SystemModel.next Concrete.model) s0 ls s →
  ∃ als, Forall2 sys_data_event ls als ∧ (∃ t, run CTAM.next CTAM.init als t) ∧
    ∃ logs, explained als logs.
Proof. exact (written_correct s0 ls s). Qed.
Print Assumptions C22_as_written_data_allowed.
(** Finding: as written, a client can be told its sync is done and then lose, in
    a crash, a put that was acknowledged before it asked. This holds for every
    disk format in which an initialised disk exists. *)
Theorem C22_as_written_sync_not_durable_refuted `{Geometry} `{Decoder} c :
  addr_wf superblock_addr → mkfs c →
  ∃ s0 ls s, SystemModel.initialize Concrete.model s0 ∧ run (SystemModel.next Concrete.model) s0 ls s ∧
    ¬ ∃ als logs, Forall2 sys_data_event ls als ∧ explained als logs ∧ client_syncs_durable ls logs.
Proof. exact (lost_refuted c). Qed.
Print Assumptions C22_as_written_sync_not_durable_refuted.
Example C22_example :
  SystemModel.initialize Concrete.model_fixed (fresh_system SystemEx.disk0) ∧
  (∃ s, run (SystemModel.next_fixed Concrete.model_fixed) (fresh_system SystemEx.disk0) SystemEx.trace s) ∧
  addr_wf superblock_addr ∧ mkfs SystemEx.disk0.
Proof. exact (conj SystemEx.initial (conj SystemEx.session (conj SystemEx.sb_wf SystemEx.disk0_mkfs))). Qed.

(** ** C23: sync acknowledgements answer requests, once *)
Theorem C23_repaired_syncs_answered_once `{Geometry} `{Decoder} s0 ls s :
  SystemModel.initialize Concrete.model_fixed s0 →
  run (SystemModel.next_fixed Concrete.model_fixed) s0 ls s → syncs_answered_once ls.
Proof. exact (fixed_syncs_once s0 ls s). Qed.
Print Assumptions C23_repaired_syncs_answered_once.
(** Ordinary requests are answered once, also as written. *)
Theorem C23_as_written_requests_answered_once `{Geometry} `{Decoder} s0 ls s :
  SystemModel.initialize Concrete.model s0 →
  run (SystemModel.next Concrete.model) s0 ls s → requests_answered_once ls.
Proof. exact (written_requests_once s0 ls s). Qed.
Print Assumptions C23_as_written_requests_answered_once.
(** Finding: as written, a sync nobody asked for is acknowledged, in a run that
    the specification excludes even under the project's own correspondence. *)
Theorem C23_as_written_unasked_refuted `{Geometry} `{Decoder} c :
  addr_wf superblock_addr → mkfs c →
  ∃ s0 ls s, SystemModel.initialize Concrete.model s0 ∧ run (SystemModel.next Concrete.model) s0 ls s ∧
    ¬ syncs_answered_once ls ∧
    ¬ ∃ als t, Forall2 label_correspondence ls als ∧ run CTAM.next CTAM.init als t.
Proof. exact (unasked_refuted c). Qed.
Print Assumptions C23_as_written_unasked_refuted.
(** Finding: as written, one request can be acknowledged twice. *)
Theorem C23_as_written_twice_refuted `{Geometry} `{Decoder} c :
  addr_wf superblock_addr → mkfs c →
  ∃ s0 ls s i j k, SystemModel.initialize Concrete.model s0 ∧ run (SystemModel.next Concrete.model) s0 ls s ∧
    (∀ m, ls !! m = Some (SystemModel.AcceptSyncRequest 5) ↔ m = i) ∧ i < j < k ∧
    ls !! j = Some (SystemModel.DeliverSyncReply 5) ∧ ls !! k = Some (SystemModel.DeliverSyncReply 5).
Proof. exact (twice_refuted c). Qed.
Print Assumptions C23_as_written_twice_refuted.
Example C23_example :
  SystemModel.initialize Concrete.model_fixed (fresh_system SystemEx.disk0) ∧
  (∃ s, run (SystemModel.next_fixed Concrete.model_fixed) (fresh_system SystemEx.disk0) SystemEx.trace s) ∧
  SystemEx.trace !! 12 = Some (SystemModel.DeliverSyncReply 5) ∧
  SystemEx.trace !! 6 = Some (SystemModel.AcceptSyncRequest 5).
Proof. exact (conj SystemEx.initial (conj SystemEx.session (conj eq_refl eq_refl))). Qed.

(** ** C35: bags with unique keys are maps *)
Section bags.
  Context {K V : Type} `{Countable K, Countable V}.
  Theorem C35_same_entries (m : gmultiset (K * V)) k v :
    unique_keys m → multiset_to_map m !! k = Some v ↔ (k, v) ∈ m.
  Proof. exact (multiset_to_map_lookup m k v). Qed.
  Theorem C35_one_to_one (m m' : gmultiset (K * V)) :
    unique_keys m → unique_keys m' → multiset_to_map m = multiset_to_map m' → m = m'.
  Proof. exact (multiset_to_map_inj m m'). Qed.
  Theorem C35_onto (f : gmap K V) : ∃ m, unique_keys m ∧ multiset_to_map m = f.
  Proof. exact (multiset_to_map_surj f). Qed.
  Theorem C35_size (m : gmultiset (K * V)) : unique_keys m → size (multiset_to_map m) = size m.
  Proof. exact (multiset_to_map_size m). Qed.
  Theorem C35_insert (m : gmultiset (K * V)) k v :
    unique_keys m → multiset_to_map m !! k = None →
    unique_keys (m ⊎ {[+ (k, v) +]}) ∧
    multiset_to_map (m ⊎ {[+ (k, v) +]}) = <[k := v]> (multiset_to_map m).
  Proof. exact (multiset_to_map_insert m k v). Qed.
  Theorem C35_remove (m : gmultiset (K * V)) k v :
    unique_keys m → (k, v) ∈ m →
    unique_keys (m ∖ {[+ (k, v) +]}) ∧
    multiset_to_map (m ∖ {[+ (k, v) +]}) = delete k (multiset_to_map m).
  Proof. exact (multiset_to_map_remove m k v). Qed.
End bags.
Print Assumptions C35_same_entries.
Print Assumptions C35_one_to_one.
Print Assumptions C35_onto.
Print Assumptions C35_size.
Print Assumptions C35_insert.
Print Assumptions C35_remove.
Example C35_example : ∃ m : gmultiset (N * N), unique_keys m ∧ (1, 7)%N ∈ m ∧ multiset_to_map m !! 2%N = None.
Proof.
  destruct (C35_onto (<[1%N := 7%N]> (∅ : gmap N N))) as (m&Hu&Hm). exists m.
  split; [exact Hu|]. split; [|rewrite Hm; reflexivity]. apply C35_same_entries; [exact Hu|]. rewrite Hm. reflexivity.
Qed.
