(** Properties of the interface between the trusted code and the implementer
    (C44, C45). *)
From Verif Require Import Spec_Model Spec_Spec Disk_Model System_Model System_Spec System_Example Token_Model Token_Spec
  Token_Proof Token_Example.

(** ** C44: what passes through the interface is a history of the auditor's system *)
(** For every program, with the interface's three gaps closed: what is seen at the
    interface is a history of the system model, in a state that keeps the
    auditor's promises to whoever holds the tokens. *)
Theorem C44_interface_implements_system {P} (PM : ProgramModel P) `{Geometry} m0 ls m :
  idle_when_formatted PM → API.init PM m0 → run (API.next PM API.repaired) m0 ls m →
  ∃ s0 s, SystemModel.initialize PM s0 ∧ run (SystemModel.next_fixed PM) s0 (sys_label <$> ls) s ∧
    program_promise m s ∧ response_promise m s ∧ sync_promise m s.
Proof. exact (repaired_is_system PM m0 ls m). Qed.
Print Assumptions C44_interface_implements_system.
(** For the program of the repository (with its sync reply repaired): clients at
    the interface see a crash-tolerant store. *)
Theorem C44_clients_see_a_store `{Geometry} `{Decoder} m0 ls m :
  API.init Concrete.model_fixed m0 → run (API.next Concrete.model_fixed API.repaired) m0 ls m →
  let sls := sys_label <$> ls in
  requests_answered_once sls ∧ syncs_answered_once sls ∧
  ∃ als, Forall2 sys_event sls als ∧ (∃ t, run CTAM.next CTAM.init als t) ∧
    ∃ logs, explained als logs ∧ syncs_durable als logs ∧ client_syncs_durable sls logs.
Proof. exact (repaired_store m0 ls m). Qed.
Print Assumptions C44_clients_see_a_store.
(** Finding: an interface that, like the code's, lets any request be answered with
    a sync acknowledgement acknowledges a sync nobody asked for. *)
Theorem C44_untyped_replies_refuted `{Geometry} `{Decoder} c ct :
  addr_wf superblock_addr → API.typed c = false → mkfs ct →
  ∃ m0 ls m, API.init Concrete.model_fixed m0 ∧ run (API.next Concrete.model_fixed c) m0 ls m ∧
    ¬ syncs_answered_once (sys_label <$> ls).
Proof. exact (λ Hwf, untyped_refuted c Hwf ct). Qed.
Print Assumptions C44_untyped_replies_refuted.
(** Finding: the promise the code makes to the holder of a client's request, that
    the request is among the pending sync requests, is false for a put. *)
Theorem C44_request_promise_refuted {P} (PM : ProgramModel P) `{Geometry} c p d :
  pm_init PM p → pm_is_mkfs PM d →
  ∃ m0 ls m, API.init PM m0 ∧ run (API.next PM c) m0 ls m ∧
    ∀ s0 s, SystemModel.initialize PM s0 → run (SystemModel.next PM) s0 (sys_label <$> ls) s →
      ¬ request_promise m s.
Proof. exact (promise_refuted PM c p d). Qed.
Print Assumptions C44_request_promise_refuted.
Example C44_example :
  idle_when_formatted Concrete.model_fixed ∧ API.init Concrete.model_fixed TokenEx.start ∧
  (∃ m, run (API.next Concrete.model_fixed API.repaired) TokenEx.start TokenEx.session m) ∧
  (sys_label <$> TokenEx.session) !! 9 = Some (SystemModel.AcceptSyncRequest 2) ∧
  (sys_label <$> TokenEx.session) !! 18 = Some (SystemModel.DeliverSyncReply 2) ∧
  mkfs SystemEx.disk0 ∧ addr_wf superblock_addr.
Proof.
  exact (conj concrete_idle (conj TokenEx.starts (conj TokenEx.runs (conj eq_refl (conj eq_refl
    (conj SystemEx.disk0_mkfs SystemEx.sb_wf)))))).
Qed.

(** ** C45: the numbers of requests *)
(** With the gaps closed, a request goes to the disk under the number predicted
    for it... *)
Theorem C45_numbers_as_predicted {P} (PM : ProgramModel P) `{Geometry} m0 ls m :
  idle_when_formatted PM → API.init PM m0 → run (API.next PM API.repaired) m0 ls m →
  numbers_as_predicted ls.
Proof. exact (repaired_predicted PM m0 ls m). Qed.
Print Assumptions C45_numbers_as_predicted.
(** ... and no number is used twice, also across restarts. *)
Theorem C45_numbers_distinct {P} (PM : ProgramModel P) `{Geometry} m0 ls m :
  run (API.next PM API.repaired) m0 ls m → numbers_distinct ls.
Proof. exact (repaired_distinct PM m0 ls m). Qed.
Print Assumptions C45_numbers_distinct.
(** Finding: as the code has it, a request received between prediction and sending
    takes the predicted number. *)
Theorem C45_early_prediction_refuted `{Geometry} `{Decoder} c ct :
  API.strict c = false → mkfs ct →
  ∃ m0 ls m, API.init Concrete.model_fixed m0 ∧ run (API.next Concrete.model_fixed c) m0 ls m ∧
    ¬ numbers_as_predicted ls.
Proof. exact (early_refuted c ct). Qed.
Print Assumptions C45_early_prediction_refuted.
(** Finding: as the code has it, numbering starts again at 0 after a restart, and
    what clients then see is no history of the auditor's system, for any program. *)
Theorem C45_restarted_numbering_refuted {P} (PM : ProgramModel P) `{Geometry} c p d :
  API.keeps c = false → pm_init PM p → pm_is_mkfs PM d →
  ∃ m0 ls m, API.init PM m0 ∧ run (API.next PM c) m0 ls m ∧ ¬ numbers_distinct ls ∧
    ∀ s0 s, SystemModel.initialize PM s0 → ¬ run (SystemModel.next PM) s0 (sys_label <$> ls) s.
Proof. exact (restart_refuted PM c p d). Qed.
Print Assumptions C45_restarted_numbering_refuted.
Example C45_example :
  API.init Concrete.model_fixed TokenEx.start ∧
  (∃ m, run (API.next Concrete.model_fixed API.repaired) TokenEx.start TokenEx.session m) ∧
  TokenEx.session !! 13 = Some (API.Send 3 3 (WriteReq superblock_addr [1; 1; 7]%N)) ∧
  pm_init Concrete.model fresh_program ∧
  pm_is_mkfs Concrete.model (AsyncDisk.mkState ∅ ∅ SystemEx.disk0).
Proof.
  exact (conj TokenEx.starts (conj TokenEx.runs (conj eq_refl (conj eq_refl
    (conj SystemEx.disk0_mkfs (conj eq_refl eq_refl)))))).
Qed.
