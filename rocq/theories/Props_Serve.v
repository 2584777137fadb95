(** Properties of the executable server at the interface (C46, C47). *)
From Verif Require Import Spec_Model Spec_Spec Disk_Model System_Model System_Spec System_Example Exec_Model Exec_Spec
  Exec_Example Token_Model Token_Spec Token_Proof Token_Example Serve_Model Serve_Spec Serve_Proof Serve_Example.

(** ** C46: the executable server obeys the interface *)
(** Whatever the completed server does, on a disk that fails at any time, is a use
    of the interface with its tokens: clients see the same, and whenever no handler
    runs the server and the model its token carries agree. *)
Theorem C46_server_obeys_interface `{Geometry} `{Codec} `{Decoder} k s0 ls s :
  codec_fits ls → decodes_superblocks → Exec.init s0 → run (Exec.next (repaired k)) s0 ls s →
  ∃ m0 als m, API.init Concrete.model_fixed m0 ∧ API.disk m0 = Exec.disk s0 ∧
    run (API.next Concrete.model_fixed (API.mkConfig true true k)) m0 als m ∧
    concat (seen_api <$> als) = concat (seen_exec <$> ls) ∧ agree s m.
Proof. exact (serve_obeys k s0 ls s). Qed.
Print Assumptions C46_server_obeys_interface.
(** So the clients of a server that goes on numbering after a restart see a
    crash-tolerant store. *)
Theorem C46_server_is_a_store `{Geometry} `{Codec} `{Decoder} s0 ls s :
  codec_fits ls → decodes_superblocks → Exec.init s0 → run (Exec.next (repaired true)) s0 ls s →
  ∃ als, concat (seen_api <$> als) = concat (seen_exec <$> ls) ∧
    let sls := sys_label <$> als in
    requests_answered_once sls ∧ syncs_answered_once sls ∧
    ∃ cls, Forall2 sys_event sls cls ∧ (∃ t, run CTAM.next CTAM.init cls t) ∧
      ∃ logs, explained cls logs ∧ syncs_durable cls logs ∧ client_syncs_durable sls logs.
Proof. exact (serve_store s0 ls s). Qed.
Print Assumptions C46_server_is_a_store.
(** Finding: the invariant the code states for the server and its model fails once
    a put was synced: the model then no longer keeps the versions before it. *)
Theorem C46_stated_invariant_refuted `{Geometry} `{Codec} k s0 :
  addr_wf superblock_addr → codec_fits put_and_sync → Exec.init s0 →
  ∃ s im, run (Exec.next (repaired k)) s0 put_and_sync s ∧ Exec.proc s = Exec.Ready im ∧
    ∀ m, agree s m → ¬ stated_inv im (Tokens.model (API.tokens m)).
Proof. exact (λ Hwf, stated_refuted Hwf k s0). Qed.
Print Assumptions C46_stated_invariant_refuted.
Example C46_example :
  codec_fits (story true 7%N) ∧ decodes_superblocks (H0 := ServeEx.example_decoder) ∧ Exec.init Exec_Example.formatted ∧ addr_wf superblock_addr ∧
  (∃ s, run (Exec.next (repaired true)) Exec_Example.formatted (story true 7%N) s) ∧
  concat (seen_exec <$> story true 7%N) =
    [Took (mkXReq (XPut 1 7) 1); Gave (mkXReply XPutOutput 1);
     Took (mkXReq (XQuery 1) 2); Gave (mkXReply (XQueryOutput 7) 2);
     Took (mkXReq XSync 3); Gave (mkXReply XSyncOutput 3);
     Took (mkXReq (XPut 1 9) 5); Gave (mkXReply XPutOutput 5); Failed;
     Took (mkXReq (XQuery 1) 7); Gave (mkXReply (XQueryOutput 7) 7)]%N.
Proof.
  exact (conj (example_fits _) (conj ServeEx.decodes (conj formatted_init (conj example_wf
    (conj (story_repaired true) eq_refl))))).
Qed.

(** ** C47: what the holder of tokens may conclude *)
Theorem C47_tokens_tell_the_truth `{Geometry} `{Decoder} m0 ls m :
  API.init Concrete.model_fixed m0 → run (API.next Concrete.model_fixed API.repaired) m0 ls m →
  nothing_before_asking m ∧ superblock_comes m ∧ write_comes m ∧ sync_is_new m ∧ versions_kept m.
Proof. exact (held_tokens m0 ls m). Qed.
Print Assumptions C47_tokens_tell_the_truth.
(** The well-formedness the code asks of the model, in every configuration. *)
Theorem C47_model_well_formed `{Geometry} `{Decoder} c m0 ls m :
  API.init Concrete.model_fixed m0 → run (API.next Concrete.model_fixed c) m0 ls m →
  versions_kept m ∧ state_wf (Tokens.model (API.tokens m)).
Proof. exact (model_wf c m0 ls m). Qed.
Print Assumptions C47_model_well_formed.
(** Finding: the code's lemma about fresh sync requests speaks of any request, not
    of one the token of which is held; so stated it is false. *)
Theorem C47_any_sync_refuted `{Geometry} `{Decoder} c ct :
  addr_wf superblock_addr → mkfs ct →
  ∃ m0 ls m, API.init Concrete.model_fixed m0 ∧ run (API.next Concrete.model_fixed c) m0 ls m ∧ ¬ any_sync_is_new m.
Proof. exact (λ Hwf, any_sync_refuted Hwf c ct). Qed.
Print Assumptions C47_any_sync_refuted.
(** Every kind of token the theorem speaks of is held at some time. *)
Example C47_example :
  API.init Concrete.model_fixed TokenEx.start ∧
  (∃ ls m, run (API.next Concrete.model_fixed API.repaired) TokenEx.start ls m ∧
     AtomicState.recovery_state (Tokens.model (API.tokens m)) = AtomicState.AwaitingSuperblock ∧
     (0%N, ReadResp []) ∈ Tokens.disk_responses (API.tokens m)) ∧
  (∃ ls m, run (API.next Concrete.model_fixed API.repaired) TokenEx.start ls m ∧
     AtomicState.client_ready (Tokens.model (API.tokens m)) ∧ mkXReq XSync 1 ∈ Tokens.requests (API.tokens m)) ∧
  (∃ ls m, run (API.next Concrete.model_fixed API.repaired) TokenEx.start ls m ∧
     AtomicState.client_ready (Tokens.model (API.tokens m)) ∧ (1%N, WriteResp) ∈ Tokens.disk_responses (API.tokens m)) ∧
  mkfs SystemEx.disk0 ∧ addr_wf superblock_addr.
Proof.
  exact (conj TokenEx.starts (conj (superblock_held SystemEx.disk0 [] SystemEx.sb_wf eq_refl)
    (conj (sync_held _ SystemEx.sb_wf SystemEx.disk0_mkfs) (conj (write_held _ SystemEx.sb_wf SystemEx.disk0_mkfs)
      (conj SystemEx.disk0_mkfs SystemEx.sb_wf))))).
Qed.
