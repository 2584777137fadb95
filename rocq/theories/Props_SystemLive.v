(** C57: the whole program on its crashing disk never gets stuck. *)
From Verif Require Import Spec_Model Spec_Spec Disk_Model System_Model Exec_Model Exec_Spec Exec_Proof Exec_Example System_Example
  SystemLive_Spec SystemLive_Proof SystemLive_Example ExecLive_Proof.

(** From every reachable state, whatever crashed before: a request that the
    client made and that was not answered since can be answered by steps of the
    program and its disk alone. No client has to act and nothing has to fail. *)
Theorem C57_requests_answerable `{Geometry} `{Decoder} s0 ls s req :
  addr_wf superblock_addr → SystemModel.initialize Concrete.model_fixed s0 →
  run (SystemModel.next_fixed Concrete.model_fixed) s0 ls s → waiting_request ls req →
  ∃ ls' s' reply s'', run (SystemModel.next_fixed Concrete.model_fixed) s ls' s' ∧ Forall own_step ls' ∧
    reply_id reply = req_id req ∧
    SystemModel.next_fixed Concrete.model_fixed s' s'' (SystemModel.DeliverReply reply).
Proof. exact (λ Hwf, fixed_requests Hwf s0 ls s req). Qed.
Print Assumptions C57_requests_answerable.

(** The same for a sync, if the stores of this history fit in a superblock. *)
Theorem C57_syncs_answerable `{Geometry} `{Decoder} s0 ls s id :
  addr_wf superblock_addr → SystemModel.initialize Concrete.model_fixed s0 →
  run (SystemModel.next_fixed Concrete.model_fixed) s0 ls s → format_fits ls → waiting_sync ls id →
  ∃ ls' s' s'', run (SystemModel.next_fixed Concrete.model_fixed) s ls' s' ∧ Forall own_step ls' ∧
    SystemModel.next_fixed Concrete.model_fixed s' s'' (SystemModel.DeliverSyncReply id).
Proof. exact (λ Hwf, fixed_syncs Hwf s0 ls s id). Qed.
Print Assumptions C57_syncs_answerable.
Example C57_system_example :
  addr_wf superblock_addr ∧ SystemModel.initialize Concrete.model_fixed (fresh_system SystemEx.disk0) ∧
  (∃ s, run (SystemModel.next_fixed Concrete.model_fixed) (fresh_system SystemEx.disk0) SystemLiveEx.trace s) ∧
  format_fits SystemLiveEx.trace ∧ waiting_request SystemLiveEx.trace SystemLiveEx.get1 ∧
  waiting_sync SystemLiveEx.trace 5%N.
Proof.
  exact (conj SystemEx.sb_wf (conj SystemEx.initial (conj SystemLiveEx.session (conj (SystemLiveEx.fits _)
    (conj SystemLiveEx.waits_get SystemLiveEx.waits_sync))))).
Qed.

(** The program as written does not get stuck either. *)
Theorem C57_as_written_requests_answerable `{Geometry} `{Decoder} s0 ls s req :
  addr_wf superblock_addr → SystemModel.initialize Concrete.model s0 →
  run (SystemModel.next Concrete.model) s0 ls s → waiting_request ls req →
  ∃ ls' s' reply s'', run (SystemModel.next Concrete.model) s ls' s' ∧ Forall own_step ls' ∧
    reply_id reply = req_id req ∧ SystemModel.next Concrete.model s' s'' (SystemModel.DeliverReply reply).
Proof. exact (λ Hwf, written_requests Hwf s0 ls s req). Qed.
Print Assumptions C57_as_written_requests_answerable.
Theorem C57_as_written_syncs_answerable `{Geometry} `{Decoder} s0 ls s id :
  addr_wf superblock_addr → SystemModel.initialize Concrete.model s0 →
  run (SystemModel.next Concrete.model) s0 ls s → format_fits ls → waiting_sync ls id →
  ∃ ls' s' s'', run (SystemModel.next Concrete.model) s ls' s' ∧ Forall own_step ls' ∧
    SystemModel.next Concrete.model s' s'' (SystemModel.DeliverSyncReply id).
Proof. exact (λ Hwf, written_syncs Hwf s0 ls s id). Qed.
Print Assumptions C57_as_written_syncs_answerable.
Example C57_as_written_example :
  SystemModel.initialize Concrete.model (fresh_system SystemEx.disk0) ∧
  ∃ s, run (SystemModel.next Concrete.model) (fresh_system SystemEx.disk0) SystemLiveEx.trace s.
Proof. exact (conj SystemEx.initial SystemLiveEx.written_session). Qed.

(** The executable server, as written or repaired: from every reachable state it
    can start up, by its own steps and the disk's, and then take any request. *)
Theorem C57_server_starts_up `{Geometry} `{Codec} c s0 ls s :
  codec_fits ls → addr_wf superblock_addr → Exec.init s0 → run (Exec.next c) s0 ls s →
  ∃ ls' s' im, run (Exec.next c) s ls' s' ∧ Forall startup ls' ∧ Exec.proc s' = Exec.Ready im ∧
    ∀ input, ∃ outs s'', Exec.next c s' s'' (Exec.Recv (mkXReq input (Exec.next_id s')) outs).
Proof. exact (server_starts c s0 ls s). Qed.
Print Assumptions C57_server_starts_up.
Example C57_server_example k :
  addr_wf superblock_addr ∧ (∀ ls, codec_fits ls) ∧
  ∃ ls s, run (Exec.next (repaired k)) formatted ls s ∧ pending_at ls 4 2%N.
Proof. exact (conj example_wf (conj example_fits (pending_example k))). Qed.
