(** Properties of the executable server (C24, C25). *)
From Verif Require Import Spec_Model Spec_Spec Disk_Model Exec_Model Exec_Spec Exec_Proof Exec_Example
  ExecPage_Proof ExecPage_Example.

(** ** C24: replies *)
(** With queries answered and the superblock restored, and whichever way a
    restart numbers its requests, every request gets
    exactly the reply expected after the operations before it, the map in memory
    is the one those operations produce, and a failure only cuts off a suffix. *)
Theorem C24_repaired_server_answers `{Geometry} `{Codec} k s0 ls s :
  codec_fits ls → Exec.init s0 → run (Exec.next (repaired k)) s0 ls s →
  ∃ logs, served ls logs ∧
    ∀ im log, Exec.proc s = Exec.Ready im → logs !! length ls = Some log →
      shows (volatile_map im) log.
Proof.
  exact (λ Hc Hi Hr, let '(ex_intro _ logs (conj A (conj _ B))) := exec_correct k s0 ls s Hc Hi Hr in
    ex_intro _ logs (conj A B)).
Qed.
Print Assumptions C24_repaired_server_answers.
Example C24_repaired_server_answers_example k :
  codec_fits (story k 7%N) ∧ Exec.init formatted ∧ ∃ s, run (Exec.next (repaired k)) formatted (story k 7%N) s.
Proof. exact (conj (example_fits _) (conj formatted_init (story_repaired k))). Qed.

(** The server as written, and any mixture of the repairs: puts and no-ops are
    acknowledged at once, with their id; syncs are not answered at once; queries
    are not answered unless repaired. *)
Theorem C24_acknowledgements `{Geometry} `{Codec} c s0 ls s i req outs :
  run (Exec.next c) s0 ls s → ls !! i = Some (Exec.Recv req outs) →
  match xreq_input req with
  | XPut _ _ => outs = [mkXReply XPutOutput (xreq_id req)]
  | XNoop => outs = [mkXReply XNoopOutput (xreq_id req)]
  | XSync => outs = []
  | XQuery _ => answers c = false → outs = []
  end.
Proof. exact (exec_acks c s0 ls s i req outs). Qed.
Print Assumptions C24_acknowledgements.
Example C24_acknowledgements_example k :
  ∃ s, run (Exec.next (repaired k)) formatted (story k 7%N) s ∧
    story k 7%N !! 3 = Some (Exec.Recv (mkXReq (XPut 1 7) 1) [mkXReply XPutOutput 1])%N.
Proof. destruct (story_repaired k) as [s Hr]. exists s. split; [exact Hr|reflexivity]. Qed.

(** As written, the map in memory is what the operations received since the last
    restart produce. *)
Theorem C24_as_written_map `{Geometry} `{Codec} s0 ls s im :
  Exec.init s0 → run (Exec.next as_written) s0 ls s → Exec.proc s = Exec.Ready im →
  shows (volatile_map im) (session_ops ls).
Proof. exact (written_volatile as_written s0 ls s im eq_refl). Qed.
Print Assumptions C24_as_written_map.

(** As written, no query is ever answered. *)
Theorem C24_as_written_never_answers_queries `{Geometry} `{Codec} s0 ls s i e r v :
  run (Exec.next as_written) s0 ls s → ls !! i = Some e → r ∈ replies e →
  xreply_output r ≠ XQueryOutput v.
Proof. exact (written_no_query_reply as_written s0 ls s i e r v eq_refl). Qed.
Print Assumptions C24_as_written_never_answers_queries.
Theorem C24_as_written_refuted :
  ∃ ls s, Exec.init formatted ∧ run (Exec.next as_written) formatted ls s ∧
    ¬ ∃ logs, served ls logs.
Proof.
  exact (let '(ex_intro _ ls (ex_intro _ s (conj A B))) := unanswered_query in
    ex_intro _ ls (ex_intro _ s (conj formatted_init (conj A B)))).
Qed.
Print Assumptions C24_as_written_refuted.

(** No execution reaches the code's [unreached()] points, in any configuration. *)
Theorem C24_never_panics `{Geometry} `{Codec} c s0 ls s :
  codec_fits ls → Exec.init s0 → run (Exec.next c) s0 ls s →
  Exec.Panic ∉ ls ∧ Exec.proc s ≠ Exec.Panicked.
Proof. exact (exec_never_panics c s0 ls s). Qed.
Print Assumptions C24_never_panics.
Example C24_never_panics_example :
  codec_fits (story false 0%N) ∧ Exec.init formatted ∧ ∃ s, run (Exec.next (mkConfig true false false)) formatted (story false 0%N) s.
Proof. exact (conj (example_fits _) (conj formatted_init (story_run (mkConfig true false false) eq_refl))). Qed.

(** ** C25: durability *)
(** Repaired server: the log explains every reply, and an acknowledged sync was
    requested earlier in the same incarnation, is acknowledged once, and
    everything executed when it was requested survives every later failure. *)
Theorem C25_repaired_sync_is_durable `{Geometry} `{Codec} k s0 ls s :
  codec_fits ls → Exec.init s0 → run (Exec.next (repaired k)) s0 ls s →
  ∃ logs, served ls logs ∧ exec_syncs_durable ls logs ∧
    ∀ im log, Exec.proc s = Exec.Ready im → logs !! length ls = Some log →
      shows (volatile_map im) log.
Proof. exact (exec_correct k s0 ls s). Qed.
Print Assumptions C25_repaired_sync_is_durable.
Example C25_repaired_sync_is_durable_example k :
  ∃ s, run (Exec.next (repaired k)) formatted (story k 7%N) s ∧
    ∃ j e, story k 7%N !! j = Some e ∧ acks e 3%N.
Proof.
  destruct (story_repaired k) as [s Hr]. exists s. split; [exact Hr|].
  exists 7. eexists. split; [reflexivity|]. by apply elem_of_list_singleton.
Qed.
(** Every waiting sync can be acknowledged by the machine alone. *)
Theorem C25_repaired_sync_is_answerable `{Geometry} `{Codec} k s0 ls s i id :
  codec_fits ls → addr_wf superblock_addr → Exec.init s0 →
  run (Exec.next (repaired k)) s0 ls s → pending_at ls i id →
  ∃ ls' s', run (Exec.next (repaired k)) s ls' s' ∧ Forall autonomous ls' ∧ ∃ e, e ∈ ls' ∧ acks e id.
Proof. exact (exec_progress k s0 ls s i id). Qed.
Print Assumptions C25_repaired_sync_is_answerable.
Example C25_repaired_sync_is_answerable_example k :
  addr_wf superblock_addr ∧ (∀ ls, codec_fits ls) ∧
  ∃ ls s, run (Exec.next (repaired k)) formatted ls s ∧ pending_at ls 4 2%N.
Proof. exact (conj example_wf (conj example_fits (pending_example k))). Qed.

(** As written, every restart begins with an empty map, whatever the disk holds. *)
Theorem C25_as_written_restart_is_empty `{Geometry} `{Codec} s0 ls s im k :
  Exec.init s0 → run (Exec.next as_written) s0 (ls ++ [Exec.Recovered]) s →
  Exec.proc s = Exec.Ready im → MapSpec.kmmap (volatile_map im) k = Define 0%N.
Proof. exact (written_restart_empty as_written s0 ls s im k eq_refl). Qed.
Print Assumptions C25_as_written_restart_is_empty.
(** With only the queries repaired, a client sees a synced put disappear. *)
Theorem C25_unrestored_refuted :
  ∃ ls s, Exec.init formatted ∧ run (Exec.next (mkConfig true false false)) formatted ls s ∧
    ¬ ∃ logs, served ls logs ∧ exec_syncs_durable ls logs.
Proof.
  exact (let '(ex_intro _ ls (ex_intro _ s (conj A B))) := lost_put in
    ex_intro _ ls (ex_intro _ s (conj formatted_init (conj A B)))).
Qed.
Print Assumptions C25_unrestored_refuted.

(** Finding: the server writes its whole map into one page. Whatever the encoding,
    if there are finitely many pages (as there are for pages of a fixed size), there
    is an execution that puts zeros and ones to few keys, syncs, crashes, restarts,
    and then either panics or has lost a synced put. So the theorems above ask the
    encoding only for the journals an execution can make ([codec_fits]), not for all. *)
Theorem C25_one_page_refuted `{Geometry} `{Codec} k pages s0 :
  addr_wf superblock_addr → (∀ j, marshall j ∈ pages) → Exec.init s0 →
  ∃ ls s, run (Exec.next (repaired k)) s0 ls s ∧
    (∀ m, m ∈ puts_taken ls → (km_key m ≤ N.of_nat (Nat.log2 (length pages)))%N ∧
       (km_message m = Define 0%N ∨ km_message m = Define 1%N)) ∧
    ¬ ∃ logs, served ls logs ∧ exec_syncs_durable ls logs.
Proof. exact (one_page k pages s0). Qed.
Print Assumptions C25_one_page_refuted.
(** An encoding in pages of six bytes meets both hypotheses: it is finite, and fits
    an execution with a sync and a restart. *)
Example C25_one_page_refuted_example k :
  addr_wf superblock_addr ∧ (∀ j, marshall (Codec := page_codec) j ∈ byte_lists 6) ∧
  Exec.init (H := page_codec) page_formatted ∧ codec_fits (H := page_codec) (story k 7%N) ∧
  ∃ s, run (Exec.next (H0 := page_codec) (repaired k)) page_formatted (story k 7%N) s.
Proof.
  exact (conj example_wf (conj page_codec_small (conj page_formatted_init (conj (page_codec_fits k 7%N) (page_story k))))).
Qed.
