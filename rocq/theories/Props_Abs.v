(** Properties of the abstract system layer: C05, C06, C07, C08, C09. *)
From Verif Require Import Spec_Model Spec_Spec Spec_Proof Abs_Model Abs_Spec Abs_Proof Coord_Proof
  Coord_Live Coord_Example.

(** ** C05: journal plus map behave as one crash-tolerant store. Stated for the
    system as written and with the commit-start transition repaired (C06). *)
Theorem C05_coordination_system_allowed s0 ls s :
  CoordSys.init s0 → run CoordSys.next s0 ls s →
  (∃ t, run CTAM.next CTAM.init ls t) ∧ ∃ logs, explained ls logs ∧ syncs_durable ls logs.
Proof. exact (next_allowed s0 ls s). Qed.
Print Assumptions C05_coordination_system_allowed.
Theorem C05_repaired_system_allowed s0 ls s :
  CoordSys.init s0 → run CoordSys.next_fixed s0 ls s →
  (∃ t, run CTAM.next CTAM.init ls t) ∧ ∃ logs, explained ls logs ∧ syncs_durable ls logs.
Proof. exact (next_fixed_allowed s0 ls s). Qed.
Print Assumptions C05_repaired_system_allowed.
(** A run through start-up, put, sync, commit, crash, recovery and query. *)
Example C05_example :
  CoordSys.init s_init ∧ ∃ s, run CoordSys.next_fixed s_init coord_example_trace s.
Proof. exact (conj s_init_init coord_example). Qed.

(** ** C06: requested syncs can make progress. As written they cannot: after a
    put and a sync request no crash-free continuation acknowledges the sync. *)
Theorem C06_sync_progress_refuted :
  ∃ s0 s, CoordSys.init s0 ∧ run CoordSys.next s0 (take 4 coord_example_trace) s ∧
    ∀ ls s', run CoordSys.next s ls s' → CTAM.CrashOp ∉ ls → CTAM.ReplySyncOp 5%N ∉ ls.
Proof. exact sync_refuted. Qed.
Print Assumptions C06_sync_progress_refuted.
(** No state, reachable or not, can start a commit. *)
Theorem C06_as_written_commit_never_starts s s' l b : ¬ CoordSys.commit_start s s' l b.
Proof. exact (commit_start_disabled s s' l b). Qed.
Print Assumptions C06_as_written_commit_never_starts.
(** So every crash, in every execution, loses every write. *)
Theorem C06_as_written_crash_forgets_everything s0 ls1 ls2 req rep k v s :
  CoordSys.init s0 →
  run CoordSys.next s0
    (ls1 ++ [CTAM.CrashOp] ++ ls2 ++ [CTAM.OperateOp (AsyncMap.ExecuteOp req rep)]) s →
  Forall (λ l, ¬ executes_put l) ls2 →
  req_input req = QueryInput k → reply_output rep = QueryOutput v → v = 0%N.
Proof. exact (as_written_forgets s0 ls1 ls2 req rep k v s). Qed.
Print Assumptions C06_as_written_crash_forgets_everything.
(** With the transition repaired, every pending sync can be acknowledged without
    any further client action. *)
Theorem C06_repaired_sync_progress s0 ls s e id lsn :
  CoordSys.init s0 → run CoordSys.next_fixed s0 ls s →
  CoordSys.ephemeral s = Some e → CoordSys.sync_reqs e !! id = Some lsn →
  ∃ ls' s', run CoordSys.next_fixed s (ls' ++ [CTAM.ReplySyncOp id]) s' ∧ Forall background ls'.
Proof. exact (sync_progress s0 ls s e id lsn). Qed.
Print Assumptions C06_repaired_sync_progress.
Example C06_example : ∃ s e,
  run CoordSys.next_fixed s_init (take 4 coord_example_trace) s ∧
  CoordSys.ephemeral s = Some e ∧ CoordSys.sync_reqs e !! 5%N = Some 1.
Proof. exact pending_example. Qed.

(** ** C07: recovery reconstructs exactly the durable operations. *)
Theorem C07_recovered_store_is_logged s0 ls s m :
  CoordSys.init s0 → run CoordSys.next_fixed s0 ls s → recovered s m →
  ∃ logs log, explained ls logs ∧ syncs_durable ls logs ∧ logs !! length ls = Some log ∧
    ∀ k, m k = Define (last_write k log).
Proof. exact (recovered_log s0 ls s m). Qed.
Print Assumptions C07_recovered_store_is_logged.
Theorem C07_recovery_replays_the_journal s0 ls s ls' s' m l :
  CoordSys.init s0 → run CoordSys.next_fixed s0 ls s → CoordSys.ephemeral s = None →
  run recovery_step s ls' s' → recovered s' m →
  is_log (CTJournal.persistent (CoordSys.journal s)) l →
  ∀ k, m k = after l k (st_value (CTMap.persistent (CoordSys.mapadt s)) k).
Proof. exact (recovery_exact s0 ls s ls' s' m l). Qed.
Print Assumptions C07_recovery_replays_the_journal.
(** Recovery is possible from every crash state (so the two theorems above are
    never vacuous), and the durable journal always is a log. *)
Theorem C07_recovery_possible s0 ls s :
  CoordSys.init s0 → run CoordSys.next_fixed s0 ls s → CoordSys.ephemeral s = None →
  ∃ ls' s' m, run recovery_step s ls' s' ∧ run CoordSys.next_fixed s ls' s' ∧ recovered s' m.
Proof. exact (recovery_possible s0 ls s). Qed.
Print Assumptions C07_recovery_possible.
Theorem C07_durable_journal_is_log s0 ls s :
  CoordSys.init s0 → run CoordSys.next_fixed s0 ls s →
  ∃ l, is_log (CTJournal.persistent (CoordSys.journal s)) l ∧
    seq_start (CTJournal.persistent (CoordSys.journal s)) = st_seq_end (CTMap.persistent (CoordSys.mapadt s)).
Proof. exact (durable_is_log s0 ls s). Qed.
Print Assumptions C07_durable_journal_is_log.
Example C07_example : ∃ s, run CoordSys.next_fixed s_init (take 12 coord_example_trace) s ∧
  CoordSys.ephemeral s = None ∧ msg_value (st_value (CTMap.persistent (CoordSys.mapadt s)) 1%N) = 7%N.
Proof. exact crash_example. Qed.

(** ** C08: truncating the journal never loses an operation. *)
Theorem C08_truncation_loses_nothing m h n :
  mh_wf h → can_discard_to h n →
  map_plus_history m h =
    map_plus_history (map_plus_history m (discard_recent h n)) (discard_old h n).
Proof. exact (mph_split m h n). Qed.
Print Assumptions C08_truncation_loses_nothing.
(** The two parts hold exactly the log entries before and from [n]. *)
Theorem C08_parts_are_the_log h n l :
  is_log h l → can_discard_to h n →
  is_log (discard_recent h n) (take (n - seq_start h) l) ∧
  is_log (discard_old h n) (drop (n - seq_start h) l).
Proof. exact (discard_logs h n l). Qed.
Print Assumptions C08_parts_are_the_log.
Example C08_example :
  mh_wf (mh_concat h1 h2) ∧ can_discard_to (mh_concat h1 h2) 1 ∧
  is_log (mh_concat h1 h2) [mkKM 1%N (Define 7%N); mkKM 1%N (Define 9%N)].
Proof. exact truncation_example. Qed.

(** ** C09: replaying a log in pieces equals replaying it whole. *)
Theorem C09_replay_in_pieces m h hs :
  consecutive (st_seq_end m) (h :: hs) →
  fold_left map_plus_history (h :: hs) m =
    map_plus_history m (fold_left mh_concat hs h).
Proof. exact (replay_in_pieces m h hs). Qed.
Print Assumptions C09_replay_in_pieces.
(** Replaying means applying the logged messages one at a time, in order. *)
Theorem C09_replay_is_in_order m h l :
  is_log h l → can_follow h (st_seq_end m) →
  st_seq_end (map_plus_history m h) = seq_end h ∧
  ∀ k, st_value (map_plus_history m h) k = after l k (st_value m k).
Proof. exact (mph_after m h l). Qed.
Print Assumptions C09_replay_is_in_order.
Example C09_example : consecutive (st_seq_end stamped_empty) [h1; h2] ∧
  st_value (map_plus_history stamped_empty (mh_concat h1 h2)) 1%N = Define 9%N.
Proof. exact pieces_example. Qed.
