(** Properties of the specification layer: C01, C02, C03, C04, C10. *)
From Verif Require Import Spec_Model Spec_Spec Spec_Proof.

(** ** C01: a query returns the most recent write. *)
Theorem C01_query_returns_last_write ls s :
  run MapSpec.next MapSpec.my_init ls s →
  ∀ n key value,
    ls !! n = Some (MapSpec.Query (QueryInput key) (QueryOutput value)) →
    value = last_write key (take n (MapSpec.getInput <$> ls)).
Proof. exact (mapspec_query_last_write ls s). Qed.
Print Assumptions C01_query_returns_last_write.

(** Every output (not only queries) is the expected one, and every sequence of
    operations is possible, so the hypothesis of the theorem is met by every
    history. *)
Theorem C01_histories_legal ls s :
  run MapSpec.next MapSpec.my_init ls s →
  legal ((λ l, (MapSpec.getInput l, MapSpec.getOutput l)) <$> ls).
Proof. exact (λ H, proj2 (mapspec_run ls s H)). Qed.
Print Assumptions C01_histories_legal.

Theorem C01_every_history_possible ops :
  ∃ ls s, run MapSpec.next MapSpec.my_init ls s ∧ MapSpec.getInput <$> ls = ops.
Proof. exact (mapspec_total ops). Qed.
Print Assumptions C01_every_history_possible.

Example C01_example :
  last_write 3%N [PutInput 3 7; PutInput 4 8; QueryInput 3; PutInput 3 9; NoopInput]%N = 9%N.
Proof. reflexivity. Qed.

(** ** C02: linearizable, exactly-once replies. *)
Theorem C02_linearizable tr s :
  run AsyncMap.next AsyncMap.init tr s →
  legal (executed tr) ∧ ∃ m e, linearized tr m e.
Proof. exact (async_linearizable tr s). Qed.
Print Assumptions C02_linearizable.

(** Two overlapping clients, the later request taking effect first. *)
Example C02_example :
  ∃ s, run AsyncMap.next AsyncMap.init
    [AsyncMap.RequestOp (mkReq (PutInput 1 7) 0); AsyncMap.RequestOp (mkReq (QueryInput 1) 1);
     AsyncMap.ExecuteOp (mkReq (QueryInput 1) 1) (mkReply (QueryOutput 0) 1);
     AsyncMap.ExecuteOp (mkReq (PutInput 1 7) 0) (mkReply PutOutput 0);
     AsyncMap.ReplyOp (mkReply PutOutput 0);
     AsyncMap.ReplyOp (mkReply (QueryOutput 0) 1)]%N s.
Proof. exact async_example. Qed.

(** ** C03: a crash exposes only a prefix of the executed operations. *)
Theorem C03_crash_exposes_prefix ls s :
  run CTAM.next CTAM.init ls s →
  ∃ logs log store, explained ls logs ∧
    logs !! length ls = Some log ∧
    fs_last (CTAM.versions s) = Some store ∧ shows store log.
Proof. exact (ctam_prefix ls s). Qed.
Print Assumptions C03_crash_exposes_prefix.

(** ** C04: an acknowledged sync is durable (for the same explanation of the
    trace as in C03). *)
Theorem C04_acknowledged_sync_durable ls s :
  run CTAM.next CTAM.init ls s →
  ∃ logs log store, explained ls logs ∧ syncs_durable ls logs ∧
    logs !! length ls = Some log ∧
    fs_last (CTAM.versions s) = Some store ∧ shows store log.
Proof. exact (ctam_explained ls s). Qed.
Print Assumptions C04_acknowledged_sync_durable.

(** A put is synced and acknowledged, a second put is lost in a crash, and the
    next query sees the first put. *)
Example C03_C04_example :
  ∃ s, run CTAM.next CTAM.init ctam_example_trace s.
Proof. exact ctam_example. Qed.

(** ** C10: message merging. *)
Theorem C10_merge_associative a b c : merge a (merge b c) = merge (merge a b) c.
Proof. exact (merge_assoc a b c). Qed.
Print Assumptions C10_merge_associative.
Theorem C10_newest_definition_wins m v : merge m (Define v) = Define v.
Proof. exact (merge_define m v). Qed.
Print Assumptions C10_newest_definition_wins.
Theorem C10_merge_into_definition v m : ∃ v', merge (Define v) m = Define v'.
Proof. exact (merge_is_define (Define v) m (ex_intro _ v eq_refl)). Qed.
Print Assumptions C10_merge_into_definition.
Theorem C10_nop_is_identity m :
  merge m (Update nop_delta) = m ∧ merge (Update nop_delta) m = m.
Proof. exact (conj (merge_nop_r m) (merge_nop_l m)). Qed.
Print Assumptions C10_nop_is_identity.
