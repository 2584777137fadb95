(** Concrete cases for the compactions of C54. *)
From Verif Require Import Spec_Model Abs_Model Betree_Model Betree_Spec Branch_Model Branch_Spec Branch_Example.
From Verif Require Import LinkedBetree_Model LinkedBetree_Spec LikesBetree_Model LikesBetree_Spec Spec_Proof Route_Proof LinkedBetree_Proof LinkedBetree_Facts
  LikesTree_Proof Betree_Example LinkedBetree_Example LikesBetree_Example.
From Verif Require Import BranchSkel_Proof BranchBetree_Model BranchBetree_Spec BranchBetree_Proof BranchBetree_Facts BranchBetree_Example BranchLive_Spec
  BranchLive_Example BranchMerge_Proof.
From Coq Require Import ZifyBool ZifyNat ZifyN Lia.

Module BranchMergeEx.
  Local Existing Instance bgeo.
  (** ** Two branches with a key in common, to be compacted *)
  Definition half : ABB.State := BranchEx.t7.
  Definition input2 : CompactorInput := BranchEx.input_at_root BranchEx.t6 0 2.
  Lemma half_run : BranchEx.reach true true half {[1; 2; 5; 11]}.
  Proof.
    replace ({[1; 2; 5; 11]} : gset AU) with ((({[1; 2; 5; 11]} : gset AU) ∪ ∅) ∖ ∅) by bk.
    apply (BranchEx.compacting_step _ _ _ _ 3%N); [apply BranchEx.rootb_ok; by vm_compute|split; [apply node_okb_ok; by vm_compute|bk]|vm_compute; lia|apply BranchEx.run6].
  Qed.
  Lemma half_input : ABB.compactors half !! 0 = Some input2 ∧ ABB.valid_compactor_input (root (ABB.betree half)) 3 0 0 2 input2.
  Proof.
    split; [done|]. apply (BranchEx.input_ok true true BranchEx.t6 {[1; 2; 5; 11]}); [apply BranchEx.rootb_ok; by vm_compute|split; [apply node_okb_ok; by vm_compute|bk]|vm_compute; lia|apply BranchEx.run6].
  Qed.
  Lemma half_free : Forall (λ u, ¬ needed half u) [6; 20] ∧ 6 < au_count ∧ 0 < page_count.
  Proof. split; [|cbn; lia]. apply (BranchLiveEx.free_of _ _ _ half_run). by vm_compute. Qed.

  (** ** As written: key 5 in one branch, key 7 in the other *)
  Definition w1 : ABB.State := BranchEx.add_leaf (BranchEx.put BranchEx.u2 7 (Define 70)) 2 [7%N] [Define 70%N].
  Definition w2 : ABB.State := BranchEx.flushed w1 (BranchEx.one 2 [7%N] [Define 70%N]) (BranchEx.nd 11).
  Definition input_w : CompactorInput := BranchEx.input_at_root w2 0 2.
  Definition w3 : ABB.State := BranchEx.compacting w2 input_w.
  Lemma leaf7 : first_leaf [7%N] [Define 70%N].
  Proof. split_and!; [done|done|repeat constructor]. Qed.
  Lemma was_w2 : ∃ X, BranchEx.reach false false w2 X.
  Proof.
    destruct BranchEx.was2 as [X HX]. eexists.
    apply (BranchEx.flush_step _ _ _ (BranchEx.leaf 2 [7%N] [Define 70%N])); [done|done|done|split_and!; bk|done|bk|bk|bk|by vm_compute|bk|].
    apply BranchEx.leaf_steps; [done|split_and!; bk|lia|apply leaf7|]. apply BranchEx.put_step, HX.
  Qed.
  Lemma was_w3 : ∃ X, BranchEx.reach false false w3 X.
  Proof.
    destruct was_w2 as [X HX]. eexists.
    apply (BranchEx.compacting_step false false w2 X 3%N); [apply BranchEx.rootb_ok; by vm_compute|split; [apply node_okb_ok; by vm_compute|bk]|vm_compute; lia|exact HX].
  Qed.
  Lemma input_w_ok : ABB.compactors w3 !! 0 = Some input_w ∧ ABB.valid_compactor_input (root (ABB.betree w3)) 3 0 0 2 input_w.
  Proof.
    split; [done|]. destruct was_w2 as [X HX].
    apply (BranchEx.input_ok false false w2 X); [apply BranchEx.rootb_ok; by vm_compute|split; [apply node_okb_ok; by vm_compute|bk]|vm_compute; lia|exact HX].
  Qed.
  Lemma stuck_w s s' l new ii bi na pa : ABB.betree s = ABB.betree w3 → ¬ ABB.internal_compact_complete false s s' l new 3 0 0 2 ii bi na pa.
  Proof.
    intros E Hc. pose proof (compact_same_keys _ _ _ _ _ _ _ _ _ _ _ _ 7%N (pg 1 0) (pg 2 0) Hc) as Hk. cbv zeta in Hk. rewrite E in Hk.
    assert (Hq : branch_query (lb_bdv (root (ABB.betree w3))) (pg 2 0) 7 = Update nop_delta); [|by vm_compute in Hq].
    apply Hk; [bk|vm_compute; lia|bk|bk|by eexists|by vm_compute|by eexists].
  Qed.
  Lemma refuted : ∃ s0 b ls s input, ABB.initialize s0 b ∧ nodes_apart (root b) ∧ run (ABB.next false false) s0 ls s ∧
    ABB.compactors s !! 0 = Some input ∧ ABB.valid_compactor_input (root (ABB.betree s)) 3 0 0 2 input ∧
    ∀ s1 s' l new ii bi na pa, ABB.betree s1 = ABB.betree s → ¬ ABB.internal_compact_complete false s1 s' l new 3 0 0 2 ii bi na pa.
  Proof.
    destruct was_w3 as (X&ls&Hr&_). exists BranchEx.s0, BranchEx.tree0, ls, w3, input_w. split; [apply BranchEx.initial|]. split; [apply BranchLiveEx.empty_apart|].
    split; [exact Hr|]. split; [apply input_w_ok|]. split; [apply input_w_ok|]. intros s1 s' l new ii bi na pa. apply stuck_w.
  Qed.
End BranchMergeEx.
