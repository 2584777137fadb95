(** Concrete cases for C58. *)
From Verif Require Import Spec_Model Abs_Model Betree_Model Betree_Spec Branch_Model Branch_Spec Branch_Example.
From Verif Require Import LinkedBetree_Model LinkedBetree_Spec LikesBetree_Model LikesBetree_Spec Spec_Proof Route_Proof LinkedBetree_Proof LinkedBetree_Facts
  LikesTree_Proof Betree_Example LinkedBetree_Example LikesBetree_Example.
From Verif Require Import Branch_Proof BranchPages_Proof BranchBuild_Proof BranchBuffer_Proof BranchForest_Proof BranchSkel_Proof BranchBetree_Model BranchBetree_Spec BranchBetree_Proof BranchBetree_Facts BranchBetree_Example BranchLive_Spec BranchLive_Proof
  BranchLive_Example TreeFlow_Spec TreeFlow_Example.
From Coq Require Import ZifyBool ZifyNat ZifyN Lia.

Module BranchRestartEx.
  Local Existing Instance bgeo.
  Section Frozen.
  Context (fixed grow : bool).
  Local Instance rbb : Buffer BranchNode := branch_buffer fixed.
  (** ** A branch is compacted twice at a time, and one of the compactions has
      finished: the old branch is on the disk, and not in the tree. *)
  Definition u1 := BranchEx.add_leaf (BranchEx.put BranchEx.s0 5 (Define 50)) 1 [5%N] [Define 50%N].
  Definition u2 := BranchEx.flushed u1 (BranchEx.one 1 [5%N] [Define 50%N]) (BranchEx.nd 10).
  Definition v2 := BranchEx.compacting u2 (BranchEx.input_at_root u2 0 1).
  Definition v3 := BranchEx.add_leaf (BranchEx.compacting v2 (BranchEx.input_at_root v2 0 1)) 2 [5%N] [Define 50%N].
  Definition v4 := BranchEx.compacted_state v3 (BranchEx.one 2 [5%N] [Define 50%N]) 3 0 1 (BranchEx.nd 11).
  Lemma was2 : ∃ X, BranchEx.reach fixed grow u2 X.
  Proof.
    eexists. apply (BranchEx.flush_step _ _ _ (BranchEx.leaf 1 [5%N] [Define 50%N])); [done|done|done|split_and!; bk|done|bk|bk|bk|by vm_compute|bk|].
    apply BranchEx.leaf_steps; [done|split_and!; bk|lia|apply BranchEx.leaf5|]. apply BranchEx.put_step, BranchEx.start.
  Qed.
  Lemma disk3 : lb_bdv (ABB.linked v3) = {[pg 1 0 := LBranch.Leaf [5%N] [Define 50%N]]}.
  Proof. apply (bool_decide_eq_true_1 _). vm_compute. reflexivity. Qed.
  Lemma disk4 : lb_bdv (ABB.linked v4) = {[pg 1 0 := LBranch.Leaf [5%N] [Define 50%N]; pg 2 0 := LBranch.Leaf [5%N] [Define 50%N]]}.
  Proof. apply (bool_decide_eq_true_1 _). vm_compute. reflexivity. Qed.
  Lemma node3 : Linked.root_node (ABB.linked v3) = BranchEx.leaf_node [pg 1 0].
  Proof. by vm_compute. Qed.
  Lemma leaf_query (d : BranchDisk) r k : LBranch.disk_wf d → d !! r = Some (LBranch.Leaf [5%N] [Define 50%N]) →
    branch_query d r k = PBranch.query (PBranch.Leaf [5%N] [Define 50%N]) k.
  Proof.
    intros Hw Hr. destruct (@first_page_holds (gset AU) r _ _ (BranchEx.leaf5 50%N)) as [(H1&H2&H3) _].
    apply branch_query_tree; [done|by constructor|done].
  Qed.
  Lemma wf3 : LBranch.disk_wf (lb_bdv (ABB.linked v3)).
  Proof. rewrite disk3. exact (proj1 (proj1 (@first_page_holds (gset AU) (pg 1 0) _ _ (BranchEx.leaf5 50%N)))). Qed.
  Lemma wf4 : LBranch.disk_wf (lb_bdv (ABB.linked v4)).
  Proof.
    rewrite disk4. destruct (proj1 (proj1 (@first_page_holds (gset AU) (pg 1 0) _ _ (BranchEx.leaf5 50%N)))) as [W1 W2].
    assert (Hl : ∀ a n, ({[pg 1 0 := LBranch.Leaf [5%N] [Define 50%N]; pg 2 0 := LBranch.Leaf [5%N] [Define 50%N]]} : BranchDisk) !! a = Some n →
      n = LBranch.Leaf [5%N] [Define 50%N]).
    { intros a n Hn. apply lookup_insert_Some in Hn as [[_ <-]|[_ Hn]]; [done|]. by apply lookup_singleton_Some in Hn as [_ <-]. }
    split; [intros a n ->%Hl|intros a n j c ->%Hl Hc; by cbn in Hc].
    apply (W1 (pg 1 0)). apply lookup_singleton.
  Qed.
  Definition there (d : BranchDisk) r k : Prop :=
    if fixed then branch_query d r k ≠ Update nop_delta else branch_query d r k = Update nop_delta.
  Lemma same k : branch_query (lb_bdv (ABB.linked v4)) (pg 2 0) k = branch_query (lb_bdv (ABB.linked v3)) (pg 1 0) k.
  Proof. rewrite (leaf_query _ _ _ wf4) by bk. by rewrite (leaf_query _ _ _ wf3) by bk. Qed.
  Lemma same_there k : there (lb_bdv (ABB.linked v4)) (pg 2 0) k ↔ there (lb_bdv (ABB.linked v3)) (pg 1 0) k.
  Proof. unfold there. by rewrite same. Qed.
  Lemma reached : ∃ X, BranchEx.reach fixed grow v4 X.
  Proof.
    destruct was2 as [X Hr]. assert (∃ Y, BranchEx.from fixed grow u2 v4 Y) as [Y [Hv _]]; [|eauto]. eexists.
    apply (BranchEx.compact_step_from fixed grow u2 v3 (BranchEx.leaf 2 [5%N] [Define 50%N]));
      [done|done|done|split_and!; bk|done| |apply BranchEx.rootb_ok; by vm_compute|split; [apply node_okb_ok; by vm_compute|bk]
      |vm_compute; lia|bk|bk|by vm_compute| | |].
    - reflexivity.
    - intros k. fold v4. rewrite node3, BranchEx.leaf_node_keys by done.
      change (there (lb_bdv (ABB.linked v4)) (pg 2 0) k ↔ ∃ a, a ∈ [pg 1 0] ∧ Linked.queryable_contains (lb_bdv (ABB.linked v3)) a k).
      rewrite same_there. split.
      + intros Hq. exists (pg 1 0). split; [by left|]. eexists. split; [rewrite disk3; apply lookup_singleton|exact Hq].
      + intros (a&Ha&x&Hx&Hq). apply elem_of_list_singleton in Ha. subst a. exact Hq.
    - intros k Hk. fold v4. rewrite node3, BranchEx.leaf_node_value by done.
      change (branch_query (lb_bdv (ABB.linked v4)) (pg 2 0) k = Linked.bd_query_all (lb_bdv (ABB.linked v3)) [pg 1 0] k). rewrite same.
      cbn [Linked.bd_query_all]. unfold Linked.bd_query.
      assert (Ex : lb_bdv (ABB.linked v3) !! pg 1 0 = Some (LBranch.Leaf [5%N] [Define 50%N])) by bk. rewrite Ex.
      change (branch_query (lb_bdv (ABB.linked v3)) (pg 1 0) k = Spec_Model.merge (branch_query (lb_bdv (ABB.linked v3)) (pg 1 0) k) (Update nop_delta)).
      by destruct (branch_query _ _ _) as [?|[]].
    - apply BranchEx.leaf_steps_from; [done|split_and!; bk|lia|apply BranchEx.leaf5|].
      apply (BranchEx.compacting_step_from _ _ _ _ ((X ∪ ∅) ∖ ∅) 3%N); [apply BranchEx.rootb_ok; by vm_compute|split; [apply node_okb_ok; by vm_compute|bk]|vm_compute; lia|].
      apply (BranchEx.compacting_step_from _ _ _ _ X 3%N); [apply BranchEx.rootb_ok; by vm_compute|split; [apply node_okb_ok; by vm_compute|bk]|vm_compute; lia|].
      by apply BranchEx.from_here.
  Qed.
  Lemma root4 : lb_root (root (ABB.betree v4)) = Some (BranchEx.nd 11) ∧
    dom (lb_dv (root (ABB.betree v4))) = {[BranchEx.nd 11]} ∧
    lb_dv (root (ABB.betree v4)) !! BranchEx.nd 11 = Some (BranchEx.leaf_node [pg 2 0]).
  Proof. split; [done|]. split; [|by vm_compute]. apply (bool_decide_eq_true_1 _). vm_compute. reflexivity. Qed.
  Lemma node4 is a : node_ref (root (ABB.betree v4)) is a → a = BranchEx.nd 11.
  Proof.
    unfold node_ref. destruct root4 as (_&Hd&_). generalize (lb_root (root (ABB.betree v4))). intros p Hl.
    assert (Ha : is_Some (lb_dv (root (ABB.betree v4)) !! a)) by (clear Hd; induction Hl; eauto).
    apply elem_of_dom in Ha. rewrite Hd in Ha. by apply elem_of_singleton in Ha.
  Qed.
  Lemma rejected s : ¬ ABB.initialize s (ABB.betree v4).
  Proof.
    intros Hi. destruct (abb_init fixed _ _ Hi) as (σ&_&_&I&_&Eb).
    assert (Hc : ABB.compactors s = [] ∧ ABB.wip_branches s = []).
    { destruct Hi as (_&tl&bl&_&_&_&_&_&_&_&->). done. }
    assert (Hh : 1 ∈ held s).
    { destruct Hi as (_&tl&bl&_&_&_&_&_&Hcl&_&->). unfold held. cbn. apply elem_of_union_l, elem_of_union_r.
      apply (Hcl (pg 1 0)). apply elem_of_dom. change (is_Some (lb_bdv (ABB.linked v4) !! pg 1 0)). bk. }
    apply (needed_iff _ _ _ _ I) in Hh as [o Ho]. destruct o as [|r|i]; cbn in Ho.
    - destruct Ho as (a&[is Ha]&E). rewrite Eb in Ha. apply node4 in Ha. subst a. done.
    - destruct Ho as ([[[is j] (a&n&Ha&Hn&Hj)]|(c&Hcc&_)]&U&HU&Hin).
      2: { rewrite (proj1 Hc) in Hcc. by apply elem_of_nil in Hcc. }
      rewrite Eb in Ha, Hn, HU. apply node4 in Ha. subst a. rewrite (proj2 (proj2 root4)) in Hn. injection Hn as <-.
      cbn in Hj. destruct j as [|j]; [|done]. cbn in Hj. injection Hj as <-.
      change (branch_units (lb_bdv (ABB.linked v4)) (pg 2 0) U) in HU.
      destruct HU as [(ks&ms&E&->)|(ps&cs&p&E&_)]; [by apply elem_of_singleton in Hin|].
      rewrite disk4 in E. vm_compute in E. done.
    - destruct Ho as (w&Hw&_). rewrite (proj2 Hc) in Hw. done.
  Qed.
  Lemma refuted : ∃ s0 b ls s img, ABB.initialize s0 b ∧ run (ABB.next fixed grow) s0 ls s ∧
    ABB.next fixed grow s s (ABB.Lbl (FreezeAs img)) ∧ ∀ s', ¬ ABB.initialize s' (ABB.betree s).
  Proof.
    destruct reached as [X (ls&Hr&_)]. eexists _, _, ls, v4, _. split; [exact BranchEx.initial|]. split; [exact Hr|].
    split; [apply freeze_step; by vm_compute|exact rejected].
  Qed.
  End Frozen.
  Lemma idle14 : mt_is_empty (memtable (ABB.betree BranchEx.t14)) ∧ ABB.compactors BranchEx.t14 = [] ∧ ABB.wip_branches BranchEx.t14 = [].
  Proof. split_and!; by vm_compute. Qed.
  (** ** A tree that counts references, frozen with two levels *)
  Definition frozen8 : Stamped SLB := mkStamped (root LinkedEx.st8) (mt_seq_end (memtable LinkedEx.st8)).
  Lemma freeze8 : ∃ ls s, run LikesBetree.next LikesEx.l0 ls s ∧ LikesBetree.betree s = LinkedEx.st8 ∧ LikesBetree.next s s (FreezeAs frozen8).
  Proof.
    destruct FlowEx.lreached8 as (ls&s&Hr&E). exists ls, s. split; [done|]. split; [done|]. left. exists (LikesBetree.betree s).
    split; [done|]. split; [|by destruct s]. right; right; left. rewrite E. split; [by vm_compute|]. split; [|done]. unfold frozen8. by rewrite i_bdv_id.
  Qed.
  Lemma xfreeze8 : (∃ ls, run AllocBetree.next LikesEx.x0 ls LikesEx.x8) ∧ AllocBetree.next LikesEx.x8 LikesEx.x8 (FreezeAs frozen8).
  Proof.
    split; [exact FlowEx.reached8|]. left. exists LinkedEx.st8.
    split; [done|]. split; [|done]. right; right; left. split; [by vm_compute|]. split; [|done]. unfold frozen8. by rewrite i_bdv_id.
  Qed.
End BranchRestartEx.
