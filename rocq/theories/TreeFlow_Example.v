(** The example tree of C37 can be reorganised: what C56 asks of it holds. *)
From Verif Require Import Spec_Model Abs_Model Betree_Model Betree_Spec LinkedBetree_Model LinkedBetree_Spec
  LikesBetree_Model LikesBetree_Spec Spec_Proof Abs_Proof Betree_Common LinkedBetree_Facts LikesBetree_Facts Betree_Example LinkedBetree_Example LikesBetree_Example TreeFlow_Spec.
From Coq Require Import ZifyBool ZifyNat ZifyN Lia.

Module FlowEx.
  Import LinkedEx.
  Lemma shape0 : leaves_and_full_nodes (root st0).
  Proof. intros a n _ H. cbn in H. by rewrite lookup_empty in H. Qed.
  (** The last memtable written out is still in the root. *)
  Lemma unsettled : ¬ settled (root st8).
  Proof.
    intros H. destruct (H (A 7) (Linked.root_node (root st8))) as [E|[E _]].
    - exists []. unfold node_ref. replace (lb_root (root st8)) with (Some (A 7)) by done. econstructor; by vm_compute.
    - by vm_compute.
    - by vm_compute in E.
    - by vm_compute in E.
  Qed.
  Lemma free8 : free_pages (root st8) [A 8; A 9].
  Proof.
    split; [apply (bool_decide_unpack _); by vm_compute|].
    intros a Ha. rewrite !elem_of_cons in Ha. destruct Ha as [->|[->|Ha]]; [by vm_compute|by vm_compute|by apply elem_of_nil in Ha].
  Qed.
  Lemma free9 : free_pages (root st9) [A 10; B 4; A 11].
  Proof.
    split; [apply (bool_decide_unpack _); by vm_compute|].
    intros a Ha. rewrite !elem_of_cons in Ha. destruct Ha as [->|[->|[->|Ha]]]; [by vm_compute..|by apply elem_of_nil in Ha].
  Qed.
  Lemma flush8 : Linked.path_valid (root st8) 3%N 0 ∧ Linked.can_flush (Linked.path_target (root st8) 3%N 0) 0 0.
  Proof. destruct step9 as (_&Hf&(Hp&_)&_). by split. Qed.
  Lemma compact9 : Linked.path_valid (root st9) 3%N 1 ∧
    length (LNode.buffers (Linked.root_node (Linked.path_target (root st9) 3%N 1))) = 3.
  Proof. destruct step10 as (_&Hc&(Hp&_)&_). by split. Qed.
  Lemma split5 : Linked.path_valid (root st5) 3%N 0 ∧ Linked.can_split_parent (Linked.path_target (root st5) 3%N 0) (SplitLeaf 0 10%N) ∧
    free_pages (root st5) [A 4; A 5; A 6].
  Proof.
    destruct step6 as (_&Hc&(Hp&_)&_). split; [done|]. split; [done|].
    split; [apply (bool_decide_unpack _); by vm_compute|].
    intros a Ha. rewrite !elem_of_cons in Ha. destruct Ha as [->|[->|[->|Ha]]]; [by vm_compute..|by apply elem_of_nil in Ha].
  Qed.
  Import LikesEx.
  Lemma reached8 : ∃ ls, run AllocBetree.next x0 ls x8.
  Proof.
    apply (more_x x7 _ Internal). { apply flush_xs; [done|bk|freshly|by vm_compute]. }
    apply (more_x x6 _ (Put put3)). { apply put_xs; [apply singleton_wf|done|done]. }
    exact reached6.
  Qed.
  Lemma reached9 : ∃ ls, run AllocBetree.next x0 ls x9.
  Proof.
    apply (more_x x8 _ Internal). { do 4 right; left. exists st9. do 6 eexists. split; [exact step9|]. split; [freshly|]. split; [apply keeps_all|done]. }
    exact reached8.
  Qed.
  Lemma lreached8 : ∃ ls s, run LikesBetree.next l0 ls s ∧ LikesBetree.betree s = st8.
  Proof. destruct r8 as [ls Hr]. destruct (likes_complete _ _ _ _ LikesEx.initial Hr) as (s&Hs&E). by exists ls, s. Qed.
End FlowEx.
