(** The be-tree of branches of C54 meets what C56 asks of it: a tree that is not
    drained, with three units free. *)
From Verif Require Import Spec_Model Abs_Model Betree_Model Betree_Spec Branch_Model Branch_Spec Branch_Example.
From Verif Require Import LinkedBetree_Model LinkedBetree_Spec LikesBetree_Model LikesBetree_Spec Spec_Proof LinkedBetree_Facts
  Betree_Example LinkedBetree_Example LikesBetree_Example.
From Verif Require Import BranchBetree_Model BranchBetree_Spec BranchBetree_Example BranchLive_Spec BranchLive_Example TreeFlow_Spec.
From Coq Require Import ZifyBool ZifyNat ZifyN Lia.

Module BranchDrainEx.
  Local Existing Instance bgeo.
  Lemma shape0 : leaves_and_full_nodes (root BranchEx.tree0).
  Proof. intros a n _ H. cbn in H. by rewrite lookup_empty in H. Qed.
  (** The last memtable written out is still in the root, above its children. *)
  Lemma undrained : ¬ drained (root (ABB.betree BranchEx.t13)).
  Proof.
    intros H. destruct (H (BranchEx.nd 17) (Linked.root_node (root (ABB.betree BranchEx.t13)))) as [E|E].
    - exists []. unfold node_ref. replace (lb_root (root (ABB.betree BranchEx.t13))) with (Some (BranchEx.nd 17)) by done.
      econstructor; by vm_compute.
    - by vm_compute.
    - by vm_compute in E.
    - by vm_compute in E.
  Qed.
  Lemma free13 : base.NoDup [3; 4; 7] ∧ Forall (λ u, u < au_count ∧ ¬ needed BranchEx.t13 u) [3; 4; 7] ∧ 0 < page_count.
  Proof.
    split; [by apply (bool_decide_unpack _)|]. split; [|cbn; lia].
    assert (Hf : Forall (λ u, ¬ needed BranchEx.t13 u) [3; 4; 7]) by (apply (BranchLiveEx.free_of _ _ _ BranchEx.run13); by vm_compute).
    rewrite !stdpp.list.Forall_cons in Hf. destruct Hf as (?&?&?&_). rewrite !stdpp.list.Forall_cons, stdpp.list.Forall_nil. split_and!; try done; cbn; lia.
  Qed.
End BranchDrainEx.
