(** Proofs: background work on the be-tree of branches changes no answer (C43). *)
From Verif Require Import Spec_Model Spec_Proof Abs_Model Betree_Model Betree_Spec Branch_Spec.
From Verif Require Import LinkedBetree_Model LinkedBetree_Spec LikesBetree_Model LikesBetree_Spec LinkedBetree_Facts
  LikesBetree_Proof LikesBetree_Facts BranchBetree_Model BranchBetree_Spec BranchBetree_Proof BranchSteps_Proof BranchFlush_Proof BranchBetree_Facts.
Implicit Types (s : ABB.State) (σ : LikesBetree.State).

Lemma freeze_still (b b' : BState (LinkedBetree (gmap N Message))) img : Linked.strong_next b b' (FreezeAs img) → b' = b.
Proof.
  intros [(?&?&?&?&?&?&_)|[(?&?&_)|[Hf|Hn]]]; [done|done|by destruct Hf as (_&_&->)|].
  exfalso. destruct Hn as [(?&?&?&(?&_)&_)|[(?&(?&_)&_)|[(?&?&?&?&?&?&(?&_)&_)|[(?&?&?&?&?&?&?&(?&_)&_)|
         [(?&?&?&?&?&?&?&?&(?&_)&_)|[(?&?&_)|(?&_)]]]]]]; done.
Qed.
Lemma run_invisible `{Geometry} grow s0 b ls s s' alls deallocs : ABB.initialize s0 b → run (ABB.next true grow) s0 ls s →
  ABB.next true grow s s' (ABB.Int alls deallocs) →
  ∀ k v, branch_can_answer true grow s k v ↔ branch_can_answer true grow s' k v.
Proof.
  intros Hi Hr Hn k v. destruct (run_like true grow _ _ _ _ eq_refl Hi Hr) as (σ0&b'&lbs&σ&Hi0&Hr0&I&_).
  destruct (abb_step true grow _ _ _ _ I Hn) as (σ'&I'&St). destruct (st_like _ _ _ _ _ _ St eq_refl) as (lb&Hlb&Hev).
  rewrite (can_there true grow _ _ k v eq_refl I), (can_there true grow _ _ k v eq_refl I').
  destruct (likes_run _ _ _ _ Hi0 Hr0) as [Hrun He]. destruct (likes_strong _ _ _ He Hlb) as [Hst _].
  assert (HI : Linked.initialize b' b') by by destruct Hi0.
  destruct lb as [e k' v'|puts|img|].
  - specialize (Hev _ eq_refl). done.
  - specialize (Hev _ eq_refl). done.
  - by rewrite (freeze_still _ _ _ Hst).
  - exact (linked_invisible _ _ _ _ _ HI Hrun Hst k v).
Qed.
