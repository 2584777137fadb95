(** What the be-trees that count references freeze is an image to start from
    (C58). *)
From Verif Require Import Spec_Model Spec_Proof Abs_Model Betree_Model Betree_Spec Route_Proof Routed_Proof
  LinkedBetree_Model LinkedBetree_Spec LikesBetree_Model LikesBetree_Spec LinkedBetree_Proof LinkedBetree_Facts
  LikesTree_Proof LikesOps_Proof LikesBetree_Proof LikesBetree_Facts.

Lemma likes_total (l : SLB) t : Linked.acyclic l → lunf l t → transitive_likes l (nodes t) (bufs t).
Proof.
  intros (_&rk&Hrk) Hu. assert (Hex : ∃ tl bl, transitive_likes l tl bl) by (eexists _, _, rk; split; [exact Hrk|split; reflexivity]).
  destruct Hex as (tl&bl&Hl). by destruct (transitive_unf _ _ _ _ Hl Hu) as [<- <-].
Qed.
Lemma exact_start s : sexact s → mt_is_empty (memtable (LikesBetree.betree s)) → LikesBetree.initialize s (LikesBetree.betree s).
Proof.
  intros (Hli&t&Hu&Etl&Ebl) Hm. pose proof (linv_legal _ Hli) as (Hac&Hbd&Htot). split; [done|].
  exists (nodes t), (bufs t). split; [by apply likes_total|]. rewrite <-Etl, <-Ebl. by destruct s.
Qed.
Lemma likes_freeze s s' img : LikesBetree.next s s' (FreezeAs img) →
  s' = s ∧ mt_is_empty (memtable (LikesBetree.betree s)) ∧ LikesBetree.betree s = mkBS (empty_memtable (st_seq_end img)) (st_value img).
Proof.
  intros [(new&Hf&Hn&->)|Hn].
  - destruct Hn as [(?&Q)|[(?&[=]&_)|[Hfr|Hn]]].
    + unfold Linked.query in Q. naive_solver.
    + destruct Hfr as (He&[= ->]&->). split; [by destruct s|]. split; [done|]. cbn.
      destruct s as [[[mt e] l] ? ?]. cbn in *. unfold mt_is_empty in He. cbn in He. subst. f_equal.
      by rewrite i_bdv_id.
    + exfalso. destruct Hn as [(?&?&?&?&_)|[(?&?&_)|[(?&?&?&?&?&?&?&_)|[(?&?&?&?&?&?&?&?&_)|[(?&?&?&?&?&?&?&?&?&_)|[(?&?&_)|(?&_)]]]]]]; discriminate.
  - exfalso. destruct Hn as [(?&?&(?&_)&_)|[(?&?&(?&_)&_)|[(?&?&?&?&?&?&(?&_)&_)|[(?&?&?&?&?&?&?&(?&_)&_)|[(?&?&?&?&?&?&?&?&(?&_)&_)|[(?&(?&_)&_)|((?&_)&_)]]]]]]; discriminate.
Qed.
(** What is frozen starts the state it was frozen in. *)
Lemma likes_restart s0 b ls s s' img : LikesBetree.initialize s0 b → run LikesBetree.next s0 ls s → LikesBetree.next s s' (FreezeAs img) →
  LikesBetree.initialize s (mkBS (empty_memtable (st_seq_end img)) (st_value img)) ∧
  ∀ s1, LikesBetree.initialize s1 (mkBS (empty_memtable (st_seq_end img)) (st_value img)) → s1 = s.
Proof.
  intros Hi Hr Hn. destruct (likes_freeze _ _ _ Hn) as (_&Hm&Eb). destruct (likes_run _ _ _ _ Hi Hr) as [_ He].
  pose proof (exact_start _ He Hm) as Hs. rewrite Eb in Hs. split; [done|].
  intros s1 H1. destruct (likes_init _ _ H1) as [(_&t1&Hu1&Et1&Eb1) E1]. destruct He as (_&t&Hu&Et&Ebl).
  rewrite E1 in Hu1. rewrite Eb in Hu. cbn in Hu, Hu1. assert (t1 = t) as -> by exact (unf_fun _ _ _ _ Hu1 Hu).
  destruct s1, s. cbn in *. congruence.
Qed.
Lemma alloc_freeze x x' s img : same x s → sexact s → AllocBetree.next x x' (FreezeAs img) → ∃ s', LikesBetree.next s s' (FreezeAs img).
Proof. intros Hs He Hn. destruct (alloc_sim _ _ _ _ Hs He Hn) as (s'&Hn'&_). eauto. Qed.
Lemma alloc_restart x0 b ls x x' img : AllocBetree.initialize x0 b → run AllocBetree.next x0 ls x → AllocBetree.next x x' (FreezeAs img) →
  AllocBetree.initialize x (mkBS (empty_memtable (st_seq_end img)) (st_value img)) ∧
  ∀ x1, AllocBetree.initialize x1 (mkBS (empty_memtable (st_seq_end img)) (st_value img)) → x1 = x.
Proof.
  intros Hi Hr Hn. destruct (alloc_run _ _ _ _ Hi Hr) as (s0&s&Hi'&Hr'&Hs). destruct (likes_run _ _ _ _ Hi' Hr') as [_ He].
  destruct (alloc_freeze _ _ _ _ Hs He Hn) as [s' Hn']. destruct (likes_restart _ _ _ _ _ _ Hi' Hr' Hn') as [(Hl&tl&bl&Ht&Es) Hun].
  destruct Hs as (E1&E2&E3). split.
  - split; [done|]. exists tl, bl. split; [done|]. destruct x. cbn in *. subst. done.
  - intros x1 (_&tl1&bl1&Ht1&->).
    assert (Hs1 : LikesBetree.mkState (mkBS (empty_memtable (st_seq_end img)) (st_value img)) tl1 bl1 = s) by (apply Hun; split; [done|]; eauto).
    destruct x. subst s. injection Hs1 as -> ->. cbn in *. by subst.
Qed.
