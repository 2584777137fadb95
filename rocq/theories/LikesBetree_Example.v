(** A concrete run of the counting be-trees: two memtable flushes, a grow, a leaf
    split that shares both buffers, a flush to a child and a compaction. *)
From Verif Require Import Spec_Model Abs_Model Betree_Model Betree_Spec LinkedBetree_Model LinkedBetree_Spec
  LikesBetree_Model LikesBetree_Spec Spec_Proof LinkedBetree_Proof LinkedBetree_Facts LikesTree_Proof LikesOps_Proof LikesBetree_Facts Abs_Proof Route_Proof Betree_Common Routed_Proof Betree_Example LinkedBetree_Example.
From Coq Require Import ZifyBool ZifyNat ZifyN Lia.

Module LikesEx.
  Import LinkedEx.
  Lemma empty_likes : transitive_likes (root st0) ∅ ∅.
  Proof.
    destruct (diskb_ok (root st0)) as [Hw _]; [by vm_compute|].
    exists ∅. split; [|by vm_compute]. split; [done|]. split; [|done]. split; [apply Hw|].
    intros a n H. cbn in H. by rewrite lookup_empty in H.
  Qed.
  (** ** A count for every page *)
  Definition l0 : LikesBetree.State := LikesBetree.mkState st0 ∅ ∅.
  Lemma initial : LikesBetree.initialize l0 st0.
  Proof. split; [exact LinkedEx.initial|]. exists ∅, ∅. split; [exact empty_likes|done]. Qed.
  (** Every page of every tree reached is counted by its references. *)
  Lemma run10 : ∃ ls s, run LikesBetree.next l0 ls s ∧ LikesBetree.betree s = st10.
  Proof.
    destruct r10 as [ls Hr]. destruct (likes_complete _ _ _ _ initial Hr) as (s&Hs&E). by exists ls, s.
  Qed.
  (** Both leaves made by the split name both buffers. *)
  Lemma shared : ∃ ls s, run LikesBetree.next l0 ls s ∧ LikesBetree.betree s = st6 ∧
    multiplicity (B 1) (LikesBetree.buf_likes s) = 2.
  Proof.
    destruct r6 as [ls Hr]. destruct (likes_complete _ _ _ _ initial Hr) as (s&Hs&E). exists ls, s.
    split; [done|]. split; [done|].
    destruct (likes_run _ _ _ _ initial Hs) as [_ (_&t&Hu&_&->)]. rewrite E in Hu.
    eassert (Hu' : unf (lb_dv (root st6)) (lb_root (root st6))
      (ANode (A 6) _ [ANode (A 4) _ [ANil]; ANode (A 5) _ [ANil]])).
    { constructor; [by vm_compute|]. vm_compute. repeat constructor. }
    rewrite (unf_fun _ _ _ _ Hu Hu'). by vm_compute.
  Qed.

  (** ** A count for every allocation unit *)
  Definition x0 : AllocBetree.State := AllocBetree.mkState st0 ∅ ∅.
  Lemma xinitial : AllocBetree.initialize x0 st0.
  Proof. split; [exact LinkedEx.initial|]. exists ∅, ∅. split; [exact empty_likes|]. unfold x0. f_equal; by vm_compute. Qed.
  Definition with_aus (b : BState SLB) (aus : gmultiset nat * gmultiset nat) := AllocBetree.mkState b aus.1 aus.2.
  Definition put_x (x : AllocBetree.State) (b : BState SLB) := AllocBetree.mkState b (AllocBetree.betree_aus x) (AllocBetree.buffer_aus x).
  Definition x1 := put_x x0 st1.
  Definition x2 := with_aus st2 (flush_memtable_au_likes (root st1) (root st2) (mkTwo (A 1) (B 1)) (AllocBetree.betree_aus x1) (AllocBetree.buffer_aus x1)).
  Definition x3 := put_x x2 st3.
  Definition x4 := with_aus st4 (flush_memtable_au_likes (root st3) (root st4) (mkTwo (A 2) (B 2)) (AllocBetree.betree_aus x3) (AllocBetree.buffer_aus x3)).
  Definition x5 := AllocBetree.mkState st5 (AllocBetree.betree_aus x4 ⊎ {[+ au (A 3) +]}) (AllocBetree.buffer_aus x4).
  Definition x6 := with_aus st6 (internal_split_au_likes (root st5) 3%N 0 (SplitLeaf 0 10%N) (mkSplit (A 4) (A 5) (A 6)) []
    (AllocBetree.betree_aus x5) (AllocBetree.buffer_aus x5)).
  Definition x7 := put_x x6 st7.
  Definition x8 := with_aus st8 (flush_memtable_au_likes (root st7) (root st8) (mkTwo (A 7) (B 3)) (AllocBetree.betree_aus x7) (AllocBetree.buffer_aus x7)).
  Definition x9 := with_aus st9 (internal_flush_au_likes (root st8) 3%N 0 0 0 (mkTwo (A 8) (A 9)) []
    (AllocBetree.betree_aus x8) (AllocBetree.buffer_aus x8)).
  Definition x10 := with_aus st10 (internal_compact_complete_au_likes (root st9) 3%N 1 0 3 (mkTwo (A 10) (B 4)) [A 11]
    (AllocBetree.betree_aus x9) (AllocBetree.buffer_aus x9)).
  Lemma keeps_all (w : SLB) aus : AllocBetree.keeps_counted w w aus.
  Proof. unfold AllocBetree.keeps_counted, restrict_domain_au. set_solver. Qed.
  Definition reached (x : AllocBetree.State) : Prop := ∃ ls, run AllocBetree.next x0 ls x.
  Lemma more_x x x' l : AllocBetree.next x x' l → reached x → reached x'.
  Proof. intros Hn [ls Hr]. eexists. by eapply run_snoc. Qed.
  Lemma put_xs x p b : mh_wf p → seq_start p = mt_seq_end (memtable (AllocBetree.betree x)) →
    b = mkBS (apply_puts (memtable (AllocBetree.betree x)) p) (root (AllocBetree.betree x)) → AllocBetree.next x (put_x x b) (Put p).
  Proof. intros Hp He ->. left. eexists. split; [done|]. split; [|done]. right; left. by exists p. Qed.
  Lemma flush_xs x na b : b = flushed (AllocBetree.betree x) na → two_no_dup na → Linked.is_fresh (root (AllocBetree.betree x)) (two_repr na) →
    diskb (root b) = true →
    AllocBetree.next x (with_aus b (flush_memtable_au_likes (root (AllocBetree.betree x)) (root b) na (AllocBetree.betree_aus x) (AllocBetree.buffer_aus x))) Internal.
  Proof.
    intros -> Hd Hf Hok. destruct (diskb_ok _ Hok) as [Hw Hp]. right; left. exists (flushed (AllocBetree.betree x) na), na.
    split; [|split; [done|]]; [|split; [apply keeps_all|done]].
    split; [done|]. split; [done|]. split; [done|]. split; [by apply view_refl|done].
  Qed.
  Lemma reached6 : reached x6.
  Proof.
    apply (more_x x5 _ Internal). { do 3 right; left. exists st6. do 5 eexists. split; [exact step6|]. split; [freshly|]. split; [apply keeps_all|done]. }
    apply (more_x x4 _ Internal). { do 2 right; left. exists st5, (A 3). split; [apply step5|]. split; [apply step5|done]. }
    apply (more_x x3 _ Internal). { apply flush_xs; [done|bk|freshly|by vm_compute]. }
    apply (more_x x2 _ (Put put2)). { apply put_xs; [apply singleton_wf|done|done]. }
    apply (more_x x1 _ Internal). { apply flush_xs; [done|bk|freshly|by vm_compute]. }
    apply (more_x x0 _ (Put put1)). { apply put_xs; [apply singleton_wf|done|done]. }
    exists []. constructor.
  Qed.
  Lemma reached10 : reached x10.
  Proof.
    apply (more_x x9 _ Internal). { do 5 right; left. exists st10. do 7 eexists. split; [exact step10|]. split; [freshly|]. split; [apply keeps_all|done]. }
    apply (more_x x8 _ Internal). { do 4 right; left. exists st9. do 6 eexists. split; [exact step9|]. split; [freshly|]. split; [apply keeps_all|done]. }
    apply (more_x x7 _ Internal). { apply flush_xs; [done|bk|freshly|by vm_compute]. }
    apply (more_x x6 _ (Put put3)). { apply put_xs; [apply singleton_wf|done|done]. }
    exact reached6.
  Qed.
  (** After the split both new leaves name both buffers. *)
  Lemma shared6 : multiplicity 2 (AllocBetree.buffer_aus x6) = 4 ∧ multiplicity 1 (AllocBetree.betree_aus x6) = 3.
  Proof. by vm_compute. Qed.
  (** The compaction replaced three references by one. *)
  Lemma shared10 : multiplicity 2 (AllocBetree.buffer_aus x9) = 6 ∧ multiplicity 2 (AllocBetree.buffer_aus x10) = 4.
  Proof. by vm_compute. Qed.
  Lemma unshared0 : unshared (root st0).
  Proof. intros a is is' H. inversion H. Qed.
End LikesEx.
