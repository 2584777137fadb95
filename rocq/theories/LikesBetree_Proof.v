(** The reference counts of the be-tree are exact after every step (C37). *)
From Verif Require Import Spec_Model Abs_Model Betree_Model Betree_Spec LinkedBetree_Model LinkedBetree_Spec
  LikesBetree_Model LikesBetree_Spec Spec_Proof LinkedBetree_Proof LinkedBetree_Facts LikesTree_Proof LikesOps_Proof.
From Coq Require Import ZifyBool ZifyNat ZifyN Lia.
Implicit Types (l r w : SLB) (t : atree) (s : LikesBetree.State) (x : AllocBetree.State).
Notation lunf l t := (unf (lb_dv l) (lb_root l) t).

(** ** One operation: what it writes, and the references it moves *)
Definition op l w t (D A bD bA : gmultiset Address) : Prop :=
  (∃ t', lunf w t' ∧ change t t' D A bD bA) ∧ Linked.reachable_buffers_preserved w w.
Lemma extends_preserved l w (S0 : gset Address) ft : extends l w S0 ft → Linked.reachable_buffers_preserved w w.
Proof. intros (_&_&_&Hr). by eapply preserved_refl. Qed.
Lemma target_unf l key depth t : lunf l t → Linked.path_valid l key depth → ∃ tt, lunf (Linked.path_target l key depth) tt.
Proof.
  revert l t. induction depth as [|d IH]; intros l t Hu; [by exists t|]. intros (Hh&_&_&_&Hv).
  destruct (lunf_root _ _ Hu Hh) as (a&n&cs&E&Hn&En&->&Hc&_).
  assert (Hcr : Linked.has_root (Linked.child_for_key l key)) by (destruct d; apply Hv).
  destruct Hcr as (m&y&Ey&Hm). cbn in Ey, Hm. unfold LNode.child_ptr, LNode.child_at in Ey. rewrite En in Ey.
  destruct (LNode.children n !! route_idx (LNode.pivots n) key) as [q|] eqn:Hq.
  - destruct (Forall2_lookup_l _ _ _ _ _ Hc Hq) as (c&?&?). apply (IH (Linked.child_for_key l key) c); [|done].
    cbn. unfold LNode.child_ptr, LNode.child_at. rewrite En. by rewrite (nth_lookup_Some _ _ _ _ Hq).
  - rewrite nth_overflow in Ey by by apply lookup_ge_None_1. done.
Qed.
Lemma path_op l r key depth nd (s0 : gset Address) pa t (ft ft' : FTree) D A bD bA (s' : gset Address) :
  lunf l t → lrepr l ft → Linked.valid_path_replacement l key depth nd s0 pa → Linked.is_fresh l (s0 ∪ list_to_set pa) → s' ⊆ s0 →
  extends (Linked.path_target l key depth) r s' ft' →
  (∀ tt, lunf (Linked.path_target l key depth) tt → ∃ tt', lunf r tt' ∧ change tt tt' D A bD bA) →
  op l (Linked.path_substitute l key depth r pa) t (to_likes (addrs_on_path l key depth) ⊎ D) (A ⊎ to_likes pa) bD bA.
Proof.
  intros Hu Hr (Hv&Hnd&Hdep&_&Hdj) Hfr Hs He Hop. destruct (target_disk l key depth) as [E1 E2].
  unfold extends in He. rewrite E1, E2 in He.
  assert (Hfp : list_to_set pa ## dom (lb_dv l)) by (destruct Hfr; set_solver).
  assert (Hsp : s' ## list_to_set pa) by set_solver.
  split.
  - destruct (target_unf _ _ _ _ Hu Hv) as [tt0 Htt0]. destruct (Hop _ Htt0) as (tt'&Htt'&R&bR&C1&C2&C3&C4).
    destruct (substitute_change l key depth r t tt' pa s' Hu Hv Hdep Hnd Hfp Hsp) as (tt&t'&Q&bQ&H1&H2&H3&H4&H5&H6&_).
    { apply He. } { destruct He as (_&_&->&_). done. } { done. }
    pose proof (unf_fun _ _ _ _ H1 Htt0) as ->. exists t'. split; [done|]. exists (Q ⊎ R), (bQ ⊎ bR).
    rewrite H3, H4, H5, H6, C1, C2, C3, C4. repeat split; multiset_solver.
  - destruct (substitute_repr l key depth r ft ft' s' pa Hr Hv Hdep Hnd Hfp Hsp) as [Hx _]; [exact He|].
    by eapply extends_preserved.
Qed.
Lemma fresh_sub l a b : Linked.is_fresh l (a ∪ b) → Linked.is_fresh l a ∧ Linked.is_fresh l b.
Proof. intros [H1 H2]. split; split; set_solver. Qed.
Lemma fresh_target l key depth a : Linked.is_fresh l a → Linked.is_fresh (Linked.path_target l key depth) a.
Proof. unfold Linked.is_fresh. by destruct (target_disk l key depth) as [-> ->]. Qed.

Section Operations.
  Context (l : SLB) (t : atree) (ft : FTree).
  Hypothesis (Hu : lunf l t) (Hr : lrepr l ft) (Hw : Linked.wf l).
  Lemma op_push sealed mt na : two_no_dup na → Linked.is_fresh l (two_repr na) → sealed = mt_buffer mt →
    op l (Linked.push_memtable l sealed na) t (root_likes l) {[+ addr1 na +]} ∅ {[+ addr2 na +]}.
  Proof using Hu Hr Hw.
    intros Hd Hf Hs. split.
    - apply push_change; [done|done|]. destruct Hf. unfold two_repr in *. set_solver.
    - eapply extends_preserved, push_memtable_repr; done.
  Qed.
  Lemma op_grow a : Linked.is_fresh l {[ a ]} → op l (Linked.grow l a) t ∅ {[+ a +]} ∅ ∅.
  Proof using Hu Hr Hw.
    intros Hf. destruct (fresh_not _ _ a Hf) as [Ha _]; [set_solver|]. split.
    - apply grow_change; [done|]. by apply not_elem_of_dom.
    - eapply extends_preserved, grow_repr; done.
  Qed.
  Lemma op_split key depth rq na pa :
    Linked.can_split_parent (Linked.path_target l key depth) rq →
    Linked.valid_path_replacement l key depth (split_no_dup na) (split_repr na) pa →
    Linked.is_fresh l (split_repr na ∪ list_to_set pa) →
    op l (Linked.post_split l key depth rq na pa) t (split_discard_betree l key depth rq) (add_betree_likes (split_likes na) pa)
      ∅ (split_add_buffers l key depth rq).
  Proof using Hu Hr Hw.
    intros Hc Hv Hf. destruct (fresh_sub _ _ _ Hf) as [Hfa Hfb]. pose proof Hv as (Hpv&_&_&Hd&_).
    destruct (path_repr _ _ _ _ Hr Hpv) as [_ Htr].
    unfold Linked.post_split, split_discard_betree. rewrite <-(assoc_L (⊎)).
    eapply path_op; [done|done|done|done|reflexivity| |].
    - by apply split_repr_ok; [|done|done|apply fresh_target].
    - intros tt Htt. eapply split_change; [done|done|done|]. destruct (target_disk l key depth) as [-> _]. destruct Hfa. set_solver.
  Qed.
  Lemma op_flush key depth i gc na pa :
    Linked.can_flush (Linked.path_target l key depth) i gc →
    Linked.valid_path_replacement l key depth (two_no_dup na) (two_repr na) pa →
    Linked.is_fresh l (two_repr na ∪ list_to_set pa) →
    op l (Linked.post_flush l key depth i gc na pa) t (flush_discard_betree l key depth i) (add_betree_likes (two_likes na) pa)
      (flush_discard_buffers l key depth gc) (flush_add_buffers l key depth i).
  Proof using Hu Hr Hw.
    intros Hc Hv Hf. destruct (fresh_sub _ _ _ Hf) as [Hfa Hfb]. pose proof Hv as (Hpv&_&_&Hd&_).
    destruct (path_repr _ _ _ _ Hr Hpv) as [_ Htr].
    unfold Linked.post_flush, flush_discard_betree. rewrite <-(assoc_L (⊎)).
    eapply path_op; [done|done|done|done|reflexivity| |].
    - by apply flush_repr; [|done|done|apply fresh_target].
    - intros tt Htt. destruct (target_disk l key depth) as [E _]. destruct Hfa as [Hfa _]. unfold two_repr in Hfa.
      apply flush_change; [done|done|apply Hc|done|rewrite E; set_solver|rewrite E; set_solver].
  Qed.
  Lemma op_compact key depth a b cb na pa bdv :
    Linked.can_compact (Linked.path_target l key depth) a b cb bdv na →
    Linked.valid_path_replacement l key depth (two_no_dup na) (two_repr na) pa →
    Linked.is_fresh l (two_repr na ∪ list_to_set pa) →
    op l (Linked.post_compact l key depth a b cb na pa) t (compact_discard_betree l key depth) (compact_add_betree na pa)
      (compact_discard_buffers l key depth a b) (compact_add_buffers na).
  Proof using Hu Hr Hw.
    intros Hc Hv Hf. destruct (fresh_sub _ _ _ Hf) as [Hfa Hfb]. pose proof Hv as (Hpv&_&_&Hd&_).
    destruct (path_repr _ _ _ _ Hr Hpv) as [_ Htr].
    unfold Linked.post_compact, compact_discard_betree, compact_add_betree. rewrite (comm_L (⊎) (to_likes pa)).
    eapply (path_op _ _ _ _ _ _ _ _ _ _ _ _ _ _ {[ addr1 na ]}); [done|done|done|done|unfold two_repr; set_solver| |].
    - by eapply compact_repr; [|done|done|apply fresh_target].
    - intros tt Htt. destruct (target_disk l key depth) as [E _]. destruct Hfa as [Hfa _]. unfold two_repr in Hfa.
      apply compact_change; [done|apply Hc|apply Hc|rewrite E; set_solver].
  Qed.
End Operations.

(** After an operation the new counts are those of the new tree, and a step
    that keeps every counted buffer drops no reachable one. *)
Lemma op_counts l w l' t D A bD bA : op l w t D A bD bA → Linked.valid_view w l' →
  ∃ t', lunf w t' ∧ lunf l' t' ∧ nodes t ∖ D ⊎ A = nodes t' ∧ bufs t ∖ bD ⊎ bA = bufs t' ∧ D ⊆ nodes t ∧ bD ⊆ bufs t ∧
    ∀ ba, ba ∈ bufs t' → is_Some (lb_bdv w !! ba).
Proof.
  intros [(t'&Hu'&R&bR&C1&C2&C3&C4) Hp] Hv. exists t'. split; [done|]. split; [by eapply view_unf|].
  rewrite C1, C2, C3, C4, !sub_add. split; [done|]. split; [done|]. split; [multiset_solver|]. split; [multiset_solver|].
  rewrite <-C4. intros ba Hba. apply Hp. by apply (bufs_elem _ _ _ Hu').
Qed.
Lemma counted_preserved w l' t' : lunf w t' → mdom (bufs t') ⊆ dom (lb_bdv l') → Linked.reachable_buffers_preserved w l'.
Proof.
  intros Hu Hm ba Hba. apply elem_of_dom, Hm, elem_mdom. by apply (bufs_elem _ _ _ Hu).
Qed.

(** ** The invariant *)
Definition exact (b : BState SLB) (tl bl : gmultiset Address) : Prop :=
  linv b ∧ ∃ t, lunf (root b) t ∧ tl = nodes t ∧ bl = bufs t.
Lemma exact_init b tl bl : Linked.initialize b b → transitive_likes (root b) tl bl → exact b tl bl.
Proof.
  intros Hi Ht. split; [by eapply linv_init|]. destruct (unf_exists (root b)) as [t Hu]; [apply Hi|].
  exists t. split; [done|]. by apply (transitive_unf (root b)).
Qed.
Lemma next_free (b b' : BState SLB) (l : BLabel SLB) : likes_free l → Linked.next b b' l → Linked.strong_next b b' l ∧ root b' = root b.
Proof.
  intros Hl [(rc&H)|[H|[H|Hn]]].
  - split; [left; by exists rc|]. by destruct H as (?&?&?&?&_&_&_&_&_&->).
  - split; [right; by left|]. by destruct H as (?&_&_&_&->).
  - split; [right; right; by left|]. by destruct H as (_&_&->).
  - exfalso. destruct Hn as [(?&?&?&?&_)|[(?&?&_)|[(?&?&?&?&?&?&?&_)|[(?&?&?&?&?&?&?&?&_)|[(?&?&?&?&?&?&?&?&?&_)|[(?&?&_)|(?&_)]]]]]]; by subst l.
Qed.
Lemma likes_strong s s' lb : exact (LikesBetree.betree s) (LikesBetree.betree_likes s) (LikesBetree.buf_likes s) →
  LikesBetree.next s s' lb →
  Linked.strong_next (LikesBetree.betree s) (LikesBetree.betree s') lb ∧
  exact (LikesBetree.betree s') (LikesBetree.betree_likes s') (LikesBetree.buf_likes s').
Proof.
  intros (Hli&t&Hu&Et&Eb) Hn. pose proof Hli as (Hw&ft&Hr&_).
  assert (Hfin : ∀ b' tl bl, Linked.strong_next (LikesBetree.betree s) b' lb →
    (∃ t', lunf (root b') t' ∧ tl = nodes t' ∧ bl = bufs t') → Linked.strong_next (LikesBetree.betree s) b' lb ∧ exact b' tl bl).
  { intros b' tl bl Hs Ht. split; [done|]. split; [|done]. by eapply step_sim. }
  set (b := LikesBetree.betree s) in *.
  destruct Hn as [(new&Hf&Hx&->)|[(new&na&Hx&Hf&Hm1&Hm2&->)|[(new&a&Hx&Hf&->)|[(new&key&dp&rq&na&pa&Hx&Hf&Hm1&Hm2&->)|
    [(new&key&dp&i&gc&na&pa&Hx&Hf&Hm1&Hm2&->)|[(new&key&dp&i&j&cb&na&pa&Hx&Hf&Hm1&Hm2&->)|[(new&Hx&->)|(Hx&->)]]]]]]];
    cbn [LikesBetree.betree LikesBetree.betree_likes LikesBetree.buf_likes].
  - destruct (next_free _ _ _ Hf Hx) as [Hs Er]. apply Hfin; [done|]. exists t. by rewrite Er.
  - pose proof Hx as (El&Hnd&Hb&Hvw&Enew).
    destruct (op_counts _ _ _ _ _ _ _ _ (op_push _ _ _ Hu Hr Hw _ _ _ Hnd Hf eq_refl) Hvw) as (t'&Hu1&Hu'&E1&E2&_).
    replace (LikesBetree.buf_likes s ⊎ {[+ addr2 na +]}) with (bufs t') in *.
    2: { rewrite <-E2, Eb. multiset_solver. }
    assert (Er : root_likes (root new) = {[+ addr1 na +]}).
    { destruct Hvw as ((_&Hd)&Ert&_). cbn in Ert. destruct (Hd (addr1 na)) as [n Hn]; [done|]. by eapply root_likes_node. }
    apply Hfin.
    + do 3 right; left. exists (mt_buffer (memtable b)), (root new), na. split; [done|]. split; [done|]. by eapply counted_preserved.
    + exists t'. split; [done|]. split; [|done]. by rewrite Et, <-E1, <-Er.
  - pose proof Hx as (El&Enew).
    destruct (op_grow _ _ _ Hu Hr Hw a Hf) as [(t'&Hu'&R&bR&C1&C2&C3&C4) _].
    apply Hfin.
    + do 4 right; left. by exists a.
    + exists t'. rewrite Enew. cbn [root]. split; [done|]. rewrite Et, Eb. split; multiset_solver.
  - pose proof Hx as (El&Hc&Hv&Hvw&Enew).
    destruct (op_counts _ _ _ _ _ _ _ _ (op_split _ _ _ Hu Hr Hw _ _ _ _ _ Hc Hv Hf) Hvw) as (t'&Hu1&Hu'&E1&E2&_).
    assert (E2' : LikesBetree.buf_likes s ⊎ split_add_buffers (root b) key dp rq = bufs t').
    { rewrite <-E2, Eb. multiset_solver. }
    destruct (fresh_sub _ _ _ Hf) as [Hfa Hfb].
    assert (Hin : ∀ ba, ba ∈ split_add_buffers (root b) key dp rq → ba ∈ bufs t).
    { intros ba. unfold split_add_buffers. pose proof Hv as (Hpv&_&_&_&_). destruct (target_unf _ _ _ _ Hu Hpv) as [tt Htt].
      destruct Hc as (Hcw&Hh&Hi&Hch&_). destruct (child_root _ _ _ Htt Hh Hi Hch) as (c&m&Hic&Hm&Em&Erl).
      rewrite Erl, (buffer_likes_one (Linked.child_at_idx (Linked.path_target (root b) key dp) (request_child rq)) c m Hm). unfold to_likes. rewrite elem_of_list_to_set_disj. intros Hba.
      apply (bufs_elem _ _ _ Hu). destruct (target_disk (root b) key dp) as [Ed _]. rewrite Ed in Hm.
      exists c, m. split; [|done]. destruct (lunf_root _ _ Htt Hh) as (x&n&cs&Ex&Hn&En&_).
      rewrite En in Hic. rewrite Ed in Hn.
      assert (Hreach : ∀ d l y, Linked.path_valid l key d → lb_root (Linked.path_target l key d) = Some y → is_Some (lb_dv l !! y) →
        ∀ z, Linked.reachable_node (lb_dv l) (Some y) z → Linked.reachable_node (lb_dv l) (lb_root l) z).
      { clear. induction d as [|d IH]; intros l y; cbn [Linked.path_target].
        - by intros _ ->.
        - intros (Hh&_&_&_&Hv) Ey Hy z Hz. destruct Hh as (n&a&E&Hn).
          pose proof (IH (Linked.child_for_key l key) y Hv Ey Hy z Hz) as H. cbn in H.
          rewrite E. unfold LNode.child_ptr, LNode.child_at in H.
          assert (En : Linked.root_node l = n) by (unfold Linked.root_node; by rewrite E, Hn). rewrite En in H.
          destruct (LNode.children n !! route_idx (LNode.pivots n) key) as [q|] eqn:Hq.
          + rewrite (nth_lookup_Some _ _ _ _ Hq) in H. by eapply Linked.reach_child.
          + rewrite nth_overflow in H by by apply lookup_ge_None_1. inversion H. }
      apply (Hreach dp (root b) x Hpv Ex); [by eexists|]. eapply Linked.reach_child; [exact Hn|exact Hic|]. by eapply Linked.reach_here. }
    apply Hfin.
    + do 5 right; left. exists (root new), key, dp, rq, na, pa. split; [done|]. split; [done|]. split; [done|].
      eapply counted_preserved; [exact Hu1|]. intros ba Hba%elem_mdom. apply Hm2, elem_mdom. rewrite <-E2' in Hba.
      rewrite Eb in *. apply gmultiset_elem_of_disj_union in Hba as [|]; [done|]. by apply Hin.
    + exists t'. split; [done|]. split; [|done]. by rewrite Et, <-E1.
  - pose proof Hx as (El&Hc&Hv&Hvw&Enew). destruct (fresh_sub _ _ _ Hf) as [Hfa Hfb].
    destruct (op_counts _ _ _ _ _ _ _ _ (op_flush _ _ _ Hu Hr Hw _ _ _ _ _ _ Hc Hv Hf) Hvw) as (t'&Hu1&Hu'&E1&E2&_).
    rewrite <-Eb in E2. rewrite <-Et in E1. cbv zeta in Hm2. fold b in Hm2. rewrite E2 in Hm2. apply Hfin; [|by exists t'].
    do 6 right; left. exists (root new), key, dp, i, gc, na, pa. split; [done|]. split; [done|]. split; [done|]. by eapply counted_preserved.
  - pose proof Hx as (El&Hc&Hv&Hvw&Enew). destruct (fresh_sub _ _ _ Hf) as [Hfa Hfb].
    destruct (op_counts _ _ _ _ _ _ _ _ (op_compact _ _ _ Hu Hr Hw _ _ _ _ _ _ _ _ Hc Hv Hf) Hvw) as (t'&Hu1&Hu'&E1&E2&_).
    rewrite <-Eb in E2. rewrite <-Et in E1. cbv zeta in Hm2. fold b in Hm2. rewrite E2 in Hm2. apply Hfin; [|by exists t'].
    do 7 right; left. exists (root new), key, dp, i, j, cb, na, pa. split; [done|]. split; [done|]. split; [done|]. by eapply counted_preserved.
  - pose proof Hx as (El&Hvw&_). apply Hfin; [do 8 right; left; by exists (root new)|].
    exists t. split; [|done]. by eapply view_unf.
  - apply Hfin; [do 9 right; done|]. by exists t.
Qed.
