(** Every be-tree can write its memtable to disk and then be frozen (C50). *)
From Verif Require Import Spec_Model Abs_Model Betree_Model Betree_Spec Betree_Common Route_Proof Routed_Proof Betree_Facts
  LinkedBetree_Model LinkedBetree_Spec LinkedBetree_Proof LinkedBetree_Facts
  LikesBetree_Model LikesTree_Proof LikesOps_Proof LikesBetree_Proof LikesBetree_Facts Spec_Proof.
From Verif Require PagedBetree_Proof PivotBetree_Proof FilteredBetree_Proof.
From Coq Require Import Lia.

(** ** The trees without addresses *)
Lemma paged_can_freeze s : ∃ s1 img, Betree_Model.Paged.next s s1 Internal ∧ Betree_Model.Paged.next s1 s1 (FreezeAs img).
Proof. eexists _, _. split; [do 3 right; left; split; reflexivity|]. right; right; left. split; [done|]. split; reflexivity. Qed.
Lemma pivot_can_freeze s : PivotBetree_Proof.inv s → ∃ s1 img, Pivot.next s s1 Internal ∧ Pivot.next s1 s1 (FreezeAs img).
Proof.
  intros [Hw Hc]. destruct (PivotBetree_Proof.push_memtable_ok (root s) (memtable s) Hw Hc) as (H1&_).
  eexists _, _. split; [do 3 right; left; split; [reflexivity|]; split; [done|reflexivity]|].
  right; right; left. split; [exact H1|]. split; [done|]. split; reflexivity.
Qed.
Lemma filtered_can_freeze s : FilteredBetree_Proof.inv s → ∃ s1 img, Filtered.next s s1 Internal ∧ Filtered.next s1 s1 (FreezeAs img).
Proof.
  intros [Hw Hc]. destruct (FilteredBetree_Proof.push_memtable_ok (root s) (memtable s) Hw Hc) as (H1&_).
  eexists _, _. split; [do 3 right; left; split; [reflexivity|]; split; [done|reflexivity]|].
  right; right; left. split; [exact H1|]. split; [done|]. split; reflexivity.
Qed.

(** ** The trees on pages *)
(** There is always a unit no page of the tree is in. *)
Lemma fresh_two (l : SLB) : ∃ na, two_no_dup na ∧ Linked.is_fresh l (two_repr na).
Proof.
  set (us := set_map (D:=gset nat) au (dom (lb_dv l) ∪ dom (lb_bdv l)) : gset nat).
  exists (mkTwo (mkAddr (fresh us) 0) (mkAddr (fresh us) 1)). pose proof (is_fresh us) as Hf.
  assert (∀ p, mkAddr (fresh us) p ∉ dom (lb_dv l) ∪ dom (lb_bdv l)) as Hn.
  { intros p Hp. apply Hf. exact (elem_of_map_2 au _ _ Hp). }
  split; [done|]. unfold two_repr. cbn. split; intros a Ha Hin; apply elem_of_union in Hin as [Hin|Hin];
    apply elem_of_singleton in Hin; subst a; eapply Hn, elem_of_union; eauto.
Qed.
Lemma push_wf (l : SLB) sealed na : Linked.wf l → Linked.is_fresh l (two_repr na) →
  Linked.wf (Linked.push_memtable l sealed na).
Proof.
  intros [Hw Hd] Hf. destruct (fresh_not _ _ (addr1 na) Hf) as [F1 _]; [unfold two_repr; set_solver|].
  unfold Linked.push_memtable. set (base := match lb_root l with Some _ => _ | None => _ end).
  assert (base = LNode.empty_root total_domain ∨ ∃ a, lb_dv l !! a = Some base) as Hb.
  { unfold base. destruct (lb_root l) as [a|] eqn:E; [|by left]. right. destruct (Hd a eq_refl) as [n Hn]. exists a. by rewrite Hn. }
  split; cbn [lb_dv lb_root].
  - apply nd_wf_insert; [done|done| | |].
    + destruct Hb as [->|[a Ha]].
      * split; [apply domain_to_pivots_wf; done|]. split; [done|]. split; [done|]. by repeat constructor; cbn; lia.
      * destruct (proj1 Hw _ _ Ha) as (H1&H2&H3&H4). split; [done|]. split; [done|]. split; [done|].
        cbn [LNode.extend_buffer_seq LNode.flushed LNode.buffers]. rewrite app_length. unfold ofs_all_lte in *.
        eapply Forall_impl; [|exact H4]. intros x Hx. cbn in *. lia.
    + cbn [LNode.extend_buffer_seq LNode.children]. destruct Hb as [->|[a Ha]].
      * intros i q Hq. destruct i as [|i]; [|done]. injection Hq as <-. by intros ?.
      * apply (proj2 Hw _ _ Ha).
    + cbn [LNode.extend_buffer_seq LNode.children]. destruct Hb as [->|[a Ha]].
      * intros i q m Hq. by destruct i as [|i].
      * apply (proj2 Hw _ _ Ha).
  - intros a [= <-]. rewrite lookup_insert. by eexists.
Qed.
(** The state after writing the memtable to the two pages. *)
Definition pushed (s : BState SLB) (na : TwoAddrs) : BState SLB :=
  mkBS (mt_drain (memtable s)) (Linked.push_memtable (root s) (mt_buffer (memtable s)) na).
Lemma pushed_flush s na : Linked.wf (root s) → two_no_dup na → Linked.is_fresh (root s) (two_repr na) →
  Linked.internal_flush_memtable s (pushed s na) Internal (mt_buffer (memtable s)) (root (pushed s na)) na.
Proof.
  intros Hw Hnd Hf. split; [done|]. split; [done|]. split; [done|]. split; [|done]. apply view_refl. by apply push_wf.
Qed.
Lemma pushed_freeze s na : Linked.freeze_as (pushed s na) (pushed s na)
  (FreezeAs (mkStamped (Linked.i_bdv (root (pushed s na))) (mt_seq_end (memtable (pushed s na))))).
Proof. split; [done|]. by split. Qed.
Lemma linked_can_freeze s : linv s → ∃ s1 img, Linked.strong_next s s1 Internal ∧ Linked.strong_next s1 s1 (FreezeAs img).
Proof.
  intros (Hw&t&Hr&_). destruct (fresh_two (root s)) as (na&Hnd&Hf). eexists (pushed s na), _. split.
  - do 3 right; left. exists (mt_buffer (memtable s)), (root (pushed s na)), na. split; [by apply pushed_flush|]. split; [done|].
    eapply extends_preserved, push_memtable_repr; done.
  - right; right; left. apply pushed_freeze.
Qed.
Lemma pushed_counts s na t : linv s → lunf (root s) t → two_no_dup na → Linked.is_fresh (root s) (two_repr na) →
  mdom (nodes t ∖ root_likes (root s) ⊎ root_likes (root (pushed s na))) ⊆ dom (lb_dv (root (pushed s na))) ∧
  mdom (bufs t ⊎ {[+ addr2 na +]}) ⊆ dom (lb_bdv (root (pushed s na))).
Proof.
  intros (Hw&ft&Hr&_) Hu Hnd Hf.
  assert (Hvw : Linked.valid_view (root (pushed s na)) (root (pushed s na))) by by apply view_refl, push_wf.
  destruct (op_counts _ _ _ _ _ _ _ _ (op_push _ _ _ Hu Hr Hw _ (memtable s) _ Hnd Hf eq_refl) Hvw) as (t'&Hu1&Hu'&E1&E2&S1&_&Hin).
  assert (Er : root_likes (root (pushed s na)) = {[+ addr1 na +]}).
  { eapply root_likes_node; [done|]. cbn [pushed root Linked.push_memtable lb_dv]. apply lookup_insert. }
  rewrite Er, E1. split; [by apply nodes_on_disk|].
  replace (bufs t ⊎ {[+ addr2 na +]}) with (bufs t') by (rewrite <-E2; multiset_solver).
  intros ba Hba%elem_mdom. by apply elem_of_dom, Hin.
Qed.
Lemma counted_can_freeze s : sexact s → ∃ s1 img, LikesBetree.next s s1 Internal ∧ LikesBetree.next s1 s1 (FreezeAs img).
Proof.
  intros (Hi&t&Hu&Et&Eb). destruct (fresh_two (root (LikesBetree.betree s))) as (na&Hnd&Hf).
  destruct (pushed_counts _ na t Hi Hu Hnd Hf) as [H1 H2].
  eexists (LikesBetree.mkState (pushed (LikesBetree.betree s) na) _ _), _. split.
  - right; left. exists (pushed (LikesBetree.betree s) na), na. split; [by apply pushed_flush; [apply Hi| |]|]. split; [done|].
    cbv zeta. rewrite Et, Eb. split; [done|]. split; [done|reflexivity].
  - left. eexists. split; [done|]. split; [|reflexivity]. right; right; left. apply pushed_freeze.
Qed.
Lemma units_can_freeze x s : same x s → sexact s → ∃ x1 img, AllocBetree.next x x1 Internal ∧ AllocBetree.next x1 x1 (FreezeAs img).
Proof.
  intros (E0&Ea&Ebu) (Hi&t&Hu&Et&Eb). rewrite <-E0 in *. destruct (fresh_two (root (AllocBetree.betree x))) as (na&Hnd&Hf).
  eexists (AllocBetree.mkState (pushed (AllocBetree.betree x) na) _ _), _. split.
  - right; left. exists (pushed (AllocBetree.betree x) na), na. split; [by apply pushed_flush; [apply Hi| |]|]. split; [done|].
    cbv zeta. split; [|reflexivity]. split; unfold restrict_domain_au; set_solver.
  - left. eexists. split; [done|]. split; [|reflexivity]. right; right; left. apply pushed_freeze.
Qed.
