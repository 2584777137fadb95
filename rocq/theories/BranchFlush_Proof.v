(** The operations that add branches to the be-tree or retire them (C42, C43). *)
From Verif Require Import Spec_Model Spec_Proof Abs_Model Betree_Model Betree_Spec Route_Proof Branch_Spec Branch_Proof BranchPages_Proof BranchBuild_Proof.
From Verif Require Import LinkedBetree_Model LinkedBetree_Spec LikesBetree_Model LikesBetree_Spec LinkedBetree_Proof LinkedBetree_Facts
  LikesTree_Proof LikesOps_Proof LikesBetree_Proof LikesBetree_Facts BranchSkel_Proof BranchCompact_Proof
  BranchBetree_Model BranchBetree_Spec BranchBuffer_Proof BranchForest_Proof BranchBetree_Proof BranchSteps_Proof BranchOps_Proof.
From Coq Require Import ZifyBool ZifyNat ZifyN Lia.
Implicit Types (s : ABB.State) (σ : LikesBetree.State) (r a : Address).

Section Ops.
Context `{Geometry} (fixed grow : bool).
Local Instance bb : Buffer BranchNode := branch_buffer fixed.
Notation bdv s := (lb_bdv (root (ABB.betree s))).
Notation atree σ := (root (LikesBetree.betree σ)).
Notation tr s σ := (tracked (LikesBetree.buf_likes σ) (ABB.compactors s)).
Notation binv := (binv fixed).
Notation bstep := (bstep fixed).

Lemma kept_dom {V} (W : gmap Address V) X D a : restrict_domain_au W X = D → a ∈ D → au a ∈ X.
Proof. intros <-. unfold restrict_domain_au. by intros [? _]%elem_of_filter. Qed.
(** The freshness of a path and of the new pages. *)
Lemma fresh_pages s σ (X : gset Address) (pa : list Address) (Y : gset AU) : binv s σ → ABB.is_fresh s Y → to_aus X ∪ seq_addrs_to_aus pa ⊆ Y →
  Linked.is_fresh (atree σ) (X ∪ list_to_set pa).
Proof.
  intros I (F1&F2&_) HY. apply (i_fresh _ _ _ I). intros a Ha.
  assert (Hau : au a ∈ Y).
  { apply HY. unfold seq_addrs_to_aus. rewrite <-to_aus_union. apply elem_to_aus. eauto. }
  split; intros Hx; [exact (F1 _ Hx Hau)|exact (F2 _ Hx Hau)].
Qed.

Lemma push_step s s' σ l new i na : binv s σ → ABB.internal_flush_memtable fixed s s' l new i na → ∃ σ', binv s' σ' ∧ bstep s s' σ σ' l.
Proof.
  intros I (alls&deallocs&w&b&->&Hf&Hi&Hs&Hb&Hrest). cbv zeta in Hrest. unfold ABB.linked in *.
  set (ta := mkTwo na (LBranch.root b)) in *. destruct Hrest as ((_&Hnd&Hmb&Hvw&Enew)&->&->&Hdv&Hbdv&->).
  pose proof (b_skel _ _ _ I) as Hsk. destruct (add_branch _ _ _ _ _ _ I Hi Hs Hb) as [AF AS Anew Aun Aold Asub Aus Anot].
  set (x := mt_buffer (memtable (LikesBetree.betree σ))).
  pose proof (skel_push _ _ (LBranch.root_node b) x ta Hsk) as Hps. set (W := Linked.push_memtable (atree σ) x ta) in *.
  set (A0 := mkLB (lb_root (root new)) (lb_dv (root new)) (lb_bdv W)).
  rewrite (skel_flush_memtable_likes _ _ _ A0 _ _ _ Hsk) in * by done.
  assert (Eroot : root_likes A0 = {[+ na +]}).
  { destruct Hvw as ((_&Hnn)&Er&_). unfold root_likes, A0. cbn [lb_root lb_dv]. rewrite <-Er in Hnn |- *. cbn in Hnn |- *. destruct (Hnn _ eq_refl) as [? ->]; done. }
  set (aus := flush_memtable_au_likes (atree σ) A0 ta (ABB.betree_aus s) (ABB.branch_aus s)) in *.
  set (A := mkLB (lb_root (root new)) (lb_dv (root new)) (kept_disk (lb_bdv W) aus.2)).
  assert (Eaus : flush_memtable_au_likes (atree σ) A ta (ABB.betree_aus s) (ABB.branch_aus s) = aus) by done.
  assert (HvA : Linked.valid_view W A).
  { eapply skel_view; [exact Hps|done|exact Hvw|]. apply kept_agrees. }
  destruct (delete_alloc _ _ _ Hi (b_wips _ _ _ I)) as (Hap&Ewip&Hwsub).
  assert (Hfr : Linked.is_fresh (atree σ) (two_repr ta)).
  { apply (i_fresh _ _ _ I). unfold two_repr. cbn [addr1 addr2 ta]. intros a [->%elem_of_singleton| ->%elem_of_singleton]%elem_of_union.
    - destruct Hf as (F1&F2&_). set_solver.
    - apply Hwsub in Aun. pose proof (b_dis2 _ _ _ I) as D2. pose proof (b_dis3 _ _ _ I) as D3. unfold ABB.branch_allocator_aus in *.
      split; intros Hx; [exact (D2 _ Hx Aun)|exact (D3 _ Hx Aun)]. }
  assert (EW : lb_bdv W = <[LBranch.root b := x]> (lb_bdv (atree σ))) by done.
  assert (HdW : ∀ a, a ∈ dom (lb_bdv W) ↔ a ∈ mdom (LikesBetree.buf_likes σ) ∪ {[LBranch.root b]}).
  { intros a. rewrite EW, dom_insert_L, (b_abdv _ _ _ I). set_solver. }
  assert (HdW' : ∀ a, a ∈ dom (lb_bdv W) → a ∈ tr s σ ∪ {[LBranch.root b]}).
  { intros a Ha. apply HdW in Ha. apply elem_of_union in Ha as [Ha|Ha]; [apply elem_of_union_l, elem_tracked; by left|by apply elem_of_union_r]. }
  set (x' := AllocBetree.mkState (mkBS (mt_drain (memtable (LikesBetree.betree σ))) A) aus.1 aus.2).
  destruct (tree_step σ _ x' (lb_bdv W) (i_same _ _ _ I) (b_exact _ _ _ I)) as (σ'&Hn&He&(E1&E2&E3)&Hk&Hbl&Hdom).
  { right; left. exists (mkBS (mt_drain (memtable (LikesBetree.betree σ))) A), ta. split; [done|]. split; [done|].
    cbv zeta. split; [|done]. split; [|apply kept_counted]. cbn [AllocBetree.betree AllocBetree.betree_aus AllocBetree.buffer_aus root].
    rewrite Eaus. fold x. fold W. destruct Hps as [_ <-]. cbn [A lb_dv]. by rewrite Hdv. }
  { done. }
  { intros c d Hc Hd. eapply roots_apart; [exact AF|by apply HdW'..]. }
  cbn [x' AllocBetree.betree AllocBetree.betree_aus AllocBetree.buffer_aus] in *.
  assert (Haus2 : ∀ a, a ∈ dom (lb_bdv W) → au a ∈ mdom aus.2).
  { intros a Ha. apply HdW in Ha. unfold aus, flush_memtable_au_likes. cbn [snd ta addr2]. rewrite elem_mdom. rewrite gmultiset_elem_of_disj_union, gmultiset_elem_of_singleton, <-elem_mdom.
    apply elem_of_union in Ha as [Ha| ->%elem_of_singleton]; [left|by right]. apply (i_baus_tracked _ _ _ I); [apply elem_tracked; by left|done]. }
  assert (Etr : tracked (LikesBetree.buf_likes σ') (ABB.compactors s) = tr s σ ∪ {[LBranch.root b]}).
  { apply set_eq. intros r. rewrite elem_of_union, !elem_tracked. rewrite Hbl. specialize (Haus2 r). rewrite HdW in Haus2 |- *. rewrite elem_of_union in Haus2 |- *. tauto. }
  exists σ'. eapply (step_tree _ _ _ _ _ _ {[au na]} (mdom (ABB.betree_aus s) ∖ mdom aus.1) ∅ (all_aus (ABranch.mini_allocator w)) I); proj; rewrite ?Etr; try rewrite Hbdv.
  - exists Internal. done.
  - done.
  - by rewrite <-E1.
  - rewrite <-E1, Enew. cbn. by rewrite (b_mt _ _ _ I).
  - done.
  - done.
  - done.
  - done.
  - exact AF.
  - exact AS.
  - intros a. rewrite Hdv. unfold restrict_domain_au. by intros [? _]%elem_of_filter.
  - done.
  - assert (EY : mdom (to_au_likes (root_likes A0)) = {[au na]}).
    { rewrite Eroot, mdom_au, mdom_single. apply set_eq. intros u. rewrite elem_to_aus. set_solver. }
    rewrite <-EY. eapply mdom_change; [done|]. rewrite EY. apply Hf.
  - set_solver.
  - rewrite Aus. set_solver.
  - apply empty_subseteq.
  - exact Ewip.
  - exact Hwsub.
  - exact Hap.
  - intros j y (j'&Hj&_)%delete_lookup. by eapply (b_wip _ _ _ I).
  - intros a y y' Hy Hy'. eapply map_subseteq_spec in Hy; [|exact Asub]. congruence.
  - intros r Hr _. by apply Aold.
  - intros Hfx r B n HB Hst k. rewrite <-E1 in HB. cbn [A root lb_bdv] in HB. apply kept_lookup in HB as [HB _]. rewrite EW in HB.
    apply lookup_insert_Some in HB as [[<- <-]|[Hne HB]].
    + destruct (f_tree _ _ AF (LBranch.root b)) as (n'&Hn'&Hw'); [apply elem_of_union_r; by apply elem_of_singleton|].
      rewrite (stores_det _ _ _ _ Hst Hn').
      change (node_buffer (branch_tree (lb_bdv (root new)) (LBranch.root b)) = mt_buffer (memtable (ABB.betree s))) in Hmb. rewrite Hbdv, (branch_tree_stores _ _ _ (f_wf _ _ AF) Hn'), (b_mt _ _ _ I) in Hmb.
      unfold x. rewrite <-Hmb. by apply node_buffer_query.
    + eapply agree_old; [exact I|done|done| |exact Hst]. apply Aold. apply elem_tracked. left. rewrite <-(b_abdv _ _ _ I). apply elem_of_dom. by eexists.
  - done.
  - set_solver.
Qed.

Lemma flush_step s s' σ l new key d ci gc na pa : binv s σ → ABB.internal_flush s s' l new key d ci gc na pa → ∃ σ', binv s' σ' ∧ bstep s s' σ σ' l.
Proof.
  intros I (alls&deallocs&->&Hf&_&_&_&(_&Hc&Hv&Hvw&Enew)&Hrest). cbv zeta in Hrest. unfold ABB.linked in *.
  pose proof (b_skel _ _ _ I) as Hsk.
  rewrite (skel_can_flush _ _ ci gc (skel_target _ _ key d Hsk)) in Hc. apply (skel_replacement _ _ _ _ _ _ _ Hsk) in Hv.
  pose proof (skel_post_flush _ _ key d ci gc na pa Hsk) as Hps.
  rewrite (skel_flush_likes _ _ _ _ _ _ _ _ _ _ Hsk) in Hrest.
  set (aus := internal_flush_au_likes (atree σ) key d ci gc na pa (ABB.betree_aus s) (ABB.branch_aus s)) in *.
  set (dead := (mdom (ABB.branch_aus s) ∖ mdom aus.2) ∖ read_ref_aus (ABB.compactors s)) in *.
  destruct Hrest as (->&->&Hdv&Hbdv&->).
  set (W := Linked.post_flush (atree σ) key d ci gc na pa) in *.
  set (A := mkLB (lb_root (root new)) (lb_dv (root new)) (kept_disk (lb_bdv W) aus.2)).
  assert (HvA : Linked.valid_view W A).
  { eapply skel_view; [exact Hps|done|exact Hvw|]. apply kept_agrees. }
  assert (Hfr : Linked.is_fresh (atree σ) (two_repr na ∪ list_to_set pa)) by by eapply fresh_pages.
  assert (EW : lb_bdv W = lb_bdv (atree σ)) by apply bdv_post_flush.
  set (x' := AllocBetree.mkState (mkBS (memtable (LikesBetree.betree σ)) A) aus.1 aus.2).
  destruct (tree_step σ _ x' (lb_bdv W) (i_same _ _ _ I) (b_exact _ _ _ I)) as (σ'&Hn&He&(E1&E2&E3)&Hk&Hbl&Hdom).
  { do 4 right; left. exists (mkBS (memtable (LikesBetree.betree σ)) A), key, d, ci, gc, na, pa. split; [done|]. split; [done|].
    cbv zeta. split; [|done]. split; [|apply kept_counted]. cbn [AllocBetree.betree AllocBetree.betree_aus AllocBetree.buffer_aus root A lb_dv].
    fold aus. fold W. destruct Hps as [_ <-]. by rewrite Hdv. }
  { done. }
  { rewrite EW. intros a b Ha Hb. eapply roots_apart; [apply I|by apply (i_abdv_tracked _ _ _ I)..]. }
  cbn [x' AllocBetree.betree AllocBetree.betree_aus AllocBetree.buffer_aus] in *. rewrite EW, (b_abdv _ _ _ I) in Hbl.
  set (tr' := tracked (LikesBetree.buf_likes σ') (ABB.compactors s)).
  assert (Hsub : tr' ⊆ tr s σ).
  { intros r [[Hr _]%Hbl|Hr]%elem_tracked; apply elem_tracked; tauto. }
  assert (Hdead : ∀ r, r ∈ tr s σ → (au r ∉ dead ↔ r ∈ tr')).
  { intros r Hr. unfold dead, tr'. rewrite !not_elem_of_difference. rewrite (i_read _ _ _ I _ _ Hr (reflexivity _)).
    rewrite (i_baus_tracked _ _ _ I _ Hr). rewrite elem_tracked in Hr |- *. rewrite Hbl.
    destruct (decide (au r ∈ mdom aus.2)); destruct (decide (r ∈ mdom (LikesBetree.buf_likes σ))); tauto. }
  pose proof (b_forest _ _ _ I) as HF. pose proof (b_sum _ _ _ I) as HS.
  assert (Hlk : ∀ a y, lb_bdv (root new) !! a = Some y ↔ bdv s !! a = Some y ∧ au a ∈ summary_aus (remove_keys (ABB.branch_summary s) dead)).
  { destruct Hvw as (_&_&_&Hag). rewrite bdv_post_flush in Hag. intros a y. split.
    - intros Hy. assert (Hin : a ∈ dom (lb_bdv (root new))) by (apply elem_of_dom; by eexists). rewrite <-Hbdv in Hin.
      apply elem_of_filter in Hin as [Hau [z Hz]%elem_of_dom]. rewrite (Hag _ _ _ Hy Hz). done.
    - intros [Hy Hau]. assert (Hin : a ∈ dom (lb_bdv (root new))) by (rewrite <-Hbdv; apply elem_of_filter; split; [done|apply elem_of_dom; by eexists]).
      apply elem_of_dom in Hin as [z Hz]. by rewrite <-(Hag _ _ _ Hz Hy). }
  destruct (retire _ _ _ _ _ HF HS Hsub Hdead _ Hlk) as (F'&S'&L').
  destruct (retire_units _ _ _ _ _ HF HS Hsub Hdead) as [Eu Hu].
  exists σ'. eapply (step_tree _ _ _ _ _ _ (to_aus (two_repr na) ∪ seq_addrs_to_aus pa) (mdom (ABB.betree_aus s) ∖ mdom aus.1)
    (summary_aus (restrict_keys (ABB.branch_summary s) dead)) ∅ I); proj.
  - exists Internal. done.
  - done.
  - by rewrite <-E1.
  - rewrite <-E1, Enew. apply I.
  - done.
  - done.
  - done.
  - done.
  - exact F'.
  - exact S'.
  - intros a. by apply kept_dom with (lb_dv (Linked.post_flush (root (ABB.betree s)) key d ci gc na pa)).
  - done.
  - assert (EY : mdom (to_au_likes (add_betree_likes (two_likes na) pa)) = to_aus (two_repr na) ∪ seq_addrs_to_aus pa).
    { unfold seq_addrs_to_aus. rewrite <-to_aus_union, mdom_au. f_equal. unfold add_betree_likes, two_likes, two_repr.
      rewrite !mdom_union, mdom_list, !mdom_single. set_solver. }
    rewrite <-EY. eapply mdom_change; [done|]. rewrite EY. apply Hf.
  - set_solver.
  - rewrite Eu. set_solver.
  - exact Hu.
  - set_solver.
  - apply empty_subseteq.
  - apply I.
  - apply I.
  - intros a y y' Hy [Hy' _]%Hlk. congruence.
  - intros r _ Hr. by apply L'.
  - intros Hfx r B n HB Hst. rewrite <-E1 in HB. cbn [A root lb_bdv] in HB. pose proof HB as [HB' Hau]%kept_lookup. rewrite EW in HB'.
    eapply agree_old; [exact I|done|done| |exact Hst]. apply L'. apply elem_tracked. left. apply Hbl.
    split; [|done]. rewrite <-(b_abdv _ _ _ I). apply elem_of_dom. by eexists.
  - done.
  - done.
Qed.

Lemma compact_step s s' σ l new key d i j ii bi na pa : binv s σ →
  ABB.internal_compact_complete fixed s s' l new key d i j ii bi na pa → ∃ σ', binv s' σ' ∧ bstep s s' σ σ' l.
Proof.
  intros I (alls&deallocs&input&w&b&->&Hf&_&_&_&_&Hi&Hs&Hb&Hrest). cbv zeta in Hrest. unfold ABB.linked in *.
  set (ta := mkTwo na (LBranch.root b)) in *. destruct Hrest as ((_&Hc&Hv&Hvw&Enew)&Hrest).
  pose proof (b_skel _ _ _ I) as Hsk. destruct (add_branch _ _ _ _ _ _ I Hi Hs Hb) as [AF AS Anew Aun Aold Asub Aus Anot].
  pose proof (skel_replacement _ _ key d (two_no_dup ta) (two_repr ta) pa Hsk) as Hv'. rewrite Hv' in Hv. clear Hv'.
  pose proof (skel_target _ _ key d Hsk) as Hskt.
  destruct Hc as (Hwt&Hrt&Hij&Hcd&Hcv). rewrite bdv_target in Hcd, Hcv. rewrite (skel_root_node _ _ Hskt) in Hij, Hcd, Hcv.
  rewrite (skel_wf _ _ Hskt) in Hwt. rewrite (skel_has_root _ _ Hskt) in Hrt.
  set (nd := Linked.root_node (Linked.path_target (atree σ) key d)) in *.
  assert (Hwn : LNode.wf nd).
  { destruct Hrt as (n&a&Ea&Ha). destruct Hwt as [[Hw _] _]. unfold nd, Linked.root_node. rewrite Ea, Ha. by eapply Hw. }
  destruct (compact_exists (lb_bdv (atree σ)) nd i j Hwn) as (B&HBd&HBv).
  pose proof (skel_post_compact _ _ key d i j (LBranch.root_node b) B ta pa Hsk) as Hps.
  rewrite (skel_compact_likes _ _ _ _ _ _ _ _ _ _ Hsk) in Hrest.
  set (aus := internal_compact_complete_au_likes (atree σ) key d i j ta pa (ABB.betree_aus s) (ABB.branch_aus s)) in *.
  set (cs := delete ii (ABB.compactors s)) in *.
  set (dead := (dom (ABB.branch_summary s) ∖ mdom aus.2) ∖ read_ref_aus cs) in *.
  set (D1 := LBranch.merge_disk (bdv s) (LBranch.disk b)) in *.
  set (m1 := <[au (LBranch.root b):=ABranch.get_summary b]> (ABB.branch_summary s)) in *.
  destruct Hrest as (->&->&Hdv&Hbdv&->).
  set (W := Linked.post_compact (atree σ) key d i j B ta pa) in *.
  set (A := mkLB (lb_root (root new)) (lb_dv (root new)) (kept_disk (lb_bdv W) aus.2)).
  assert (HvA : Linked.valid_view W A).
  { eapply skel_view; [exact Hps|done|exact Hvw|]. apply kept_agrees. }
  destruct (delete_alloc _ _ _ Hi (b_wips _ _ _ I)) as (Hap&Ewip&Hwsub).
  assert (Hfr : Linked.is_fresh (atree σ) (two_repr ta ∪ list_to_set pa)).
  { apply (i_fresh _ _ _ I). unfold two_repr. cbn [addr1 addr2 ta]. intros a Ha. destruct Hf as (F1&F2&_).
    destruct (decide (a = LBranch.root b)) as [->|Hne].
    - apply Hwsub in Aun. pose proof (b_dis2 _ _ _ I) as D2. pose proof (b_dis3 _ _ _ I) as D3. unfold ABB.branch_allocator_aus in *.
      split; intros Hx; [exact (D2 _ Hx Aun)|exact (D3 _ Hx Aun)].
    - assert (Hau : au a ∈ seq_addrs_to_aus pa ∪ {[au na]}).
      { apply elem_of_union in Ha as [[->%elem_of_singleton|Ha%elem_of_singleton]%elem_of_union|Ha]; [set_solver|done|].
        apply elem_of_union_l. unfold seq_addrs_to_aus. apply elem_to_aus. eauto. }
      split; intros Hx; [exact (F1 _ Hx Hau)|exact (F2 _ Hx Hau)]. }
  assert (EW : lb_bdv W = <[LBranch.root b := B]> (lb_bdv (atree σ))) by apply bdv_post_compact.
  assert (HdW : ∀ a, a ∈ dom (lb_bdv W) ↔ a ∈ mdom (LikesBetree.buf_likes σ) ∪ {[LBranch.root b]}).
  { intros a. rewrite EW, dom_insert_L, (b_abdv _ _ _ I). set_solver. }
  assert (HdW' : ∀ a, a ∈ dom (lb_bdv W) → a ∈ tr s σ ∪ {[LBranch.root b]}).
  { intros a Ha. apply HdW in Ha. apply elem_of_union in Ha as [Ha|Ha]; [apply elem_of_union_l, elem_tracked; by left|by apply elem_of_union_r]. }
  set (x' := AllocBetree.mkState (mkBS (memtable (LikesBetree.betree σ)) A) aus.1 aus.2).
  destruct (tree_step σ _ x' (lb_bdv W) (i_same _ _ _ I) (b_exact _ _ _ I)) as (σ'&Hn&He&(E1&E2&E3)&Hk&Hbl&Hdom).
  { do 5 right; left. exists (mkBS (memtable (LikesBetree.betree σ)) A), key, d, i, j, B, ta, pa. split.
    { split; [done|]. split; [|done]. split; [done|]. split; [done|]. split; [done|]. rewrite bdv_target. done. }
    split; [done|].
    cbv zeta. split; [|done]. split; [|apply kept_counted]. cbn [AllocBetree.betree AllocBetree.betree_aus AllocBetree.buffer_aus root A lb_dv].
    fold aus. fold W. destruct Hps as [_ <-]. by rewrite Hdv. }
  { done. }
  { intros c e Hc He. eapply roots_apart; [exact AF|by apply HdW'..]. }
  cbn [x' AllocBetree.betree AllocBetree.betree_aus AllocBetree.buffer_aus] in *.
  set (tr1 := tr s σ ∪ {[LBranch.root b]}) in *. set (tr' := tracked (LikesBetree.buf_likes σ') cs).
  assert (Hcs : input_roots cs ⊆ input_roots (ABB.compactors s)) by apply inputs_delete.
  assert (Hsub : tr' ⊆ tr1).
  { intros r [[Hr _]%Hbl|Hr]%elem_tracked; [by apply HdW'|]. apply elem_of_union_l, elem_tracked. right. by apply Hcs. }
  assert (Hrb : au (LBranch.root b) ∈ mdom aus.2).
  { unfold aus, internal_compact_complete_au_likes, compact_add_buffers. cbn [snd ta addr2]. rewrite elem_mdom, gmultiset_elem_of_disj_union. right.
    rewrite <-elem_mdom, elem_mdom_au. exists (LBranch.root b). split; [|done]. rewrite mdom_single. by apply elem_of_singleton. }
  assert (Haus2 : ∀ r, r ∈ tr s σ → au r ∈ mdom aus.2 → r ∈ mdom (LikesBetree.buf_likes σ)).
  { intros r Hr Hau. apply (i_baus_tracked _ _ _ I _ Hr). unfold aus, internal_compact_complete_au_likes, compact_add_buffers in Hau. cbn [snd ta addr2] in Hau.
    rewrite elem_mdom, gmultiset_elem_of_disj_union in Hau. destruct Hau as [Hau|Hau].
    - rewrite elem_mdom. multiset_solver.
    - rewrite <-elem_mdom, elem_mdom_au in Hau. destruct Hau as (a&Ha&Ea). rewrite mdom_single in Ha. apply elem_of_singleton in Ha as ->.
      destruct Anew. rewrite Ea. apply (summarizes_dom _ _ _ _ (b_forest _ _ _ I) (b_sum _ _ _ I)). eauto. }
  assert (Hdead : ∀ r, r ∈ tr1 → (au r ∉ dead ↔ r ∈ tr')).
  { intros r Hr. unfold dead, tr'. rewrite !not_elem_of_difference, elem_tracked, Hbl, HdW.
    apply elem_of_union in Hr as [Hr| ->%elem_of_singleton].
    - rewrite (i_read _ _ _ I _ _ Hr Hcs). assert (Hd : au r ∈ dom (ABB.branch_summary s)).
      { apply (summarizes_dom _ _ _ _ (b_forest _ _ _ I) (b_sum _ _ _ I)). eauto. }
      specialize (Haus2 r Hr). rewrite elem_of_union. destruct (decide (au r ∈ mdom aus.2)); [specialize (Haus2 ltac:(done))|]; tauto.
    - split; [|tauto]. intros _. left. split; [set_solver|done]. }
  destruct (retire _ _ _ _ _ AF AS Hsub Hdead _ (restrict_disk_lookup D1 (summary_aus (remove_keys m1 dead)))) as (F'&S'&L').
  destruct (retire_units _ _ _ _ _ AF AS Hsub Hdead) as [Eu Hu].
  assert (Erk : restrict_keys m1 dead = restrict_keys (ABB.branch_summary s) dead).
  { apply map_eq. intros u. apply option_eq. intros U. rewrite !restrict_keys_lookup. unfold m1. split.
    - intros [[[<- <-]|[_ Hx]]%lookup_insert_Some Hu']; [|done]. unfold dead in Hu'. set_solver.
    - intros [Hx Hu']. split; [|done]. rewrite lookup_insert_ne; [done|]. intros <-. apply Anew, elem_of_dom. by eexists. }
  rewrite Erk in Eu, Hu. rewrite <-Hbdv in F', S', L'.
  assert (Hlk : ∀ a y, lb_bdv (root new) !! a = Some y → D1 !! a = Some y).
  { intros a y. rewrite Hbdv. by intros [? _]%restrict_disk_lookup. }
  assert (Hsame : ∀ r, r ∈ tr s σ → r ∈ tr' → ∀ a, branch_page (bdv s) r a → lb_bdv (root new) !! a = bdv s !! a).
  { intros r Hr Hr' a Ha. rewrite <-(Aold r Hr a Ha). apply (L' r Hr'). apply (local_page (bdv s)); [by apply (f_units _ _ (b_forest _ _ _ I))|by apply Aold|done]. }
  exists σ'. eapply (step_tree _ _ _ _ _ _ (seq_addrs_to_aus pa ∪ {[au na]}) (mdom (ABB.betree_aus s) ∖ mdom aus.1)
    (summary_aus (restrict_keys (ABB.branch_summary s) dead)) (all_aus (ABranch.mini_allocator w)) I); proj.
  - exists Internal. done.
  - done.
  - by rewrite <-E1.
  - rewrite <-E1, Enew. apply I.
  - done.
  - done.
  - done.
  - done.
  - exact F'.
  - exact S'.
  - intros a. by apply kept_dom with (lb_dv (Linked.post_compact (root (ABB.betree s)) key d i j (LBranch.root_node b) ta pa)).
  - done.
  - assert (EY : mdom (to_au_likes (compact_add_betree ta pa)) = seq_addrs_to_aus pa ∪ {[au na]}).
    { unfold seq_addrs_to_aus. rewrite mdom_au. unfold compact_add_betree. rewrite mdom_union, mdom_list, mdom_single, to_aus_union. f_equal.
      apply set_eq. intros u. rewrite elem_to_aus. cbn [ta addr1]. set_solver. }
    rewrite <-EY. eapply mdom_change; [done|]. rewrite EY. apply Hf.
  - set_solver.
  - by rewrite Eu, Aus.
  - intros u (v&U&[Hv' _]%restrict_keys_lookup&Hu')%elem_summary_aus. apply elem_summary_aus. eauto.
  - exact Ewip.
  - exact Hwsub.
  - exact Hap.
  - intros k y (j'&Hj&_)%delete_lookup. by eapply (b_wip _ _ _ I).
  - intros a y y' Hy Hy'%Hlk. eapply map_subseteq_spec in Hy; [|exact Asub]. fold D1 in Hy. congruence.
  - exact Hsame.
  - intros Hfx r B' n HB Hst. rewrite <-E1 in HB. cbn [A root lb_bdv] in HB. pose proof HB as [HB' Hau]%kept_lookup. rewrite EW in HB'.
    apply lookup_insert_Some in HB' as [[<- <-]|[Hne HB']].
    + destruct (f_tree _ _ F' (LBranch.root b)) as (n'&Hn'&Hw').
      { apply Hdead; [apply elem_of_union_r; by apply elem_of_singleton|]. unfold dead. set_solver. }
      rewrite (stores_det _ _ _ _ Hst Hn'). clear n Hst.
      assert (Hq : ∀ k, branch_query (lb_bdv (root new)) (LBranch.root b) k = PBranch.query n' k) by (intros k; by apply (branch_query_tree _ _ _ _ (f_wf _ _ F') Hn')).
      assert (Hreach : ∀ y, y ∈ subrange (LNode.buffers nd) i j → Linked.reachable_buffer (root (ABB.betree s)) y).
      { intros y Hy%elem_subrange. apply (skel_reachable_buffer _ _ _ Hsk). eapply target_reach; [|exact Hy]. apply Hv. }
      eapply (compact_same (bdv s) (lb_bdv (atree σ)) nd i j); try done.
      * intros y Hy. destruct (root_some _ _ y (b_forest _ _ _ I)) as [z Hz]; [by apply (i_tracked _ _ _ I), Hreach|]. eauto.
      * intros y k Hy. apply (i_query _ _ _ I); [by apply Hreach|done].
      * intros y k z Hz. cbn [linked_contains ABB.bb bb branch_buffer]. rewrite Hfx. unfold Linked.bd_query. by rewrite Hz.
      * intros k. rewrite <-Hcd. cbn [linked_contains ABB.bb bb branch_buffer ta addr2]. rewrite Hfx. by rewrite Hq.
      * intros k Hkk. rewrite <-Hq in Hkk |- *. apply Hcv. cbn [linked_contains ABB.bb bb branch_buffer ta addr2]. by rewrite Hfx.
    + assert (Hr : r ∈ mdom (LikesBetree.buf_likes σ)) by (rewrite <-(b_abdv _ _ _ I); apply elem_of_dom; by eexists).
      eapply agree_old; [exact I|done|done| |exact Hst]. apply Hsame; [apply elem_tracked; by left|]. apply elem_tracked. left. apply Hbl.
      split; [|done]. apply HdW. set_solver.
  - done.
  - done.
Qed.
End Ops.
