(** The internal operations of the be-tree whose buffers are branches (C42, C43). *)
From Verif Require Import Spec_Model Spec_Proof Abs_Model Betree_Model Betree_Spec Route_Proof Branch_Spec Branch_Proof BranchPages_Proof BranchBuild_Proof.
From Verif Require Import LinkedBetree_Model LinkedBetree_Spec LikesBetree_Model LikesBetree_Spec LinkedBetree_Proof LinkedBetree_Facts
  LikesTree_Proof LikesOps_Proof LikesBetree_Proof LikesBetree_Facts BranchSkel_Proof BranchCompact_Proof
  BranchBetree_Model BranchBetree_Spec BranchBuffer_Proof BranchForest_Proof BranchBetree_Proof BranchSteps_Proof.
From Coq Require Import ZifyBool ZifyNat ZifyN Lia.
Implicit Types (s : ABB.State) (σ : LikesBetree.State) (r a : Address).

Lemma restrict_disk_lookup (d : BranchDisk) (S : gset AU) a x :
  restrict_disk d (restrict_domain_au d S) !! a = Some x ↔ d !! a = Some x ∧ au a ∈ S.
Proof.
  unfold restrict_disk, restrict_domain_au. rewrite map_filter_lookup_Some. cbn. rewrite elem_of_filter, elem_of_dom. split; [tauto|].
  intros [Hx Ha]. split; [done|]. split; [done|by eexists].
Qed.
Lemma retire_units bdv tr (m : gmap AU (gset AU)) tr' dead : forest bdv tr → summarizes m bdv tr → tr' ⊆ tr →
  (∀ r, r ∈ tr → (au r ∉ dead ↔ r ∈ tr')) →
  summary_aus (remove_keys m dead) = summary_aus m ∖ summary_aus (restrict_keys m dead) ∧ summary_aus (restrict_keys m dead) ⊆ summary_aus m.
Proof.
  intros F S Hs Hd. split.
  - apply set_eq. intros u. rewrite elem_of_difference, (retire_keep _ _ _ _ _ S Hs Hd), (retire_drop _ _ _ _ _ S Hs Hd), (summarizes_aus _ _ _ _ S). split.
    + intros (r&U&Hr&HU&Hu). split; [exists r, U; auto|]. intros (r'&U'&Hr'&Hn&HU'&Hu').
      rewrite <-(unit_roots _ _ r r' u U U' F (Hs _ Hr) Hr' HU HU' Hu Hu') in Hn. done.
    + intros [(r&U&Hr&HU&Hu) Hn]. exists r, U. split; [|done]. destruct (decide (r ∈ tr')) as [|Hr']; [done|]. destruct Hn. eauto 10.
  - intros u. rewrite (retire_drop _ _ _ _ _ S Hs Hd), (summarizes_aus _ _ _ _ S). intros (r&U&Hr&_&HU&Hu). eauto.
Qed.
Lemma summary_insert (m : gmap AU (gset AU)) u U : u ∉ dom m → summary_aus (<[u:=U]> m) = summary_aus m ∪ U.
Proof.
  intros Hu. apply set_eq. intros x. rewrite elem_of_union, !elem_summary_aus. split.
  - intros (v&V&[[<- <-]|[Hne Hv]]%lookup_insert_Some&Hx); [by right|left; eauto].
  - intros [(v&V&Hv&Hx)|Hx].
    + exists v, V. split; [|done]. rewrite lookup_insert_ne; [done|]. intros ->. apply Hu, elem_of_dom. by eexists.
    + exists u, U. by rewrite lookup_insert.
Qed.

Section Ops.
Context `{Geometry} (fixed grow : bool).
Local Instance bb : Buffer BranchNode := branch_buffer fixed.
Notation bdv s := (lb_bdv (root (ABB.betree s))).
Notation atree σ := (root (LikesBetree.betree σ)).
Notation tr s σ := (tracked (LikesBetree.buf_likes σ) (ABB.compactors s)).
Notation binv := (binv fixed).
Notation bstep := (bstep fixed).

Lemma compact_abort_step s s' σ l i : binv s σ → ABB.internal_compact_abort s s' l i → binv s' σ ∧ bstep s s' σ σ l.
Proof.
  intros I (Hi&->&->). unfold ABB.linked. set (cs := delete i (ABB.compactors s)).
  set (dead := (read_ref_aus (ABB.compactors s) ∖ read_ref_aus cs) ∖ mdom (ABB.branch_aus s)).
  set (tr' := tracked (LikesBetree.buf_likes σ) cs).
  assert (Hcs : input_roots cs ⊆ input_roots (ABB.compactors s)) by apply inputs_delete.
  assert (Hsub : tr' ⊆ tr s σ).
  { intros r [Hr|Hr]%elem_tracked; apply elem_tracked; [by left|right; by apply Hcs]. }
  assert (Hdead : ∀ r, r ∈ tr s σ → (au r ∉ dead ↔ r ∈ tr')).
  { intros r Hr. unfold dead, tr'. rewrite !not_elem_of_difference. rewrite (i_read _ _ _ I _ _ Hr Hcs), (i_read _ _ _ I _ _ Hr (reflexivity _)).
    rewrite (i_baus_tracked _ _ _ I _ Hr). rewrite !elem_tracked in Hr |- *. destruct (decide (r ∈ mdom (LikesBetree.buf_likes σ))); tauto. }
  pose proof (b_forest _ _ _ I) as HF. pose proof (b_sum _ _ _ I) as HS.
  destruct (retire _ _ _ _ _ HF HS Hsub Hdead _ (restrict_disk_lookup (bdv s) (summary_aus (remove_keys (ABB.branch_summary s) dead)))) as (F'&S'&L').
  destruct (retire_units _ _ _ _ _ HF HS Hsub Hdead) as [Eu Hu].
  eapply (step_tree _ _ _ _ _ _ ∅ ∅ (summary_aus (restrict_keys (ABB.branch_summary s) dead)) ∅ I); proj.
  - apply noop_likes.
  - apply I.
  - apply (b_skel _ _ _ I).
  - apply I.
  - apply I.
  - apply I.
  - split; congruence.
  - apply I.
  - exact F'.
  - exact S'.
  - apply I.
  - split_and!; apply disjoint_empty_r.
  - set_solver.
  - apply empty_subseteq.
  - rewrite Eu. set_solver.
  - done.
  - set_solver.
  - apply empty_subseteq.
  - apply I.
  - apply I.
  - intros a b b' Hb [Hb' _]%restrict_disk_lookup. congruence.
  - intros r _ Hr. by apply L'.
  - intros Hf r B n HB Hst. eapply agree_old; [exact I|done|done| |exact Hst]. apply L'. apply elem_tracked. left.
    rewrite <-(b_abdv _ _ _ I). apply elem_of_dom. by eexists.
  - done.
  - set_solver.
Qed.

(** ** Adding a finished branch *)
Record added s σ (w : ABranch.t) (b : ABranch.Branch) : Prop := {
  ad_forest : forest (LBranch.merge_disk (bdv s) (LBranch.disk b)) (tr s σ ∪ {[LBranch.root b]});
  ad_sum : summarizes (<[au (LBranch.root b) := ABranch.get_summary b]> (ABB.branch_summary s))
             (LBranch.merge_disk (bdv s) (LBranch.disk b)) (tr s σ ∪ {[LBranch.root b]});
  ad_new : au (LBranch.root b) ∉ dom (ABB.branch_summary s);
  ad_unit : au (LBranch.root b) ∈ all_aus (ABranch.mini_allocator w);
  ad_old : ∀ r, r ∈ tr s σ → ∀ a, branch_page (bdv s) r a → LBranch.merge_disk (bdv s) (LBranch.disk b) !! a = bdv s !! a;
  ad_sub : bdv s ⊆ LBranch.merge_disk (bdv s) (LBranch.disk b);
  ad_units : summary_aus (<[au (LBranch.root b) := ABranch.get_summary b]> (ABB.branch_summary s)) =
             summary_aus (ABB.branch_summary s) ∪ all_aus (ABranch.mini_allocator w);
  ad_notin : LBranch.root b ∉ tr s σ }.
Lemma add_branch s σ i w b : binv s σ → ABB.wip_branches s !! i = Some w → ABranch.sealed w = true → ABranch.branch w = Some b → added s σ w b.
Proof.
  intros I Hi Hs Hb. destruct (b_wip _ _ _ I _ _ Hi) as (free&ls&Hg).
  pose proof (built_forest _ _ _ Hg _ Hs Hb) as F2. pose proof (built_units _ _ _ Hg _ Hs Hb) as U2. pose proof (built_summary _ _ _ Hg _ Hs Hb) as E2.
  pose proof (b_forest _ _ _ I) as F1. pose proof (b_sum _ _ _ I) as S1.
  assert (Hroot : au (LBranch.root b) ∈ all_aus (ABranch.mini_allocator w)).
  { rewrite <-E2. eapply root_unit; [exact F2| |exact U2]. by apply elem_of_singleton. }
  assert (Hin : ∀ u, u ∈ all_aus (ABranch.mini_allocator w) → u ∉ summary_aus (ABB.branch_summary s)).
  { intros u Hu Hu'. apply (b_dis3 _ _ _ I u Hu'). apply elem_alloc_aus. eauto. }
  destruct (forest_union _ _ _ _ F1 F2) as [F Hd].
  { intros r1 r2 U1 V2 H1 ->%elem_of_singleton HU1 HV2 u Hu1 Hu2. rewrite (units_det _ _ _ _ HV2 U2), E2 in Hu2. apply (Hin u Hu2).
    apply (summarizes_aus _ _ _ _ S1). eauto. }
  assert (Em : LBranch.merge_disk (bdv s) (LBranch.disk b) = bdv s ∪ LBranch.disk b) by (unfold LBranch.merge_disk; by apply map_union_comm).
  assert (Hnd : au (LBranch.root b) ∉ dom (ABB.branch_summary s)).
  { intros (r&Hr&E)%(summarizes_dom _ _ _ _ F1 S1). apply (Hin _ Hroot). rewrite <-E. by apply (i_root_unit _ _ _ I). }
  assert (Hold : ∀ r, r ∈ tr s σ → ∀ a, branch_page (bdv s) r a → (bdv s ∪ LBranch.disk b) !! a = bdv s !! a).
  { intros r Hr. by eapply union_local. }
  assert (Hnew : ∀ a, branch_page (LBranch.disk b) (LBranch.root b) a → (bdv s ∪ LBranch.disk b) !! a = LBranch.disk b !! a).
  { intros a Ha. rewrite map_union_comm by done. eapply union_local; [exact F2|by symmetry|by apply elem_of_singleton|done]. }
  split; rewrite ?Em; try done.
  - intros u U. rewrite lookup_insert_Some, (S1 u U). split.
    + intros [[<- <-]|[Hne (r&Hr&<-&HU)]].
      * exists (LBranch.root b). split; [apply elem_of_union_r, elem_of_singleton; done|]. split; [done|].
        apply (local_units (LBranch.disk b)); eauto.
      * exists r. split; [by apply elem_of_union_l|]. split; [done|]. apply (local_units (bdv s)); eauto.
    + intros (r&[Hr| ->%elem_of_singleton]%elem_of_union&<-&HU).
      * right. apply (local_units (bdv s)) in HU; [|by apply (f_units _ _ F1)|eauto]. split; [|eauto].
        intros E. apply Hnd. rewrite E. apply (summarizes_dom _ _ _ _ F1 S1). eauto.
      * left. split; [done|]. apply (local_units (LBranch.disk b)) in HU; [|eauto|eauto]. by eapply units_det.
  - by apply map_union_subseteq_l.
  - rewrite summary_insert by done. by rewrite E2.
  - intros Hr. apply Hnd. apply (summarizes_dom _ _ _ _ F1 S1). eauto.
Qed.

(** ** The operations *)
Lemma grow_step s s' σ l new na : binv s σ → ABB.internal_grow s s' l new na → ∃ σ', binv s' σ' ∧ bstep s s' σ σ' l.
Proof.
  intros I (->&Hf&(_&->)&->).
  set (A := Linked.grow (atree σ) na).
  assert (Hfr : Linked.is_fresh (atree σ) {[na]}).
  { apply (i_fresh _ _ _ I). intros a ->%elem_of_singleton. destruct Hf as (F1&F2&_). set_solver. }
  assert (Hsk : skel (Linked.grow (root (ABB.betree s)) na) A) by apply skel_grow, I.
  set (x' := AllocBetree.mkState (mkBS (memtable (LikesBetree.betree σ)) A) (ABB.betree_aus s ⊎ {[+ au na +]}) (ABB.branch_aus s)).
  destruct (tree_step σ _ x' (lb_bdv (atree σ)) (i_same _ _ _ I) (b_exact _ _ _ I)) as (σ'&Hn&He&(E1&E2&E3)&Hk&Hbl&Hdom).
  { right; right; left. exists (mkBS (memtable (LikesBetree.betree σ)) A), na. done. }
  { cbn [x' AllocBetree.betree AllocBetree.buffer_aus root A Linked.grow lb_bdv]. symmetry. unfold kept_disk. apply map_filter_id.
    intros a B HB. cbn. apply (i_baus_tracked _ _ _ I); [apply (i_abdv_tracked _ _ _ I)|rewrite <-(b_abdv _ _ _ I)]; apply elem_of_dom; by eexists. }
  { intros a b Ha Hb. eapply roots_apart; [apply I|by apply (i_abdv_tracked _ _ _ I)..]. }
  cbn [x' AllocBetree.betree AllocBetree.betree_aus AllocBetree.buffer_aus] in *.
  assert (Etr : tr s σ' = tr s σ).
  { apply set_eq. intros r. rewrite !elem_tracked. rewrite Hbl. rewrite (b_abdv _ _ _ I).
    split; [tauto|]. intros [Hr|Hr]; [left|by right]. split; [done|]. apply (i_baus_tracked _ _ _ I); [apply elem_tracked; by left|done]. }
  exists σ'. eapply (step_tree _ _ _ _ _ _ {[au na]} ∅ ∅ ∅ I); proj; rewrite ?Etr; try apply I.
  - exists Internal. done.
  - done.
  - by rewrite <-E1.
  - rewrite <-E1. apply I.
  - done.
  - done.
  - done.
  - done.
  - intros a. cbn [Linked.grow lb_dv]. rewrite dom_insert_L. rewrite elem_of_union, elem_of_singleton, elem_mdom, gmultiset_elem_of_disj_union. intros [->|Ha].
    + right. by apply gmultiset_elem_of_singleton.
    + left. rewrite <-elem_mdom. by apply (b_nodes _ _ _ I).
  - done.
  - rewrite difference_empty_L. apply set_eq. intros u. rewrite elem_of_union, elem_of_singleton. rewrite !elem_mdom. rewrite gmultiset_elem_of_disj_union, gmultiset_elem_of_singleton. done.
  - apply empty_subseteq.
  - set_solver.
  - apply empty_subseteq.
  - set_solver.
  - apply empty_subseteq.
  - cbn. congruence.
  - done.
  - rewrite <-E1. apply (b_query _ _ _ I).
  - done.
  - set_solver.
Qed.
Lemma split_step s s' σ l new key d rq na pa : binv s σ → ABB.internal_split s s' l new key d rq na pa → ∃ σ', binv s' σ' ∧ bstep s s' σ σ' l.
Proof.
  intros I (alls&deallocs&->&Hf&_&_&_&(_&Hc&Hv&Hvw&Enew)&->&->&Hdv&Hbdv&->). unfold ABB.linked in *.
  pose proof (b_skel _ _ _ I) as Hsk.
  rewrite (skel_can_split _ _ rq (skel_target _ _ key d Hsk)) in Hc. apply (skel_replacement _ _ _ _ _ _ _ Hsk) in Hv.
  pose proof (skel_post_split _ _ key d rq na pa Hsk) as Hps.
  rewrite (skel_split_likes _ _ _ _ _ _ _ _ _ Hsk) in *.
  set (aus := internal_split_au_likes (atree σ) key d rq na pa (ABB.betree_aus s) (ABB.branch_aus s)) in *.
  set (W := Linked.post_split (atree σ) key d rq na pa) in *.
  set (A := mkLB (lb_root (root new)) (lb_dv (root new)) (kept_disk (lb_bdv W) aus.2)).
  assert (Hsk' : skel (root new) A) by done.
  assert (HvA : Linked.valid_view W A).
  { eapply skel_view; [exact Hps|exact Hsk'|exact Hvw|]. apply kept_agrees. }
  assert (Hfr : Linked.is_fresh (atree σ) (split_repr na ∪ list_to_set pa)).
  { apply (i_fresh _ _ _ I). intros a Ha. destruct Hf as (F1&F2&_).
    assert (Hau : au a ∈ to_aus (split_repr na) ∪ seq_addrs_to_aus pa).
    { unfold seq_addrs_to_aus. rewrite <-to_aus_union. apply elem_to_aus. eauto. }
    split; intros Hx; [exact (F1 _ Hx Hau)|exact (F2 _ Hx Hau)]. }
  assert (EW : lb_bdv W = lb_bdv (atree σ)) by apply bdv_post_split.
  set (x' := AllocBetree.mkState (mkBS (memtable (LikesBetree.betree σ)) A) aus.1 aus.2).
  destruct (tree_step σ _ x' (lb_bdv W) (i_same _ _ _ I) (b_exact _ _ _ I)) as (σ'&Hn&He&(E1&E2&E3)&Hk&Hbl&Hdom).
  { do 3 right; left. exists (mkBS (memtable (LikesBetree.betree σ)) A), key, d, rq, na, pa. split; [done|]. split; [done|].
    cbv zeta. split; [|done]. split; [|apply kept_counted]. cbn [AllocBetree.betree AllocBetree.betree_aus AllocBetree.buffer_aus root A lb_dv].
    fold aus. fold W. destruct Hps as [_ <-]. by rewrite Hdv. }
  { done. }
  { rewrite EW. intros a b Ha Hb. eapply roots_apart; [apply I|by apply (i_abdv_tracked _ _ _ I)..]. }
  cbn [x' AllocBetree.betree AllocBetree.betree_aus AllocBetree.buffer_aus] in *.
  assert (Etr : tr s σ' = tr s σ).
  { apply set_eq. intros r. rewrite !elem_tracked. rewrite Hbl, EW. rewrite (b_abdv _ _ _ I).
    split; [tauto|]. intros [Hr|Hr]; [left|by right]. split; [done|]. unfold aus, internal_split_au_likes. cbn [snd].
    rewrite elem_mdom, gmultiset_elem_of_disj_union. left. rewrite <-elem_mdom.
    apply (i_baus_tracked _ _ _ I); [apply elem_tracked; by left|done]. }
  exists σ'. eapply (step_tree _ _ _ _ _ _ (to_aus (split_repr na) ∪ seq_addrs_to_aus pa) (mdom (ABB.betree_aus s) ∖ mdom aus.1) ∅ ∅ I); proj; rewrite ?Etr; try apply I.
  - exists Internal. done.
  - done.
  - by rewrite <-E1.
  - rewrite <-E1, Enew. apply I.
  - done.
  - done.
  - done.
  - done.
  - rewrite <-Hbdv. apply I.
  - rewrite <-Hbdv. apply I.
  - intros a. rewrite <-Hdv. unfold restrict_domain_au. by intros [? _]%elem_of_filter.
  - done.
  - assert (EY : mdom (to_au_likes (add_betree_likes (split_likes na) pa)) = to_aus (split_repr na) ∪ seq_addrs_to_aus pa).
    { unfold seq_addrs_to_aus. rewrite <-to_aus_union, mdom_au. f_equal. unfold add_betree_likes, split_likes, split_repr.
      rewrite !mdom_union, mdom_list, !mdom_single. set_solver. }
    rewrite <-EY. eapply mdom_change; [done|]. rewrite EY. apply Hf.
  - set_solver.
  - set_solver.
  - apply empty_subseteq.
  - set_solver.
  - apply empty_subseteq.
  - rewrite <-Hbdv. congruence.
  - by rewrite <-Hbdv.
  - intros Hf'. rewrite <-Hbdv, <-E1. cbn [A root lb_bdv]. intros r B n [HB _]%kept_lookup. rewrite EW in HB. by apply (b_query _ _ _ I).
  - done.
  - set_solver.
Qed.
End Ops.
