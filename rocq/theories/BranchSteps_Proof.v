(** The steps of the be-tree whose buffers are branches keep the invariant (C42, C43). *)
From Verif Require Import Spec_Model Spec_Proof Abs_Model Betree_Model Betree_Spec Route_Proof Branch_Spec Branch_Proof BranchPages_Proof BranchBuild_Proof.
From Verif Require Import LinkedBetree_Model LinkedBetree_Spec LikesBetree_Model LikesBetree_Spec LinkedBetree_Proof LinkedBetree_Facts
  LikesTree_Proof LikesOps_Proof LikesBetree_Proof LikesBetree_Facts BranchSkel_Proof BranchCompact_Proof
  BranchBetree_Model BranchBetree_Spec BranchBuffer_Proof BranchForest_Proof BranchBetree_Proof.
From Coq Require Import ZifyBool ZifyNat ZifyN Lia.
Implicit Types (s : ABB.State) (σ : LikesBetree.State) (r a : Address).

Ltac proj := cbn [ABB.betree ABB.betree_aus ABB.branch_aus ABB.branch_summary ABB.compactors ABB.wip_branches root memtable lb_root lb_dv lb_bdv unit_allocs unit_frees] in *.
Section Steps.
Context `{Geometry} (fixed grow : bool).
Local Instance bb : Buffer BranchNode := branch_buffer fixed.
Notation bdv s := (lb_bdv (root (ABB.betree s))).
Notation atree σ := (root (LikesBetree.betree σ)).
Notation tr s σ := (tracked (LikesBetree.buf_likes σ) (ABB.compactors s)).
Notation binv := (binv fixed).
Notation bstep := (bstep fixed).

(** ** Steps that leave the tree alone *)
Lemma noop_likes σ alls deallocs : ∃ lb, LikesBetree.next σ σ lb ∧ ∀ al, betree_event linked_answers lb al → branch_event (ABB.Int alls deallocs) al.
Proof. exists Internal. split; [do 7 right; done|done]. Qed.
Lemma kept_refl (l : BLB) : branch_pages_kept l l.
Proof. split; congruence. Qed.
Lemma step_wips s σ ws A D : binv s σ → ABB.is_fresh s A →
  ABB.alloc_aus ws = (ABB.alloc_aus (ABB.wip_branches s) ∪ A) ∖ D → D ⊆ ABB.alloc_aus (ABB.wip_branches s) → apart_list ws →
  (∀ i w, ws !! i = Some w → ∃ free ls, good free ls w) →
  binv (ABB.mkState (ABB.betree s) (ABB.betree_aus s) (ABB.branch_aus s) (ABB.branch_summary s) (ABB.compactors s) ws) σ ∧
  bstep s (ABB.mkState (ABB.betree s) (ABB.betree_aus s) (ABB.branch_aus s) (ABB.branch_summary s) (ABB.compactors s) ws) σ σ (ABB.Int A D).
Proof.
  intros I (F1&F2&F3) Ews HD Hap Hg.
  pose proof (b_dis1 _ _ _ I) as D1. pose proof (b_dis2 _ _ _ I) as D2. pose proof (b_dis3 _ _ _ I) as D3. unfold ABB.branch_allocator_aus in *.
  split.
  - destruct I. constructor; try done; unfold ABB.branch_allocator_aus; proj.
    + rewrite Ews. intros u Hu [[Hw|Hw]%elem_of_union _]%elem_of_difference; [by eapply D2|by eapply F1].
    + rewrite Ews. intros u Hu [[Hw|Hw]%elem_of_union _]%elem_of_difference; [by eapply D3|by eapply F2].
  - constructor; cbn [unit_allocs unit_frees].
    + intros _. apply noop_likes.
    + apply kept_refl.
    + done.
    + unfold held, ABB.branch_allocator_aus. proj. rewrite Ews. apply set_eq. intros u.
      rewrite !elem_of_union, !elem_of_difference, !elem_of_union. specialize (D2 u). specialize (D3 u). specialize (HD u).
      destruct (decide (u ∈ D)) as [Hd|Hd]; [|tauto]. specialize (HD Hd). tauto.
    + unfold held, ABB.branch_allocator_aus. intros u Hu [[Hx|Hx]%elem_of_union|Hx]%elem_of_union; [by eapply F1|by eapply F2|by eapply F3].
    + unfold held, ABB.branch_allocator_aus. intros u Hu. apply elem_of_union_r. by apply HD.
Qed.
Lemma begin_step s s' σ l : binv s σ → ABB.branch_begin s s' l → binv s' σ ∧ bstep s s' σ σ l.
Proof.
  intros I (alls&->&Hf&->).
  assert (Enew : all_aus (ABranch.mini_allocator (ABranch.new alls)) = alls).
  { cbn [ABranch.new ABranch.mini_allocator]. rewrite add_all. unfold all_aus, ma_empty. cbn. rewrite dom_empty_L. set_solver. }
  assert (Hlk : ∀ i w, (ABB.wip_branches s ++ [ABranch.new alls]) !! i = Some w →
    (ABB.wip_branches s !! i = Some w) ∨ (i = length (ABB.wip_branches s) ∧ w = ABranch.new alls)).
  { intros i w. rewrite lookup_app_Some. intros [?|[Hge Hi]]; [by left|right]. apply list_lookup_singleton_Some in Hi as [E <-]. split; [lia|done]. }
  assert (Hold : ∀ i w, ABB.wip_branches s !! i = Some w → all_aus (ABranch.mini_allocator w) ## alls).
  { intros i w Hi u Hu Hu'. destruct Hf as (_&_&F3). apply (F3 u); [|done]. apply elem_alloc_aus. eauto. }
  apply step_wips; [done|done| | | |].
  - apply set_eq. intros u. rewrite elem_of_difference, elem_of_union, !elem_alloc_aus. split.
    + intros (i&w&[Hi|[-> ->]]%Hlk&Hu); (split; [|apply not_elem_of_empty]); [left; eauto|right; by rewrite <-Enew].
    + intros [[(i&w&Hi&Hu)|Hu] _].
      * exists i, w. split; [by apply lookup_app_l_Some|done].
      * exists (length (ABB.wip_branches s)), (ABranch.new alls). split; [|by rewrite Enew].
        rewrite lookup_app_r, Nat.sub_diag by done. done.
  - apply empty_subseteq.
  - intros i j w w' Hi Hj Hne. apply Hlk in Hi as [Hi|[-> ->]], Hj as [Hj|[-> ->]]; [|rewrite Enew..|done].
    + by eapply (b_wips _ _ _ I).
    + by eapply Hold.
    + symmetry. by eapply Hold.
  - intros i w [Hi|[_ ->]]%Hlk; [by eapply (b_wip _ _ _ I)|]. exists alls, []. apply good_new.
Qed.
Lemma build_units w0 w e alls deallocs : ABranch.build_next_grow w0 w (e, alls, deallocs) →
  all_aus (ABranch.mini_allocator w) = (all_aus (ABranch.mini_allocator w0) ∪ alls) ∖ deallocs ∧
  deallocs ⊆ all_aus (ABranch.mini_allocator w0).
Proof.
  assert (Hsub : ∀ m, removable_aus m ⊆ all_aus m).
  { intros m u (p&Hp&_)%elem_removable_aus. apply elem_of_dom. by eexists. }
  intros [Hn|(a&[= -> -> ->]&(_&b&_&Hc&_)&->)].
  2: { cbn [ABranch.branch_grow ABranch.mini_allocator]. rewrite allocate_all by done. set_solver. }
  destruct e; cbn in Hn.
  - destruct Hn as (->&->&Hc&->). cbn [ABranch.branch_initialize ABranch.mini_allocator]. rewrite allocate_all by apply Hc. set_solver.
  - destruct Hn as (->&->&Hc&->). cbn [ABranch.branch_append ABranch.mini_allocator]. set_solver.
  - destruct Hn as (->&->&(_&b&_&Hc&_)&->). cbn [ABranch.branch_split ABranch.mini_allocator]. rewrite allocate_all by done. set_solver.
  - destruct Hn as (->&Hc&->). cbn [ABranch.mini_allocator_fill ABranch.mini_allocator]. rewrite add_all. set_solver.
  - destruct Hn as (->&(_&b&_&_&Hc&<-)&->). split; [|done]. destruct aux_ptr as [a|]; cbn [ABranch.branch_seal ABranch.mini_allocator]; rewrite prune_all.
    + rewrite allocate_all by by apply Hc. set_solver.
    + set_solver.
  - done.
Qed.
Lemma build_step s s' σ l idx w e : binv s σ → ABB.branch_build grow s s' l idx w e → binv s' σ ∧ bstep s s' σ σ l.
Proof.
  intros I (alls&deallocs&w0&->&Hf&Hi&Hb&->).
  assert (Hb' : ABranch.build_next_grow w0 w (e, alls, deallocs)) by (unfold ABB.builds in Hb; destruct grow; [done|by left]).
  destruct (build_units _ _ _ _ _ Hb') as [Ew Hd]. pose proof (lookup_lt_Some _ _ _ Hi) as Hlt.
  assert (Hlk : ∀ j x, <[idx:=w]> (ABB.wip_branches s) !! j = Some x → (j = idx ∧ x = w) ∨ (j ≠ idx ∧ ABB.wip_branches s !! j = Some x)).
  { intros j x. rewrite list_lookup_insert_Some. intros [(->&<-&_)|[? ?]]; [by left|right; split; done]. }
  assert (Hoth : ∀ j x, j ≠ idx → ABB.wip_branches s !! j = Some x → all_aus (ABranch.mini_allocator x) ## all_aus (ABranch.mini_allocator w)).
  { intros j x Hne Hj u Hu Hu'. rewrite Ew in Hu'. apply elem_of_difference in Hu' as [[Hu'|Hu']%elem_of_union _].
    - exact (b_wips _ _ _ I _ _ _ _ Hj Hi Hne u Hu Hu').
    - destruct Hf as (_&_&F3). apply (F3 u); [|done]. apply elem_alloc_aus. eauto. }
  apply step_wips; [done|done| | | |].
  - apply set_eq. intros u. rewrite elem_of_difference, elem_of_union, !elem_alloc_aus. split.
    + intros (j&x&[[-> ->]|[Hne Hj]]%Hlk&Hu).
      * rewrite Ew in Hu. apply elem_of_difference in Hu as [[Hu|Hu]%elem_of_union Hn]; (split; [|done]); eauto.
      * split; [left; eauto|]. intros Hd'. exact (b_wips _ _ _ I _ _ _ _ Hj Hi Hne u Hu (Hd _ Hd')).
    + intros [[(j&x&Hj&Hu)|Hu] Hn].
      * destruct (decide (j = idx)) as [->|Hne].
        -- exists idx, w. split; [by apply list_lookup_insert|]. rewrite Ew. assert (x = w0) by congruence. subst. set_solver.
        -- exists j, x. split; [by rewrite list_lookup_insert_ne|done].
      * exists idx, w. split; [by apply list_lookup_insert|]. rewrite Ew. set_solver.
  - intros u Hu%Hd. apply elem_alloc_aus. eauto.
  - intros j k x y Hj Hk Hne. apply Hlk in Hj as [[-> ->]|[Hj Hj']], Hk as [[-> ->]|[Hk Hk']].
    + done.
    + symmetry. by eapply Hoth.
    + by eapply Hoth.
    + by eapply (b_wips _ _ _ I).
  - intros j x [[-> ->]|[_ Hj]]%Hlk; [|by eapply (b_wip _ _ _ I)]. destruct (b_wip _ _ _ I _ _ Hi) as (free&ls&Hg).
    eexists free, _. by eapply good_next.
Qed.
Lemma abort_step s s' σ l idx : binv s σ → ABB.branch_abort s s' l idx → binv s' σ ∧ bstep s s' σ σ l.
Proof.
  intros I (w&Hi&->&->). destruct (delete_alloc _ _ _ Hi (b_wips _ _ _ I)) as (Hap&Ed&Hs).
  apply step_wips; [done| | |done|done|].
  - split_and!; apply disjoint_empty_r.
  - rewrite Ed. set_solver.
  - intros j x (j'&Hj&_)%delete_lookup. by eapply (b_wip _ _ _ I).
Qed.
Lemma compact_begin_step s s' σ l key d i j input : binv s σ → ABB.internal_compact_begin s s' l key d i j input → binv s' σ ∧ bstep s s' σ σ l.
Proof.
  intros I (->&(Hp&Hr&Hij&Ein&_)&->).
  assert (Etr : tracked (LikesBetree.buf_likes σ) (ABB.compactors s ++ [input]) = tr s σ).
  { apply set_eq. intros r. rewrite !elem_tracked, !elem_inputs. split.
    - intros [Hb|(c&[Hc|Hc]%elem_of_app&Hrc)]; [by left|right; eauto|]. apply elem_of_list_singleton in Hc as ->. left.
      rewrite Ein in Hrc. apply (i_bufs _ _ _ I). eapply target_reach; [exact Hp|]. by eapply elem_subrange.
    - intros [Hb|(c&Hc&Hrc)]; [by left|right]. exists c. split; [|done]. apply elem_of_app. by left. }
  split.
  - destruct I. constructor; proj; try done; by rewrite Etr.
  - constructor; proj.
    + intros _. apply noop_likes.
    + apply kept_refl.
    + done.
    + unfold held, ABB.branch_allocator_aus. proj. set_solver.
    + apply disjoint_empty_l.
    + apply empty_subseteq.
Qed.

(** ** Steps that change the tree or the branches *)
Lemma agree_old s σ d' r B n : binv s σ → fixed = true → lb_bdv (atree σ) !! r = Some B →
  (∀ a, branch_page (bdv s) r a → d' !! a = bdv s !! a) → stores d' r n → ∀ k, buf_query B k = PBranch.query n k.
Proof.
  intros I Hf HB Hl Hst k. assert (Hr : r ∈ tr s σ) by (apply (i_abdv_tracked _ _ _ I), elem_of_dom; by eexists).
  destruct (f_tree _ _ (b_forest _ _ _ I) r Hr) as (n0&Hn0&_).
  assert (Hn1 : stores d' r n0) by (eapply local_stores; [|exact Hn0]; eauto).
  rewrite (stores_det _ _ _ _ Hst Hn1). by eapply (b_query _ _ _ I).
Qed.
Lemma step_tree s s' σ σ' l A Dn Ds X :
  binv s σ → (∃ lb, LikesBetree.next σ σ' lb ∧ ∀ al, betree_event linked_answers lb al → branch_event l al) → sexact σ' →
  skel (root (ABB.betree s')) (atree σ') → memtable (ABB.betree s') = memtable (LikesBetree.betree σ') →
  ABB.betree_aus s' = to_au_likes (LikesBetree.betree_likes σ') → ABB.branch_aus s' = to_au_likes (LikesBetree.buf_likes σ') →
  pages_kept (atree σ) (atree σ') → dom (lb_bdv (atree σ')) = mdom (LikesBetree.buf_likes σ') →
  forest (bdv s') (tr s' σ') → summarizes (ABB.branch_summary s') (bdv s') (tr s' σ') →
  (∀ a, a ∈ dom (lb_dv (root (ABB.betree s'))) → au a ∈ mdom (ABB.betree_aus s')) →
  ABB.is_fresh s A →
  mdom (ABB.betree_aus s') = (mdom (ABB.betree_aus s) ∪ A) ∖ Dn → Dn ⊆ mdom (ABB.betree_aus s) →
  summary_aus (ABB.branch_summary s') = (summary_aus (ABB.branch_summary s) ∪ X) ∖ Ds → Ds ⊆ summary_aus (ABB.branch_summary s) →
  ABB.alloc_aus (ABB.wip_branches s') = ABB.alloc_aus (ABB.wip_branches s) ∖ X → X ⊆ ABB.alloc_aus (ABB.wip_branches s) →
  apart_list (ABB.wip_branches s') → (∀ i w, ABB.wip_branches s' !! i = Some w → ∃ free ls, good free ls w) →
  (∀ a b b', bdv s !! a = Some b → bdv s' !! a = Some b' → b' = b) →
  (∀ r, r ∈ tr s σ → r ∈ tr s' σ' → ∀ a, branch_page (bdv s) r a → bdv s' !! a = bdv s !! a) →
  (fixed = true → agree (bdv s') (lb_bdv (atree σ'))) →
  unit_allocs l = A → unit_frees l = Dn ∪ Ds →
  binv s' σ' ∧ bstep s s' σ σ' l.
Proof.
  intros I Hl He Hsk Hmt Ha Hb Hk Hd HF HS Hn (F1&F2&F3) EN HDn ES HDs EW HX Hap Hg Hbk Hsame Hag EA ED.
  unfold ABB.branch_allocator_aus in F3.
  destruct (acct_sets _ _ _ _ _ _ _ _ _ _ (b_dis1 _ _ _ I) (b_dis2 _ _ _ I) (b_dis3 _ _ _ I) F1 F2 F3 EN HDn ES HDs EW HX)
    as (A1&A2&A3&A4&A5&A6).
  split; [by constructor|]. constructor.
  - done.
  - destruct (b_skel _ _ _ I) as [_ E1]. destruct Hsk as [_ E2]. destruct Hk as [Hk _]. split; [|done]. by rewrite E1, E2.
  - done.
  - rewrite EA, ED. unfold held, ABB.branch_allocator_aus. exact A4.
  - rewrite EA. exact A5.
  - rewrite ED. exact A6.
Qed.

(** *** The unit counts *)
Lemma mdom_change (N1 : gset AU) (B X Y : gmultiset nat) : N1 = mdom (B ∖ X ⊎ Y) → mdom B ## mdom Y →
  N1 = (mdom B ∪ mdom Y) ∖ (mdom B ∖ N1).
Proof.
  intros -> Hd. apply set_eq. intros u. specialize (Hd u). rewrite !elem_of_difference, elem_of_union. 
  rewrite !elem_mdom in Hd. repeat rewrite elem_mdom. rewrite gmultiset_elem_of_disj_union.
  assert (Hs : u ∈ B ∖ X → u ∈ B) by multiset_solver. destruct (decide (u ∈ B)), (decide (u ∈ Y)), (decide (u ∈ B ∖ X)); tauto.
Qed.
Lemma kept_counted W aus : restrict_domain_au W (mdom aus) ⊆ dom (kept_disk W aus).
Proof. unfold restrict_domain_au. intros a [Ha [x Hx]%elem_of_dom]%elem_of_filter. apply elem_of_dom. exists x. by apply kept_lookup. Qed.
Lemma kept_agrees W aus : Linked.bd_agrees (kept_disk W aus) W.
Proof. intros a x y [Hx _]%kept_lookup Hy. congruence. Qed.
Lemma to_aus_union X Y : to_aus (X ∪ Y) = to_aus X ∪ to_aus Y.
Proof. unfold to_aus. by rewrite set_map_union_L. Qed.
Lemma mdom_list (L : list Address) : mdom (to_likes L) = list_to_set L.
Proof. apply set_eq. intros a. rewrite elem_mdom, elem_of_list_to_set. unfold to_likes. by rewrite elem_of_list_to_set_disj. Qed.
Lemma mdom_union (X Y : gmultiset Address) : mdom (X ⊎ Y) = mdom X ∪ mdom Y.
Proof. apply set_eq. intros a. rewrite elem_of_union, !elem_mdom. multiset_solver. Qed.
Lemma mdom_single a : mdom ({[+ a +]} : gmultiset Address) = {[ a ]}.
Proof. apply set_eq. intros b. rewrite elem_mdom. rewrite gmultiset_elem_of_singleton. by rewrite elem_of_singleton. Qed.
End Steps.
