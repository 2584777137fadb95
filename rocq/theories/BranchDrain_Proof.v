(** Flushes alone bring all messages of the be-tree of branches to its leaves
    (C56). *)
From Verif Require Import Spec_Model Spec_Proof Abs_Model Betree_Model Betree_Spec Route_Proof Routed_Proof Branch_Spec Branch_Proof BranchPages_Proof BranchBuild_Proof.
From Verif Require Import LinkedBetree_Model LinkedBetree_Spec LikesBetree_Model LikesBetree_Spec LinkedBetree_Proof LinkedBetree_Facts
  LikesTree_Proof LikesOps_Proof LikesBetree_Proof LikesBetree_Facts BranchSkel_Proof BranchCompact_Proof
  BranchBetree_Model BranchBetree_Spec BranchBuffer_Proof BranchForest_Proof BranchBetree_Proof BranchSteps_Proof BranchOps_Proof BranchFlush_Proof
  BranchBetree_Facts BranchLive_Spec BranchLive_Proof BranchFlow_Proof TreeFlow_Spec TreeFlow_Proof TreeShape_Proof TreeSettle_Proof.
From Verif Require FilteredBetree_Proof.
From Coq Require Import ZifyBool ZifyNat ZifyN Lia.
Implicit Types (s : ABB.State) (σ : LikesBetree.State) (t : FTree).

Lemma dry_disk (l : SLB) t : lrepr l t → dry t → drained l.
Proof.
  destruct l as [p dv bdv]. intros Hr Hs a n [is Hl] Hn. unfold node_ref in Hl. cbn [lb_root lb_dv lb_bdv] in *. revert t Hr Hs.
  induction Hl as [a n' Hn'|a n' i q is b Hn' Hi Hl IH]; intros t Hr Hs;
    destruct (repr_Some _ _ _ _ _ Hn' Hr) as (c&chs&->&Hf&Hb&Hc).
  - rewrite Hn in Hn'. injection Hn' as <-. inversion Hs as [|? ? ? He Hc0]; subst.
    + right. inversion Hc as [|q y qs ys Hq Hqs E1 E2]; subst. inversion Hqs; subst. apply repr_nil in Hq as ->. done.
    + left. rewrite He in Hb. by inversion Hb.
  - destruct (Forall2_lookup_l _ _ _ _ _ Hc Hi) as (y&Hy&Ry). inversion Hs as [|? ? ? He Hc0]; subst.
    + destruct i as [|i]; [|done]. injection Hy as <-. apply repr_nil in Ry as ->. inversion Hl.
    + eapply IH; [done|exact Ry|by eapply Hc0].
Qed.
Lemma skel_shape {T T'} (l : LinkedBetree T) (l' : LinkedBetree T') : skel l l' → leaves_and_full_nodes l → leaves_and_full_nodes l'.
Proof. intros [E1 E2] H a n [is Hl] Hn. rewrite <-E2 in Hn. apply (H a n); [|done]. exists is. unfold node_ref in *. by rewrite E1, E2. Qed.
Lemma skel_drained {T T'} (l : LinkedBetree T) (l' : LinkedBetree T') : skel l l' → drained l → drained l'.
Proof. intros [E1 E2] H a n [is Hl] Hn. rewrite <-E2 in Hn. apply (H a n); [|done]. exists is. unfold node_ref in *. by rewrite E1, E2. Qed.

Section Drain.
Context `{Geometry} (fixed grow : bool).
Local Instance bb : Buffer BranchNode := branch_buffer fixed.
Notation ndv s := (lb_dv (root (ABB.betree s))).
Notation atree σ := (root (LikesBetree.betree σ)).
Notation binv := (binv fixed).
(** The node pages of the tree, with other buffers. *)
Definition over s (X : gmap Address SB) : SLB := mkLB (lb_root (root (ABB.betree s))) (ndv s) X.
Lemma over_skel s X : skel (root (ABB.betree s)) (over s X).
Proof. done. Qed.
Lemma units_exist s σ (Y : gset AU) n : binv s σ → ∃ us, length us = n ∧ base.NoDup us ∧ Forall (λ u, ¬ needed s u) us ∧ (list_to_set us : gset AU) ## Y.
Proof.
  intros I. set (Z := held s ∪ Y). exists (fresh_list n Z). pose proof (fresh_list_is_fresh n Z) as Hf.
  split; [apply fresh_list_length|]. split; [apply NoDup_fresh_list|]. split.
  - apply stdpp.list.Forall_forall. intros u Hu Hn. apply (needed_iff _ _ _ _ I) in Hn. specialize (Hf u Hu). unfold Z in Hf. set_solver.
  - intros u Hu%elem_of_list_to_set Hy. specialize (Hf u Hu). unfold Z in Hf. set_solver.
Qed.
Lemma drain_step s0 b ls s X t t' : ABB.initialize s0 b → nodes_apart (root b) → run (ABB.next fixed grow) s0 ls s →
  lrepr (over s X) t → t ≠ RNil → rstep false t t' →
  ∃ s' alls deallocs, ABB.next fixed grow s s' (ABB.Int alls deallocs) ∧ memtable (ABB.betree s') = memtable (ABB.betree s) ∧ lrepr (over s' X) t'.
Proof.
  intros Hi Hap Hr Ht Hne Hst. destruct (abb_inv _ _ _ _ _ _ Hi Hr) as [σ I]. pose proof (b_skel _ _ _ I) as Hsk.
  destruct (b_exact _ _ _ I) as ((Hwa&_)&_). set (l := over s X) in *.
  assert (Hw : Linked.wf l) by (apply (skel_wf _ _ (over_skel s X)); by apply (skel_wf _ _ Hsk)).
  pose proof (proj1 (repr_wf _ _ _ _ (proj1 Hw) Ht)) as Hwt.
  destruct (rstep_path _ _ _ Hst Hwt Hne) as (key&d&u&Hv&Hp&->). pose proof (repr_path _ _ _ _ Hw Ht Hv) as Hpv.
  destruct (path_repr _ _ _ _ Ht Hpv) as [_ Htr]. pose proof (target_wf' _ _ _ Hpv) as Hwt'.
  destruct Hp as [(i&gc&Hc&Hci&->)|[? _]]; [|done].
  pose proof (flush_lift _ _ _ _ Hwt' Htr Hc Hci) as Hlc.
  destruct (units_exist s σ (to_aus (dom X)) (S (S d)) I) as (us&Hlen&Hnd&HF&Hdx). destruct us as [|u [|v us]]; [done|done|]. injection Hlen as Hlen.
  pose proof Hpv as Hpv'. apply (skel_path_valid _ _ key d (over_skel s X)) in Hpv'.
  pose proof Hlc as Hlc'. apply (skel_can_flush _ _ i gc (skel_target _ _ key d (over_skel s X))) in Hlc'.
  destruct (run_can_flush fixed grow s0 b ls s key d i gc u v us Hi Hap Hr Hpv' Hlc' Hlen Hnd HF) as (s'&ds&new&na&pa&Hfl).
  exists s', (list_to_set (u :: v :: us)), ds. split; [do 7 right; left; by exists new, key, d, i, gc, na, pa|].
  destruct Hfl as (alls&ds'&El&Hfr&_&_&_&(_&_&Hvp&Hvw&Enew)&Hrest). cbv zeta in Hrest. destruct Hrest as (Ea&_&_&_&->). cbn [ABB.betree].
  split; [by rewrite Enew|]. unfold over. cbn [ABB.betree].
  apply (skel_replacement _ (over s X) _ _ _ _ _ (over_skel s X)) in Hvp. fold l in Hvp. destruct Hvp as (_&Hnp&Hlp&Hna&Hdj).
  assert (Hau : ∀ a, a ∈ two_repr na ∪ list_to_set pa → au a ∈ alls).
  { intros a Ha. rewrite Ea. unfold seq_addrs_to_aus. rewrite <-to_aus_union. apply elem_to_aus. eauto. }
  assert (Hal : alls = list_to_set (u :: v :: us)) by congruence.
  assert (Hfra : Linked.is_fresh l (two_repr na ∪ list_to_set pa)).
  { destruct (fresh_pages _ _ _ (two_repr na) pa alls I Hfr) as [Hf1 _]; [by rewrite Ea|]. destruct Hsk as [_ E2].
    split; [unfold l, over; cbn [lb_dv]; by rewrite E2|]. intros a Ha Hin. apply Hau in Hin. rewrite Hal in Hin. apply (Hdx _ Hin).
    apply elem_to_aus. eauto. }
  destruct (fresh_sub _ _ _ Hfra) as [Hf1 Hf2]. destruct (target_disk l key d) as [E1 E2].
  pose proof (flush_repr _ _ i gc na Htr Hlc Hna (fresh_target _ _ _ _ Hf1)) as He. unfold extends in He. rewrite E1, E2 in He.
  destruct (substitute_repr l key d _ t _ _ pa Ht Hpv Hlp Hnp ltac:(destruct Hf2; set_solver) Hdj He) as [(_&_&_&Hx) _].
  fold (Linked.post_flush l key d i gc na pa) in Hx. set (W := Linked.post_flush l key d i gc na pa) in *.
  assert (EX : lb_bdv W = X) by apply bdv_post_flush.
  apply (view_repr W (mkLB (lb_root (root new)) (lb_dv (root new)) X)); [| |exact Hx].
  - eapply skel_view; [apply skel_post_flush, (over_skel s X)|done|exact Hvw|]. cbn [lb_bdv]. fold l. fold W. rewrite EX. intros a x y Hx1 Hx2. congruence.
  - intros ba Hba. cbn [lb_bdv]. rewrite <-EX. by apply (preserved_refl _ _ Hx).
Qed.
(** The steps keep the shape and the contents, with the membership test of C42. *)
Lemma branches_shape s0 b ls s : fixed = true → ABB.initialize s0 b → run (ABB.next fixed grow) s0 ls s → leaves_and_full_nodes (root b) →
  leaves_and_full_nodes (root (ABB.betree s)).
Proof.
  intros Hf Hi Hr Hs. destruct (abb_init fixed _ _ Hi) as (σ0&b'&_&I0&_&Eb). rewrite <-Eb in Hs.
  assert (∃ σ, binv s σ ∧ leaves_and_full_nodes (atree σ)) as (σ&I&Hσ); [|exact (skel_shape _ _ (skel_sym _ _ (b_skel _ _ _ I)) Hσ)].
  clear Hi b Eb b'. induction Hr as [s|s ls s1 l s2 Hr IH Hn]; [exists σ0; split; [done|exact (skel_shape _ _ (b_skel _ _ _ I0) Hs)]|].
  destruct (IH Hs I0) as (σ&I&Hσ). destruct (abb_step _ _ _ _ _ _ I Hn) as (σ'&I'&St). exists σ'. split; [done|].
  destruct (st_like _ _ _ _ _ _ St Hf) as (lb&Hlb&_). destruct (likes_strong _ _ _ (b_exact _ _ _ I) Hlb) as [Hst _].
  eapply shaped_run; [apply (b_exact _ _ _ I)|exact Hσ|by eapply run_one].
Qed.
Lemma int_holds s s' σ alls ds m : fixed = true → binv s σ → ABB.next fixed grow s s' (ABB.Int alls ds) →
  state_holds branch_answers (ABB.betree s) m → state_holds branch_answers (ABB.betree s') m.
Proof.
  intros Hf I Hn Hm.
  assert (Hiff : ∀ s σ, binv s σ → state_holds branch_answers (ABB.betree s) m ↔ state_holds linked_answers (LikesBetree.betree σ) m).
  { clear -Hf. intros s σ I. unfold state_holds, holds. rewrite (b_mt _ _ _ I).
    split; intros (base&Hb&Hk); exists base; (split; [|done]); intros k v; rewrite <-(Hb k v); [symmetry|]; by apply (branch_answers_iff fixed). }
  destruct (abb_step _ _ _ _ _ _ I Hn) as (σ'&I'&St). rewrite (Hiff _ _ I) in Hm. rewrite (Hiff _ _ I').
  destruct (st_like _ _ _ _ _ _ St Hf) as (lb&Hlb&Hev). destruct (likes_strong _ _ _ (b_exact _ _ _ I) Hlb) as [Hst _].
  destruct lb as [e k v|p|img|].
  - by specialize (Hev _ eq_refl).
  - by specialize (Hev _ eq_refl).
  - assert (E : LikesBetree.betree σ' = LikesBetree.betree σ); [|by rewrite E]. clear -Hst.
    destruct Hst as [(?&Q)|[(?&[=]&_)|[(_&_&E)|Hst]]]; [unfold Linked.query in Q; naive_solver|exact E|]. exfalso.
    destruct Hst as [(?&?&?&([=]&_)&_)|[(?&([=]&_)&_)|[(?&?&?&?&?&?&([=]&_)&_)|[(?&?&?&?&?&?&?&([=]&_)&_)|[(?&?&?&?&?&?&?&?&([=]&_)&_)|[(?&[=]&_)|([=]&_)]]]]]].
  - apply (internal_holds _ _ m (proj1 (b_exact _ _ _ I)) Hst). exact Hm.
Qed.
Lemma drain_steps t t' : fixed = true → rtc (rstep false) t t' → t ≠ RNil → ∀ s0 b ls s X, ABB.initialize s0 b → nodes_apart (root b) →
  run (ABB.next fixed grow) s0 ls s → lrepr (over s X) t →
  ∃ ls' s', run (ABB.next fixed grow) s ls' s' ∧ Forall (λ l, ∃ alls deallocs, l = ABB.Int alls deallocs) ls' ∧
    memtable (ABB.betree s') = memtable (ABB.betree s) ∧ lrepr (over s' X) t' ∧
    ∀ m, state_holds branch_answers (ABB.betree s) m → state_holds branch_answers (ABB.betree s') m.
Proof.
  intros Hf. induction 1 as [t|t t1 t' H1 H2 IH]; intros Hne s0 b ls s X Hi Hap Hr Ht.
  { exists [], s. split; [constructor|]. split; [constructor|]. done. }
  destruct (abb_inv _ _ _ _ _ _ Hi Hr) as [σ I].
  destruct (drain_step _ _ _ _ _ _ _ Hi Hap Hr Ht Hne H1) as (s1&alls&ds&Hn1&Em1&Ht1).
  assert (Hne1 : t1 ≠ RNil).
  { assert (Hw : Linked.wf (over s X)) by (apply (skel_wf _ _ (over_skel s X)); apply (skel_wf _ _ (b_skel _ _ _ I)), (b_exact _ _ _ I)).
    apply (rstep_ok _ _ _ H1 (proj1 (repr_wf _ _ _ _ (proj1 Hw) Ht)) Hne). }
  destruct (IH Hne1 s0 b (ls ++ [ABB.Int alls ds]) s1 X Hi Hap) as (ls'&s'&Hr'&HF'&Em'&Ht'&Hm'); [by eapply run_snoc|done|].
  exists (ABB.Int alls ds :: ls'), s'. split; [by eapply run_cons|]. split; [constructor; [by eexists _, _|done]|]. split; [congruence|]. split; [done|].
  intros m Hm. apply Hm'. by eapply int_holds.
Qed.
Lemma branches_drain s0 b ls s u1 u2 u3 : fixed = true → ABB.initialize s0 b → nodes_apart (root b) → leaves_and_full_nodes (root b) →
  run (ABB.next fixed grow) s0 ls s →
  base.NoDup [u1; u2; u3] → Forall (λ u, u < au_count ∧ ¬ needed s u) [u1; u2; u3] → 0 < page_count →
  ∃ ls' s' img m, run (ABB.next fixed grow) s ls' s' ∧ Forall (λ l, ∃ alls deallocs, l = ABB.Int alls deallocs) ls' ∧
    ABB.next fixed grow s' s' (ABB.Lbl (FreezeAs img)) ∧ st_seq_end img = mt_seq_end (memtable (ABB.betree s)) ∧ drained (st_value img) ∧
    state_holds branch_answers (ABB.betree s) m ∧ Betree_Spec.holds linked_answers (st_value img) m.
Proof.
  intros Hf Hi Hap Hsh Hr Hnd Hu Hpc. destruct (abb_inv _ _ _ _ _ _ Hi Hr) as [σ I].
  destruct (inv_can_freeze fixed grow _ _ _ _ _ I Hnd Hu Hpc) as (ls1&s1&Hr1&HF1&He&Hs&_&_&m&Hm&Hh).
  pose proof (run_app _ _ _ _ _ _ Hr Hr1) as Hr01. destruct (abb_inv _ _ _ _ _ _ Hi Hr01) as [σ1 I1].
  pose proof (branches_shape _ _ _ _ Hf Hi Hr01 Hsh) as Hsh1.
  destruct (image_holds _ _ _ I1) as (m1&Hm1&Hb1).
  assert (Em : ∀ k, m1 k = m k).
  { intros k. symmetry. by apply (Hh k), (Hm1 k). }
  assert (Hst1 : state_holds branch_answers (ABB.betree s1) m).
  { exists m1. split; [done|]. intros k. unfold mt_is_empty in He. by rewrite He, lookup_empty, Em. }
  destruct (b_exact _ _ _ I1) as ((Hwa&t&Ht&_)&_). set (X := lb_bdv (atree σ1)).
  assert (Ht1 : lrepr (over s1 X) t) by (unfold over, lrepr, X; cbn [lb_root lb_dv lb_bdv]; destruct (b_skel _ _ _ I1) as [-> ->]; exact Ht).
  assert (Hend : ∀ ls2 s2 t2, run (ABB.next fixed grow) s1 ls2 s2 → Forall (λ l, ∃ alls deallocs, l = ABB.Int alls deallocs) ls2 →
    memtable (ABB.betree s2) = memtable (ABB.betree s1) → lrepr (over s2 X) t2 → dry t2 ∨ t2 = RNil →
    state_holds branch_answers (ABB.betree s2) m →
    ∃ ls' s' img m, run (ABB.next fixed grow) s ls' s' ∧ Forall (λ l, ∃ alls deallocs, l = ABB.Int alls deallocs) ls' ∧
    ABB.next fixed grow s' s' (ABB.Lbl (FreezeAs img)) ∧ st_seq_end img = mt_seq_end (memtable (ABB.betree s)) ∧ drained (st_value img) ∧
    state_holds branch_answers (ABB.betree s) m ∧ Betree_Spec.holds linked_answers (st_value img) m).
  { intros ls2 s2 t2 Hr2 HF2 Em2 Ht2 Hd2 Hst2.
    assert (He2 : mt_is_empty (memtable (ABB.betree s2))) by by rewrite Em2.
    pose proof (run_app _ _ _ _ _ _ Hr01 Hr2) as Hr02. destruct (abb_inv _ _ _ _ _ _ Hi Hr02) as [σ2 I2].
    destruct (image_holds _ _ _ I2) as (m2&Hm2&Hb2).
    exists (ls1 ++ ls2), s2, (mkStamped (Linked.i_bdv (root (ABB.betree s2))) (mt_seq_end (memtable (ABB.betree s2)))), m.
    split; [by eapply run_app|]. split.
    { apply stdpp.list.Forall_app. split; [|done]. eapply stdpp.list.Forall_impl; [exact HF1|]. intros l (alls&ds&->&_). by eexists _, _. }
    split; [by apply freeze_step|]. split; [by rewrite Em2|]. split.
    { apply (skel_drained (over s2 X)); [done|]. destruct Hd2 as [Hd2| ->]; [by eapply dry_disk|].
      apply repr_nil in Ht2. intros a n [is Hl] _. unfold node_ref in Hl. rewrite Ht2 in Hl. inversion Hl. }
    split; [done|]. intros k v. rewrite (Hm2 k v). destruct Hst2 as (base&Hbase&Hk). unfold mt_is_empty in He2. specialize (Hk k). rewrite He2, lookup_empty in Hk.
    assert (E : base k = m2 k) by by apply (Hbase k), (Hb2 k). cbn in Hk. by rewrite Hk, E. }
  assert (t = RNil ∨ t ≠ RNil) as [->|Hne] by (destruct t; [by left|by right..]); [eapply (Hend [] s1 RNil); [constructor|constructor|done|done|by right|done]|].
  destruct (drain t) with (bs := @nil (gmap N Message)) as (t'&Hrt&Hdry).
  { eapply shaped_of; [exact Ht1|]. exact (skel_shape _ _ (over_skel s1 X) Hsh1). }
  { done. }
  { rewrite extend_nil. exact (proj1 (repr_wf _ _ _ _ (proj1 Hwa) Ht)). }
  rewrite extend_nil in Hrt.
  destruct (drain_steps _ _ Hf Hrt Hne _ _ _ _ X Hi Hap Hr01 Ht1) as (ls2&s2&Hr2&HF2&Em2&Ht2&Hm2).
  eapply (Hend ls2 s2 t'); try done; [by left|by apply Hm2].
Qed.
End Drain.
