(** The be-tree whose buffers are branches can always be brought to a state that
    is itself an image to start from (C58). *)
From Verif Require Import Spec_Model Spec_Proof Abs_Model Betree_Model Betree_Spec Route_Proof Routed_Proof Branch_Model Branch_Spec Branch_Proof BranchPages_Proof BranchBuild_Proof.
From Verif Require Import LinkedBetree_Model LinkedBetree_Spec LikesBetree_Model LikesBetree_Spec LinkedBetree_Proof LinkedBetree_Facts
  LikesTree_Proof LikesOps_Proof LikesBetree_Proof LikesBetree_Facts BranchSkel_Proof BranchCompact_Proof
  BranchBetree_Model BranchBetree_Spec BranchBuffer_Proof BranchForest_Proof BranchBetree_Proof BranchSteps_Proof BranchOps_Proof BranchFlush_Proof
  BranchBetree_Facts BranchLive_Spec BranchLive_Proof BranchFlow_Proof.
From Coq Require Import ZifyBool ZifyNat ZifyN Lia.
Implicit Types (s : ABB.State) (σ : LikesBetree.State) (r a : Address).

(** ** A forest is a set of sealed branches *)
Section Image.
  Context `{Geometry} bdv (roots : gset Address) (m : gmap AU (gset AU)) (F : forest bdv roots) (S : summarizes m bdv roots).
  Lemma image_summary r U : branch_units bdv r U → ABranch.get_summary (LBranch.mk r bdv) = U.
  Proof.
    unfold ABranch.get_summary, LBranch.root_node. cbn [LBranch.disk LBranch.root].
    intros [(ks&ms&E&->)|(ps&cs&p&E&Ep)]; rewrite E; cbn; [done|]. by rewrite Ep.
  Qed.
  Lemma image_page r a : r ∈ roots → full_repr (LBranch.mk r bdv) a ↔ branch_page bdv r a.
  Proof using F.
    intros Hr. destruct (f_units _ _ F r Hr) as [U HU]. destruct (f_tree _ _ F r Hr) as (n&Hst&Hw).
    unfold full_repr, branch_page, summary_page, LBranch.root_node. cbn [LBranch.disk LBranch.root]. split.
    - intros [Hre|(p&c&E)]; [left; by apply reachable_reach|]. right.
      destruct HU as [(ks&ms&E'&_)|(ps&cs&q&E'&Eq)]; rewrite E' in E; cbn in E; [done|]. injection E as -> -> ->. by exists p, c, U.
    - intros [Hre|(p&c&x&E&_)]; [left; by eapply reach_reachable|]. right. exists p, c. by rewrite E.
  Qed.
  Lemma image_sealed : sealed_branch_roots bdv roots.
  Proof using F.
    intros r Hr. destruct (f_units _ _ F r Hr) as [U HU]. destruct (f_tree _ _ F r Hr) as (n&Hst&Hw).
    assert (Hown : ∀ a, full_repr (LBranch.mk r bdv) a → is_Some (bdv !! a) ∧ au a ∈ U).
    { intros a Ha%image_page; [|done]. pose proof (page_some _ _ _ _ F Hr Ha) as Hs. split; [done|]. by apply (f_own _ _ F r U a Hr HU Hs). }
    split; [|split; [|split]].
    - apply inv_iff. exists n. split; [apply F|done].
    - split.
      + destruct HU as [(ks&ms&E&_)|(ps&cs&p&E&_)]; eexists; (split; [exact E|by eauto]).
      + intros ps cs aux. unfold LBranch.root_node. cbn [LBranch.disk LBranch.root].
        destruct HU as [(ks&ms&E&_)|(ps'&cs'&p&E&Ep)]; rewrite E; cbn; [done|]. intros [= <- <- <-]. by exists p, U.
    - intros a Ha. rewrite (image_summary _ _ HU). by apply Hown.
    - intros a. rewrite (image_summary _ _ HU). unfold restrict_domain_au. cbn [LBranch.disk]. rewrite elem_of_filter, elem_of_dom. split.
      + intros [Ha Hs]. apply image_page; [done|]. by apply (f_own _ _ F r U a Hr HU Hs).
      + intros Ha. by apply and_comm, Hown.
  Qed.
  Lemma image_roots_apart : set_addrs_disjoint_aus roots.
  Proof using F.
    intros r r' Hr Hr' Hne E. destruct (f_units _ _ F r Hr) as [U HU]. destruct (f_units _ _ F r' Hr') as [U' HU'].
    assert (Hin : ∀ r U, r ∈ roots → branch_units bdv r U → au r ∈ U).
    { clear -F. intros r U Hr HU. apply (f_own _ _ F r U r Hr HU); [|apply page_root]. eapply page_some; [done|exact Hr|apply page_root]. }
    pose proof (f_apart _ _ F r r' U U' Hr Hr' Hne HU HU') as Hd. apply (Hd (au r)); [by apply Hin|rewrite E; by apply Hin].
  Qed.
  Lemma image_summaries : m = build_branch_summary bdv roots.
  Proof using F S.
    apply map_eq. intros u. apply option_eq. intros U. rewrite (S u U).
    by rewrite (start_summarizes bdv roots image_sealed image_roots_apart u U).
  Qed.
  Lemma image_values : map_with_disjoint_values m.
  Proof using F S.
    intros u v U V (r&Hr&<-&HU)%S (r'&Hr'&<-&HV)%S Hne. eapply (f_apart _ _ F r r'); try done. by intros ->.
  Qed.
  Lemma image_closed : addrs_closed (dom bdv) (summary_aus m).
  Proof using F S.
    intros a Ha%elem_of_dom. destruct (f_all _ _ F a Ha) as (r&Hr&Hp). destruct (f_units _ _ F r Hr) as [U HU].
    apply (summarizes_aus _ _ _ _ S). exists r, U. split_and!; [done|done|]. by apply (f_own _ _ F r U a Hr HU Ha).
  Qed.
End Image.

(** An image determines the state started from it. *)
Lemma start_unique `{Geometry} s s' b : ABB.initialize s b → ABB.initialize s' b → s' = s.
Proof.
  intros ((Hac&_)&tl&bl&Ht&_&_&_&_&_&_&->) (_&tl'&bl'&Ht'&_&_&_&_&_&_&->).
  set (A := start_image true (root b) ∅). assert (Hsk : skel (root b) A) by done.
  assert (HacA : Linked.acyclic A) by by rewrite <-(skel_acyclic _ _ Hsk).
  destruct (unf_exists A HacA) as [t Hu]. apply (skel_likes _ _ _ _ Hsk) in Ht, Ht'.
  destruct (transitive_unf _ _ _ _ Ht Hu) as [-> ->]. by destruct (transitive_unf _ _ _ _ Ht' Hu) as [-> ->].
Qed.

Section Restart.
Context `{Geometry} (fixed grow : bool).
Notation binv := (binv fixed).
Notation bdv s := (lb_bdv (root (ABB.betree s))).
Notation atree σ := (root (LikesBetree.betree σ)).
(** With nothing in the memtable and no work under way, the state is an image. *)
Lemma idle_image s σ : binv s σ → mt_is_empty (memtable (ABB.betree s)) → ABB.compactors s = [] → ABB.wip_branches s = [] →
  ABB.initialize s (ABB.betree s).
Proof.
  intros I Hm Hc Hw. pose proof (b_skel _ _ _ I) as Hsk. destruct (b_exact _ _ _ I) as (Hli&t&Hu&Etl&Ebl).
  pose proof (linv_legal _ Hli) as (Hac&Hbd&Htot).
  assert (Htr : tracked (LikesBetree.buf_likes σ) (ABB.compactors s) = mdom (LikesBetree.buf_likes σ)).
  { rewrite Hc. unfold tracked, input_roots. cbn. set_solver. }
  pose proof (b_forest _ _ _ I) as F. pose proof (b_sum _ _ _ I) as S. rewrite Htr in F, S.
  split.
  { split; [by rewrite (skel_acyclic _ _ Hsk)|]. split; [|split; [|done]].
    - intros ba Hba. eapply root_some; [exact F|]. rewrite <-Htr. by apply (i_tracked _ _ _ I).
    - intros n (a&Ha&Hn). apply Htot. destruct Hsk as [E1 E2]. exists a. rewrite <-E1, <-E2. done. }
  assert (Hlik : transitive_likes (root (ABB.betree s)) (LikesBetree.betree_likes σ) (LikesBetree.buf_likes σ)).
  { rewrite (skel_likes _ _ _ _ Hsk). destruct Hac as (_&rk&Hrk).
    assert (Hex : ∃ tl bl, transitive_likes (atree σ) tl bl) by (eexists _, _, rk; split; [exact Hrk|split; reflexivity]).
    destruct Hex as (tl&bl&Hl). destruct (transitive_unf _ _ _ _ Hl Hu) as [-> ->]. by rewrite Etl, Ebl. }
  exists (LikesBetree.betree_likes σ), (LikesBetree.buf_likes σ). split; [done|].
  pose proof (image_summaries _ _ _ F S) as Es. rewrite <-Es. cbn zeta.
  split; [exact (image_sealed _ _ F)|]. split; [exact (image_roots_apart _ _ F)|]. split; [exact (image_values _ _ _ F S)|].
  rewrite <-(b_aus _ _ _ I), <-(b_baus _ _ _ I). split; [intros a Ha; by apply (b_nodes _ _ _ I)|]. split; [exact (image_closed _ _ _ F S)|].
  split; [apply I|]. destruct s. cbn in *. by subst.
Qed.
Lemma run_idle s0 b ls s : ABB.initialize s0 b → run (ABB.next fixed grow) s0 ls s →
  mt_is_empty (memtable (ABB.betree s)) → ABB.compactors s = [] → ABB.wip_branches s = [] → ABB.initialize s (ABB.betree s).
Proof. intros Hi Hr. destruct (abb_inv _ _ _ _ _ _ Hi Hr) as [σ I]. by eapply idle_image. Qed.
Lemma run_can_restart s0 b ls s u1 u2 u3 : ABB.initialize s0 b → run (ABB.next fixed grow) s0 ls s →
  base.NoDup [u1; u2; u3] → Forall (λ u, u < au_count ∧ ¬ needed s u) [u1; u2; u3] → 0 < page_count →
  ∃ ls' s' m, run (ABB.next fixed grow) s ls' s' ∧
    Forall (λ l, ∃ alls deallocs, l = ABB.Int alls deallocs ∧ alls ⊆ {[u1; u2; u3]}) ls' ∧
    ABB.initialize s' (ABB.betree s') ∧
    mt_seq_end (memtable (ABB.betree s')) = mt_seq_end (memtable (ABB.betree s)) ∧
    state_holds branch_answers (ABB.betree s) m ∧ Betree_Spec.holds branch_answers (root (ABB.betree s')) m ∧
    (nodes_apart (root b) → nodes_apart (root (ABB.betree s'))).
Proof.
  intros Hi Hr Hnd Hu Hp. destruct (abb_inv _ _ _ _ _ _ Hi Hr) as [σ I].
  destruct (inv_can_freeze fixed grow _ _ _ _ _ I Hnd Hu Hp) as (ls1&s1&Hr1&HF1&He1&Hs1&_&_&m&Hm&Hh1).
  assert (Hra : run (ABB.next fixed grow) s0 (ls ++ ls1) s1) by by eapply run_app.
  destruct (abb_inv _ _ _ _ _ _ Hi Hra) as [σ1 I1].
  destruct (inv_give_up fixed grow _ _ _ I1 eq_refl) as (ls2&s2&Hr2&HF2&Hc2&Hw2&Hm2&E1&E2&E3&σ2&I2).
  destruct (image_holds fixed _ _ I1) as (m1&Hl1&Hb1). destruct (image_holds fixed _ _ I2) as (m2&_&Hb2).
  assert (Em1 : ∀ k, m1 k = m k) by (intros k; symmetry; by apply Hh1, Hl1).
  assert (Em2 : ∀ k, m2 k = m1 k).
  { intros k. symmetry. apply Hb1. unfold branch_answers. rewrite <-E1, <-E2. eapply answers_more; [reflexivity|exact E3|]. by apply Hb2. }
  exists (ls1 ++ ls2), s2, m. split; [by eapply run_app|]. split.
  { apply Forall_app_2; [done|]. eapply stdpp.list.Forall_impl; [exact HF2|]. intros l (ds&->). exists ∅, ds. split; [done|]. set_solver. }
  split; [eapply idle_image; [exact I2|by rewrite Hm2|done|done]|]. split; [by rewrite Hm2|]. split; [done|]. split.
  - intros k v. rewrite <-(Em1 k), <-(Em2 k). apply Hb2.
  - intros Hap. apply (run_apart fixed grow s0 b ((ls ++ ls1) ++ ls2) s2 Hi Hap). by eapply run_app.
Qed.
End Restart.
