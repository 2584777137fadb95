(** On an image whose nodes are in different allocation units, a flush to a child
    and a split are possible whenever their conditions hold (C54). *)
From Verif Require Import Spec_Model Spec_Proof Abs_Model Betree_Model Betree_Spec Route_Proof Routed_Proof Branch_Spec Branch_Proof BranchPages_Proof BranchBuild_Proof.
From Verif Require Import LinkedBetree_Model LinkedBetree_Spec LikesBetree_Model LikesBetree_Spec LinkedBetree_Proof LinkedBetree_Facts
  LikesTree_Proof LikesOps_Proof LikesBetree_Proof LikesBetree_Facts BranchSkel_Proof BranchCompact_Proof
  BranchBetree_Model BranchBetree_Spec BranchBuffer_Proof BranchForest_Proof BranchBetree_Proof BranchSteps_Proof BranchOps_Proof BranchFlush_Proof
  BranchBetree_Facts BranchLive_Spec BranchLive_Proof.
From Verif Require FilteredBetree_Proof.
From Coq Require Import ZifyBool ZifyNat ZifyN Lia.
Implicit Types (s : ABB.State) (σ : LikesBetree.State) (r a : Address).

(** ** The part of a disk that a tree uses is well formed *)
Lemma reach_wf (dv : gmap Address LNode.t) B p (t : FTree) a : repr dv B p t → Routed.wf Filtered.dwf t → Linked.reachable_node dv p a →
  ∃ n, dv !! a = Some n ∧ LNode.wf n ∧ ∀ i c, LNode.children n !! i = Some (Some c) →
    Linked.reachable_node dv p c ∧ ∃ m, dv !! c = Some m ∧ LNode.my_domain m = LNode.child_domain n i.
Proof.
  intros Hr Hw Hre. revert t Hr Hw. induction Hre as [a n Hn|a n i p b Hn Hi Hre IH]; intros t Hr Hw.
  - destruct (repr_Some _ _ _ _ _ Hn Hr) as (c&chs&->&Hf&Hb&Hc). apply wf_node in Hw as (Hp&Hl&[Hd1 Hd2]&Hch).
    pose proof (Forall2_length _ _ _ Hc) as Hlc. exists n. split; [done|]. split.
    + split; [done|]. split; [unfold num_ranges; lia|]. rewrite Hf. split; [lia|].
      rewrite (Forall2_length _ _ _ Hb). exact Hd2.
    + intros i ca Hi. destruct (Forall2_lookup_l _ _ _ _ _ Hc Hi) as (x&Hx&Hrx). destruct (Hch _ _ Hx) as [Hwx Hdx].
      destruct x as [|cx pvx chx]; [done|]. pose proof Hrx as Hrx'. apply repr_node in Hrx' as (a'&m&[= <-]&Hm&Hpm&_).
      split; [eapply Linked.reach_child; [exact Hn|exact Hi|by eapply Linked.reach_here]|].
      exists m. split; [done|]. specialize (Hdx ltac:(done)). unfold LNode.child_domain. rewrite Nat.add_1_r, <-Hdx.
      unfold LNode.my_domain, Routed.my_domain. cbn. by rewrite Hpm.
  - destruct (repr_Some _ _ _ _ _ Hn Hr) as (c&chs&->&Hf&Hb&Hc). apply wf_node in Hw as (Hp&Hl&Hd&Hch).
    destruct (Forall2_lookup_l _ _ _ _ _ Hc Hi) as (x&Hx&Hrx). destruct (Hch _ _ Hx) as [Hwx _].
    destruct (IH _ Hrx Hwx) as (m&Hm&Hwm&Hcm). exists m. split; [done|]. split; [done|]. intros j cj Hj.
    destruct (Hcm j cj Hj) as [Hrc Hdm]. split; [|done]. by eapply Linked.reach_child.
Qed.
Lemma live_wf (W : SLB) (ft : FTree) (K : gset AU) : lrepr W ft → Routed.wf Filtered.dwf ft →
  (∀ a, is_Some (lb_dv W !! a) → au a ∈ K ↔ Linked.reachable_node (lb_dv W) (lb_root W) a) →
  (∀ a, lb_root W = Some a → is_Some (lb_dv W !! a)) →
  Linked.wf (mkLB (lb_root W) (filter (λ an : Address * LNode.t, au an.1 ∈ K) (lb_dv W)) (lb_bdv W)).
Proof.
  intros Hr Hw HK Hrt. split; [split|]; cbn [lb_dv lb_root lb_bdv].
  - intros a n [Hn Ha]%map_filter_lookup_Some. apply HK in Ha; [|by eexists]. destruct (reach_wf _ _ _ _ _ Hr Hw Ha) as (n'&Hn'&Hwn&_). cbn in *. congruence.
  - intros a n [Hn Ha]%map_filter_lookup_Some. apply HK in Ha; [|by eexists]. destruct (reach_wf _ _ _ _ _ Hr Hw Ha) as (n'&Hn'&_&Hc). cbn in *.
    rewrite Hn in Hn'. injection Hn' as <-. split.
    + intros i q Hq c ->. destruct (Hc i c Hq) as (Hrc&m&Hm&_). exists m. apply map_filter_lookup_Some. split; [done|]. apply HK; [by eexists|done].
    + intros i c m Hi [Hm _]%map_filter_lookup_Some. destruct (Hc i c Hi) as (_&m'&Hm'&Hd). congruence.
  - intros a Ha. destruct (Hrt a Ha) as [n Hn]. exists n. apply map_filter_lookup_Some. split; [done|]. cbn. apply HK; [by eexists|]. rewrite Ha. by eapply Linked.reach_here.
Qed.

(** ** Nodes in different units *)
Lemma apart_add {T T'} (l : LinkedBetree T) (w : LinkedBetree T') (X : gset Address) : nodes_apart l → dom (lb_dv w) ⊆ dom (lb_dv l) ∪ X →
  set_addrs_disjoint_aus X → (∀ a b, is_Some (lb_dv l !! a) → b ∈ X → au a ≠ au b) → nodes_apart w.
Proof.
  intros Hap Hd Hx Hf a b Ha Hb E. rewrite <-!elem_of_dom in Ha, Hb. apply Hd, elem_of_union in Ha as [Ha|Ha]; apply Hd, elem_of_union in Hb as [Hb|Hb].
  - apply Hap; [by apply elem_of_dom..|done].
  - exfalso. apply elem_of_dom in Ha. exact (Hf _ _ Ha Hb E).
  - exfalso. apply elem_of_dom in Hb. exact (Hf _ _ Hb Ha (eq_sym E)).
  - destruct (decide (a = b)); [done|]. exfalso. exact (Hx a b Ha Hb ltac:(done) E).
Qed.
(** After an operation on a tree with nodes apart the nodes whose units are
    counted are those of the new tree. *)
Lemma op_wf (l w : SLB) t (ft' : FTree) (X : gset Address) D A bD bA (aus : gmultiset AU) : op l w t D A bD bA →
  aus = to_au_likes (nodes t) ∖ to_au_likes D ⊎ to_au_likes A →
  extends l w X ft' → Routed.wf Filtered.dwf ft' → nodes_apart w →
  Linked.wf (mkLB (lb_root w) (filter (λ an : Address * LNode.t, au an.1 ∈ mdom aus) (lb_dv w)) (lb_bdv w)).
Proof.
  intros [(t'&Hu&R&bR&C1&C2&_&_) _] Ea (_&_&_&Hr) Hw Hap.
  assert (Eaus : aus = to_au_likes (nodes t')) by (rewrite Ea, C1, C2, !to_au_disj; apply sub_add).
  eapply live_wf; [exact Hr|exact Hw| |].
  - intros a Ha. rewrite Eaus, elem_mdom, to_au_elem. setoid_rewrite (nodes_elem _ _ _ _ Hu). split.
    + intros (b&Hb&E). destruct (reach_wf _ _ _ _ _ Hr Hw Hb) as (n&Hn&_). by rewrite <-(Hap b a ltac:(by eexists) Ha E).
    + eauto.
  - intros a Ha. unfold lrepr in Hr. rewrite Ha in Hr, Hu. inversion Hu; subst. by eexists.
Qed.

(** ** The two operations on the linked tree *)
Lemma flush_wf (l : SLB) (ft : FTree) t key d i gc na pa (aus : gmultiset AU) : lunf l t → lrepr l ft → Linked.wf l →
  Linked.can_flush (Linked.path_target l key d) i gc → Linked.valid_path_replacement l key d (two_no_dup na) (two_repr na) pa →
  Linked.is_fresh l (two_repr na ∪ list_to_set pa) →
  aus = to_au_likes (nodes t) ∖ to_au_likes (flush_discard_betree l key d i) ⊎ to_au_likes (add_betree_likes (two_likes na) pa) →
  let w := Linked.post_flush l key d i gc na pa in
  dom (lb_dv w) = dom (lb_dv l) ∪ (two_repr na ∪ list_to_set pa) ∧
  (nodes_apart w → Linked.wf (mkLB (lb_root w) (filter (λ an : Address * LNode.t, au an.1 ∈ mdom aus) (lb_dv w)) (lb_bdv w))).
Proof.
  intros Hu Hr Hw Hc Hv Hf Ea w. destruct (fresh_sub _ _ _ Hf) as [Hfa Hfb]. pose proof Hv as (Hpv&Hnd&Hdep&Htd&Hdj).
  destruct (path_repr _ _ _ _ Hr Hpv) as [Hpv' Htr].
  pose proof (flush_repr _ _ i gc na Htr Hc Htd (fresh_target _ _ _ _ Hfa)) as He.
  destruct (target_disk l key d) as [E1 E2]. unfold extends in He. rewrite E1, E2 in He.
  destruct (substitute_repr l key d _ ft _ _ pa Hr Hpv Hdep Hnd ltac:(destruct Hfb; set_solver) Hdj He) as [Hx _].
  destruct (can_flush_repr _ _ _ _ Htr Hc) as [Hcf _].
  destruct (FilteredBetree_Proof.flush_ok _ _ _ Hcf) as (H1&H2&H3&H4).
  destruct (substitute_ok Filtered.dwf filtered_held ft key d _ Hpv' H1 H2 H3 H4) as (H5&_).
  split; [exact (proj1 (proj2 (proj2 Hx)))|]. intros Hap.
  eapply op_wf; [by eapply op_flush|exact Ea|exact Hx|exact H5|exact Hap].
Qed.
Lemma split_wf (l : SLB) (ft : FTree) t key d rq na pa (aus : gmultiset AU) : lunf l t → lrepr l ft → Linked.wf l →
  Linked.can_split_parent (Linked.path_target l key d) rq → Linked.valid_path_replacement l key d (split_no_dup na) (split_repr na) pa →
  Linked.is_fresh l (split_repr na ∪ list_to_set pa) →
  aus = to_au_likes (nodes t) ∖ to_au_likes (split_discard_betree l key d rq) ⊎ to_au_likes (add_betree_likes (split_likes na) pa) →
  let w := Linked.post_split l key d rq na pa in
  dom (lb_dv w) = dom (lb_dv l) ∪ (split_repr na ∪ list_to_set pa) ∧
  (nodes_apart w → Linked.wf (mkLB (lb_root w) (filter (λ an : Address * LNode.t, au an.1 ∈ mdom aus) (lb_dv w)) (lb_bdv w))).
Proof.
  intros Hu Hr Hw Hc Hv Hf Ea w. destruct (fresh_sub _ _ _ Hf) as [Hfa Hfb]. pose proof Hv as (Hpv&Hnd&Hdep&Htd&Hdj).
  destruct (path_repr _ _ _ _ Hr Hpv) as [Hpv' Htr].
  pose proof (split_repr_ok _ _ rq na Htr Hc Htd (fresh_target _ _ _ _ Hfa)) as He.
  destruct (target_disk l key d) as [E1 E2]. unfold extends in He. rewrite E1, E2 in He.
  destruct (substitute_repr l key d _ ft _ _ pa Hr Hpv Hdep Hnd ltac:(destruct Hfb; set_solver) Hdj He) as [Hx _].
  pose proof (can_split_repr _ _ _ Htr Hc) as Hcf.
  destruct (FilteredBetree_Proof.split_parent_ok _ _ Hcf) as (H1&H2&H3&H4).
  destruct (substitute_ok Filtered.dwf filtered_held ft key d _ Hpv' H1 H2 H3 H4) as (H5&_).
  split; [exact (proj1 (proj2 (proj2 Hx)))|]. intros Hap.
  eapply op_wf; [by eapply op_split|exact Ea|exact Hx|exact H5|exact Hap].
Qed.

(** ** The tree of branches *)
Lemma substitute_dom {T} (r : LinkedBetree T) key : ∀ d (l : LinkedBetree T) pa,
  dom (lb_dv (Linked.path_substitute l key d r pa)) ⊆ dom (lb_dv r) ∪ list_to_set pa.
Proof.
  induction d as [|d IH]; intros l [|p pa]; cbn [Linked.path_substitute lb_dv list_to_set]; try set_solver.
Qed.
Lemma dv_target {T} key : ∀ d (l : LinkedBetree T), lb_dv (Linked.path_target l key d) = lb_dv l.
Proof. induction d as [|d IH]; intros l; [done|]. cbn [Linked.path_target]. by rewrite IH. Qed.
Lemma apart_set (X : gset Address) (pa : list Address) : set_addrs_disjoint_aus X → to_aus X ## seq_addrs_to_aus pa → seq_addrs_disjoint_aus pa →
  set_addrs_disjoint_aus (X ∪ list_to_set pa).
Proof.
  intros HX Hd Hp a b [Ha|Ha]%elem_of_union [Hb|Hb]%elem_of_union Hne E.
  - by apply (HX a b).
  - apply (Hd (au a)); apply elem_to_aus; [eauto|]. exists b. done.
  - apply (Hd (au b)); apply elem_to_aus; [eauto|]. exists a. done.
  - apply elem_of_list_to_set, elem_of_list_lookup in Ha as [i Hi]. apply elem_of_list_to_set, elem_of_list_lookup in Hb as [j Hj].
    apply (Hp i j a b Hi Hj); [|done]. intros ->. congruence.
Qed.
Lemma two_apart (na : TwoAddrs) : two_disjoint_aus na → set_addrs_disjoint_aus (two_repr na).
Proof. unfold two_disjoint_aus, two_repr. intros Hd a b [->%elem_of_singleton| ->%elem_of_singleton]%elem_of_union [->%elem_of_singleton| ->%elem_of_singleton]%elem_of_union Hne; congruence. Qed.
Lemma three_apart (na : SplitAddrs) : split_disjoint_aus na → set_addrs_disjoint_aus (split_repr na).
Proof.
  unfold split_disjoint_aus, split_repr. intros (D1&D2&D3) a b.
  rewrite !elem_of_union, !elem_of_singleton. intros [[->| ->]| ->] [[->| ->]| ->] Hne; congruence.
Qed.

Section Flow.
Context `{Geometry} (fixed grow : bool).
Local Instance bb : Buffer BranchNode := branch_buffer fixed.
Notation bdv s := (lb_bdv (root (ABB.betree s))).
Notation ndv s := (lb_dv (root (ABB.betree s))).
Notation atree σ := (root (LikesBetree.betree σ)).
Notation binv := (binv fixed).
Notation apart s := (nodes_apart (root (ABB.betree s))).

Lemma apart_op s σ (w : BLB) (X : gset Address) : binv s σ → apart s → dom (lb_dv w) ⊆ dom (ndv s) ∪ X →
  set_addrs_disjoint_aus X → mdom (ABB.betree_aus s) ## to_aus X → nodes_apart w.
Proof.
  intros I Hap Hd HX Hf. eapply apart_add; [exact Hap|exact Hd|exact HX|]. intros a b Ha Hb E.
  apply (Hf (au a)); [apply (b_nodes _ _ _ I), elem_of_dom, Ha|]. apply elem_to_aus. exists b. done.
Qed.
Lemma apart_sub {T} (l l' : LinkedBetree T) : nodes_apart l → dom (lb_dv l') ⊆ dom (lb_dv l) → nodes_apart l'.
Proof. intros Hap Hs a a' Ha Ha'. apply Hap; apply elem_of_dom, Hs, elem_of_dom; done. Qed.
Lemma restrict_sub {V} (W : gmap Address V) A : restrict_domain_au W A ⊆ dom W.
Proof. unfold restrict_domain_au. intros a [_ Ha]%elem_of_filter. exact Ha. Qed.
Lemma single_apart (a : Address) : set_addrs_disjoint_aus {[a]}.
Proof. intros x y ->%elem_of_singleton ->%elem_of_singleton. done. Qed.
Lemma single_aus (a : Address) : to_aus {[a]} = {[au a]}.
Proof. unfold to_aus. by rewrite set_map_singleton_L. Qed.

Lemma step_apart s s' σ l : binv s σ → apart s → ABB.next fixed grow s s' l → apart s'.
Proof.
  intros I Hap [(new&Hn)|[Hn|[(idx&w&e&Hn)|[(idx&Hn)|[(new&idx&a&Hn)|[(new&a&Hn)|[(new&key&d&rq&na&pa&Hn)|[(new&key&d&i&gc&na&pa&Hn)|
    [(key&d&i&j&input&Hn)|[(i&Hn)|(new&key&d&i&j&ii&bi&na&pa&Hn)]]]]]]]]]].
  - destruct Hn as (ll&->&Hl&Hn&->). cbn [ABB.betree]. destruct Hn as [(rc&e&k&v&res&_&_&_&_&_&->)|[(puts&_&_&_&->)|[(_&_&->)|Hn]]]; [done|done|done|].
    exfalso. destruct Hn as [(?&?&?&?&_)|[(?&?&_)|[(?&?&?&?&?&?&?&_)|[(?&?&?&?&?&?&?&?&_)|[(?&?&?&?&?&?&?&?&?&_)|[(?&?&_)|(?&_)]]]]]]; by subst ll.
  - by destruct Hn as (alls&_&_&->).
  - by destruct Hn as (alls&ds&w0&_&_&_&_&->).
  - by destruct Hn as (w&_&_&->).
  - destruct Hn as (alls&ds&w&b&->&Hf&_&_&_&_&->&_&Hd&_&->). cbn [ABB.betree].
    eapply (apart_op s σ _ {[a]} I Hap); [|apply single_apart|rewrite single_aus; apply Hf]. rewrite Hd. etrans; [apply restrict_sub|].
    cbn [Linked.push_memtable lb_dv addr1]. rewrite dom_insert_L. unfold ABB.linked. set_solver.
  - destruct Hn as (->&Hf&(_&->)&->). cbn [ABB.betree root].
    eapply (apart_op s σ _ {[a]} I Hap); [|apply single_apart|rewrite single_aus; apply Hf]. cbn [Linked.grow lb_dv]. rewrite dom_insert_L. set_solver.
  - destruct Hn as (alls&ds&->&Hf&D1&D2&D3&_&->&_&Hd&_&->). cbn [ABB.betree].
    eapply (apart_op s σ _ (split_repr na ∪ list_to_set pa) I Hap); [|by apply apart_set; [apply three_apart|..]|rewrite to_aus_union; apply Hf].
    rewrite <-Hd. etrans; [apply restrict_sub|]. unfold Linked.post_split. etrans; [apply substitute_dom|].
    rewrite (assoc_L (∪)). apply union_mono_r. unfold Linked.split_parent. pose proof (dv_target key d (ABB.linked s)) as E. destruct rq as [ci sk|ci cp].
    + destruct (LNode.split_leaf _ _) as [nl nr]. cbn [lb_dv]. rewrite !dom_insert_L, E. unfold split_repr, ABB.linked. set_solver.
    + destruct (LNode.split_index _ _) as [nl nr]. cbn [lb_dv]. rewrite !dom_insert_L, E. unfold split_repr, ABB.linked. set_solver.
  - destruct Hn as (alls&ds&->&Hf&D1&D2&D3&_&->&_&Hd&_&->). cbn [ABB.betree].
    eapply (apart_op s σ _ (two_repr na ∪ list_to_set pa) I Hap); [|by apply apart_set; [apply two_apart|..]|rewrite to_aus_union; apply Hf].
    rewrite <-Hd. etrans; [apply restrict_sub|]. unfold Linked.post_flush. etrans; [apply substitute_dom|].
    rewrite (assoc_L (∪)). apply union_mono_r. unfold Linked.flush. pose proof (dv_target key d (ABB.linked s)) as E.
    cbn [lb_dv]. rewrite !dom_insert_L, E. unfold two_repr, ABB.linked. set_solver.
  - by destruct Hn as (_&_&->).
  - by destruct Hn as (_&_&->).
  - destruct Hn as (alls&ds&input&w&b&->&Hf&D1&D2&_&_&_&_&_&_&->&_&Hd&_&->). cbn [ABB.betree].
    eapply (apart_op s σ _ ({[na]} ∪ list_to_set pa) I Hap).
    + rewrite <-Hd. etrans; [apply restrict_sub|]. unfold Linked.post_compact. etrans; [apply substitute_dom|].
      rewrite (assoc_L (∪)). apply union_mono_r. unfold Linked.compact. pose proof (dv_target key d (ABB.linked s)) as E.
      cbn [lb_dv addr1]. rewrite !dom_insert_L, E. unfold ABB.linked. set_solver.
    + apply apart_set; [apply single_apart| |done]. rewrite single_aus. set_solver.
    + rewrite to_aus_union, single_aus. destruct Hf as [Hf _]. unfold seq_addrs_to_aus in Hf. set_solver.
Qed.
Lemma run_apart s0 b ls s : ABB.initialize s0 b → nodes_apart (root b) → run (ABB.next fixed grow) s0 ls s → apart s.
Proof.
  intros Hi Hap Hr. revert Hi. induction Hr as [s|s ls s1 l s2 Hr IH Hn]; intros Hi.
  - destruct (abb_init fixed _ _ Hi) as (_&_&_&_&_&->). done.
  - destruct (abb_inv _ _ _ _ _ _ Hi Hr) as [σ I]. eapply step_apart; [exact I|by apply IH|exact Hn].
Qed.

(** The views chosen. *)
Definition keep_nodes {T} (w : LinkedBetree T) (aus : gmultiset AU) (bd : gmap Address T) : LinkedBetree T :=
  mkLB (lb_root w) (filter (λ an : Address * LNode.t, au an.1 ∈ mdom aus) (lb_dv w)) bd.
Lemma keep_dom {V} (m : gmap Address V) A : restrict_domain_au m A = dom (filter (λ an : Address * V, au an.1 ∈ A) m).
Proof.
  apply set_eq. intros a. unfold restrict_domain_au. rewrite elem_of_filter, !elem_of_dom. split.
  - intros [Ha [x Hx]]. exists x. by apply map_filter_lookup_Some.
  - intros [x [Hx Ha]%map_filter_lookup_Some]. split; [done|by eexists].
Qed.
Lemma flush_enabled s σ key d i gc na pa : binv s σ → apart s →
  ABB.is_fresh s (to_aus (two_repr na) ∪ seq_addrs_to_aus pa) →
  two_disjoint_aus na → to_aus (two_repr na) ## seq_addrs_to_aus pa → seq_addrs_disjoint_aus pa →
  Linked.can_flush (Linked.path_target (root (ABB.betree s)) key d) i gc →
  Linked.valid_path_replacement (root (ABB.betree s)) key d (two_no_dup na) (two_repr na) pa →
  ∃ s' deallocs new, ABB.internal_flush s s' (ABB.Int (to_aus (two_repr na) ∪ seq_addrs_to_aus pa) deallocs) new key d i gc na pa.
Proof.
  intros I Hap Hf D1 D2 D3 Hc Hv. pose proof (b_skel _ _ _ I) as Hsk. destruct (b_exact _ _ _ I) as ((Hw&ft&Hr&_)&t&Hu&Et&_).
  pose proof Hc as Hc'. rewrite (skel_can_flush _ _ i gc (skel_target _ _ key d Hsk)) in Hc'. pose proof Hv as Hv'. apply (skel_replacement _ _ _ _ _ _ _ Hsk) in Hv'.
  pose proof (skel_post_flush _ _ key d i gc na pa Hsk) as Hps.
  assert (Hfr : Linked.is_fresh (atree σ) (two_repr na ∪ list_to_set pa)) by by eapply fresh_pages.
  set (W := Linked.post_flush (root (ABB.betree s)) key d i gc na pa) in *.
  set (aus := internal_flush_au_likes (root (ABB.betree s)) key d i gc na pa (ABB.betree_aus s) (ABB.branch_aus s)).
  destruct (flush_wf (atree σ) ft t key d i gc na pa aus.1 Hu Hr Hw Hc' Hv' Hfr) as [Hdom Hwf].
  { unfold aus. rewrite (skel_flush_likes _ _ _ _ _ _ _ _ _ _ Hsk). unfold internal_flush_au_likes. cbn [fst]. by rewrite (b_aus _ _ _ I), Et. }
  destruct Hps as [P1 P2]. rewrite <-P2 in Hdom.
  assert (HapW : nodes_apart W).
  { eapply (apart_op s σ W (two_repr na ∪ list_to_set pa) I Hap).
    - destruct Hsk as [_ E2]. rewrite E2. by rewrite Hdom.
    - by apply apart_set; [apply two_apart|..].
    - rewrite to_aus_union. apply Hf. }
  set (dead := (mdom (ABB.branch_aus s) ∖ mdom aus.2) ∖ read_ref_aus (ABB.compactors s)).
  set (B := filter (λ an : Address * BranchNode, au an.1 ∈ summary_aus (remove_keys (ABB.branch_summary s) dead)) (bdv s)).
  set (new := mkBS (memtable (ABB.betree s)) (keep_nodes W aus.1 B)).
  assert (Hwn : Linked.wf (root new)).
  { unfold new, keep_nodes. cbn [root]. specialize (Hwf ltac:(unfold nodes_apart in *; by rewrite <-P2)). rewrite P1, P2. exact Hwf. }
  eexists _, _, new. eexists _, _. split; [reflexivity|]. split; [done|]. split; [done|]. split; [done|]. split; [done|].
  split; [|cbv zeta; split; [reflexivity|split; [reflexivity|split; [|split; [|reflexivity]]]]].
  - split; [done|]. split; [done|]. split; [done|]. split; [|done]. split; [done|]. split; [done|]. split; [apply map_filter_subseteq|].
    unfold ABB.linked. rewrite bdv_post_flush. intros a x y [Hx _]%map_filter_lookup_Some Hy. congruence.
  - apply keep_dom.
  - apply keep_dom.
Qed.
Lemma split_enabled s σ key d rq na pa : binv s σ → apart s →
  ABB.is_fresh s (to_aus (split_repr na) ∪ seq_addrs_to_aus pa) →
  split_disjoint_aus na → to_aus (split_repr na) ## seq_addrs_to_aus pa → seq_addrs_disjoint_aus pa →
  Linked.can_split_parent (Linked.path_target (root (ABB.betree s)) key d) rq →
  Linked.valid_path_replacement (root (ABB.betree s)) key d (split_no_dup na) (split_repr na) pa →
  ∃ s' deallocs new, ABB.internal_split s s' (ABB.Int (to_aus (split_repr na) ∪ seq_addrs_to_aus pa) deallocs) new key d rq na pa.
Proof.
  intros I Hap Hf D1 D2 D3 Hc Hv. pose proof (b_skel _ _ _ I) as Hsk. destruct (b_exact _ _ _ I) as ((Hw&ft&Hr&_)&t&Hu&Et&_).
  pose proof Hc as Hc'. rewrite (skel_can_split _ _ rq (skel_target _ _ key d Hsk)) in Hc'. pose proof Hv as Hv'. apply (skel_replacement _ _ _ _ _ _ _ Hsk) in Hv'.
  pose proof (skel_post_split _ _ key d rq na pa Hsk) as Hps.
  assert (Hfr : Linked.is_fresh (atree σ) (split_repr na ∪ list_to_set pa)) by by eapply fresh_pages.
  set (W := Linked.post_split (root (ABB.betree s)) key d rq na pa) in *.
  set (aus := internal_split_au_likes (root (ABB.betree s)) key d rq na pa (ABB.betree_aus s) (ABB.branch_aus s)).
  destruct (split_wf (atree σ) ft t key d rq na pa aus.1 Hu Hr Hw Hc' Hv' Hfr) as [Hdom Hwf].
  { unfold aus. rewrite (skel_split_likes _ _ _ _ _ _ _ _ _ Hsk). unfold internal_split_au_likes. cbn [fst]. by rewrite (b_aus _ _ _ I), Et. }
  destruct Hps as [P1 P2]. rewrite <-P2 in Hdom.
  assert (HapW : nodes_apart W).
  { eapply (apart_op s σ W (split_repr na ∪ list_to_set pa) I Hap).
    - destruct Hsk as [_ E2]. rewrite E2. by rewrite Hdom.
    - by apply apart_set; [apply three_apart|..].
    - rewrite to_aus_union. apply Hf. }
  set (new := mkBS (memtable (ABB.betree s)) (keep_nodes W aus.1 (bdv s))).
  assert (Hwn : Linked.wf (root new)).
  { unfold new, keep_nodes. cbn [root]. specialize (Hwf ltac:(unfold nodes_apart in *; by rewrite <-P2)). rewrite P1, P2. exact Hwf. }
  eexists _, _, new. eexists _, _. split; [reflexivity|]. split; [done|]. split; [done|]. split; [done|]. split; [done|].
  split; [|cbv zeta; split; [reflexivity|split; [reflexivity|split; [|split; [|reflexivity]]]]].
  - split; [done|]. split; [done|]. split; [done|]. split; [|done]. split; [done|]. split; [done|]. split; [apply map_filter_subseteq|].
    unfold ABB.linked. rewrite bdv_post_split. intros a x y Hx Hy. cbn in Hx. congruence.
  - apply keep_dom.
  - done.
Qed.

(** ** Runs: one page in each free unit *)
Definition page0 (u : AU) : Address := mkAddr u 0.
Lemma pages_units (us : list AU) : seq_addrs_to_aus (page0 <$> us) = list_to_set us.
Proof.
  unfold seq_addrs_to_aus. apply set_eq. intros u. rewrite elem_to_aus, elem_of_list_to_set. split.
  - intros (a&Ha&<-). apply elem_of_list_to_set, elem_of_list_fmap in Ha as (v&->&Hv). done.
  - intros Hu. exists (page0 u). split; [|done]. apply elem_of_list_to_set, elem_of_list_fmap. eauto.
Qed.
Lemma pages_apart (us : list AU) : base.NoDup us → seq_addrs_disjoint_aus (page0 <$> us).
Proof.
  intros Hnd i j a b Hi Hj Hne E. rewrite list_lookup_fmap in Hi, Hj. destruct (us !! i) as [u|] eqn:Eu; [|done]. destruct (us !! j) as [v|] eqn:Ev; [|done].
  cbn in Hi, Hj. injection Hi as <-. injection Hj as <-. cbn in E. subst v. apply Hne. by eapply NoDup_lookup.
Qed.
Lemma pages_nodup (us : list AU) : base.NoDup us → base.NoDup (page0 <$> us).
Proof. intros Hnd. apply NoDup_fmap_2; [|done]. intros u v E. by injection E. Qed.
Lemma free_units s σ (us : list AU) : binv s σ → Forall (λ u, ¬ needed s u) us → ABB.is_fresh s (list_to_set us).
Proof.
  intros I HF. split_and!; intros u Hu Hin%elem_of_list_to_set; (rewrite stdpp.list.Forall_forall in HF; apply (HF u Hin)); apply (needed_iff _ _ _ _ I); unfold held; set_solver.
Qed.
Lemma run_can_flush s0 b ls s key d i gc u v us : ABB.initialize s0 b → nodes_apart (root b) → run (ABB.next fixed grow) s0 ls s →
  Linked.path_valid (root (ABB.betree s)) key d → Linked.can_flush (Linked.path_target (root (ABB.betree s)) key d) i gc →
  length us = d → base.NoDup (u :: v :: us) → Forall (λ u, ¬ needed s u) (u :: v :: us) →
  ∃ s' deallocs new na pa, ABB.internal_flush s s' (ABB.Int (list_to_set (u :: v :: us)) deallocs) new key d i gc na pa.
Proof.
  intros Hi Hap Hr Hp Hc Hl Hnd HF. destruct (abb_inv _ _ _ _ _ _ Hi Hr) as [σ I]. pose proof (run_apart _ _ _ _ Hi Hap Hr) as Hs.
  pose proof (free_units _ _ _ I HF) as Hf.
  apply stdpp.list.NoDup_cons in Hnd as [N1 Hnd]. apply stdpp.list.NoDup_cons in Hnd as [N2 Hnd].
  set (na := mkTwo (page0 u) (page0 v)).
  assert (E : list_to_set (u :: v :: us) = to_aus (two_repr na) ∪ seq_addrs_to_aus (page0 <$> us)).
  { rewrite pages_units. unfold two_repr, na. cbn [addr1 addr2]. rewrite to_aus_union, !single_aus. cbn [page0 au]. set_solver. }
  assert (E2 : to_aus (two_repr na) = {[u; v]}) by (unfold two_repr, na; cbn [addr1 addr2]; by rewrite to_aus_union, !single_aus).
  assert (Huv : u ≠ v) by set_solver.
  destruct (flush_enabled s σ key d i gc na (page0 <$> us) I Hs) as (s'&ds&new&Hn).
  - by rewrite <-E.
  - done.
  - rewrite E2, pages_units. set_solver.
  - by apply pages_apart.
  - done.
  - split; [done|]. split; [by apply pages_nodup|]. split; [by rewrite fmap_length|]. split.
    + unfold two_no_dup, na. cbn. intros [=]. done.
    + intros a Ha Hb. apply elem_of_list_to_set, elem_of_list_fmap in Hb as (x&->&Hx). unfold two_repr, na in Ha. cbn [addr1 addr2] in Ha.
      apply elem_of_union in Ha as [Ha%elem_of_singleton|Ha%elem_of_singleton]; injection Ha as ->; set_solver.
  - exists s', ds, new, na, (page0 <$> us). by rewrite E.
Qed.
Lemma run_can_split s0 b ls s key d rq u v w us : ABB.initialize s0 b → nodes_apart (root b) → run (ABB.next fixed grow) s0 ls s →
  Linked.path_valid (root (ABB.betree s)) key d → Linked.can_split_parent (Linked.path_target (root (ABB.betree s)) key d) rq →
  length us = d → base.NoDup (u :: v :: w :: us) → Forall (λ u, ¬ needed s u) (u :: v :: w :: us) →
  ∃ s' deallocs new na pa, ABB.internal_split s s' (ABB.Int (list_to_set (u :: v :: w :: us)) deallocs) new key d rq na pa.
Proof.
  intros Hi Hap Hr Hp Hc Hl Hnd HF. destruct (abb_inv _ _ _ _ _ _ Hi Hr) as [σ I]. pose proof (run_apart _ _ _ _ Hi Hap Hr) as Hs.
  pose proof (free_units _ _ _ I HF) as Hf.
  apply stdpp.list.NoDup_cons in Hnd as [N1 Hnd]. apply stdpp.list.NoDup_cons in Hnd as [N2 Hnd]. apply stdpp.list.NoDup_cons in Hnd as [N3 Hnd].
  set (na := mkSplit (page0 u) (page0 v) (page0 w)).
  assert (E2 : to_aus (split_repr na) = {[u; v; w]}) by (unfold split_repr, na; cbn [sa_left sa_right sa_parent]; by rewrite !to_aus_union, !single_aus).
  assert (E : list_to_set (u :: v :: w :: us) = to_aus (split_repr na) ∪ seq_addrs_to_aus (page0 <$> us)).
  { rewrite pages_units, E2. set_solver. }
  assert (Huv : u ≠ v) by set_solver. assert (Huw : u ≠ w) by set_solver. assert (Hvw : v ≠ w) by set_solver.
  destruct (split_enabled s σ key d rq na (page0 <$> us) I Hs) as (s'&ds&new&Hn).
  - by rewrite <-E.
  - done.
  - rewrite E2, pages_units. set_solver.
  - by apply pages_apart.
  - done.
  - split; [done|]. split; [by apply pages_nodup|]. split; [by rewrite fmap_length|]. split.
    + unfold split_no_dup, na. cbn. split_and!; intros [=]; done.
    + intros a Ha Hb. apply elem_of_list_to_set, elem_of_list_fmap in Hb as (x&->&Hx). unfold split_repr, na in Ha. cbn [sa_left sa_right sa_parent] in Ha.
      rewrite !elem_of_union, !elem_of_singleton in Ha. destruct Ha as [[Ha|Ha]|Ha]; injection Ha as ->; set_solver.
  - exists s', ds, new, na, (page0 <$> us). by rewrite E.
Qed.
End Flow.
