(** On an image whose nodes are in different allocation units, a compaction can be
    finished whenever its input is still in the tree (C54). The membership test is
    the corrected one. *)
From Verif Require Import Spec_Model Spec_Proof Abs_Model Betree_Model Betree_Spec Route_Proof Routed_Proof Branch_Spec Branch_Proof BranchPages_Proof BranchBuild_Proof.
From Verif Require Import LinkedBetree_Model LinkedBetree_Spec LikesBetree_Model LikesBetree_Spec LinkedBetree_Proof LinkedBetree_Facts
  LikesTree_Proof LikesOps_Proof LikesBetree_Proof LikesBetree_Facts BranchSkel_Proof BranchCompact_Proof
  BranchBetree_Model BranchBetree_Spec BranchBuffer_Proof BranchForest_Proof BranchBetree_Proof BranchSteps_Proof BranchOps_Proof BranchFlush_Proof
  BranchBetree_Facts BranchLive_Spec BranchLive_Proof BranchFlow_Proof.
From Verif Require FilteredBetree_Proof.
From Coq Require Import ZifyBool ZifyNat ZifyN Lia.
Implicit Types (s : ABB.State) (σ : LikesBetree.State) (r : Address).

(** ** Messages that change nothing *)
Lemma merge_nop x y : Spec_Model.merge x y = Update nop_delta → x = Update nop_delta ∧ y = Update nop_delta.
Proof.
  destruct x as [v|d], y as [v'|e]; cbn; try done. unfold combine_deltas. intros H. injection H as H.
  destruct (N.eqb_spec e nop_delta) as [E1|E1]; [by rewrite H, E1|]. destruct (N.eqb_spec d nop_delta) as [E2|E2]; congruence.
Qed.
Lemma query_some {T} `{!Buffer T} (bd : gmap Address T) k bs x : x ∈ bs → Linked.bd_query bd x k ≠ Update nop_delta →
  Linked.bd_query_all bd bs k ≠ Update nop_delta.
Proof.
  induction bs as [|y bs IH]; intros Hx Hq; [by apply elem_of_nil in Hx|]. cbn. intros [E1 E2]%merge_nop.
  apply elem_of_cons in Hx as [->|Hx]; [done|]. by apply IH.
Qed.
Lemma query_found {T} `{!Buffer T} (bd : gmap Address T) k bs : Linked.bd_query_all bd bs k ≠ Update nop_delta →
  ∃ x, x ∈ bs ∧ Linked.bd_query bd x k ≠ Update nop_delta.
Proof.
  induction bs as [|y bs IH]; intros Hq; [done|]. destruct (decide (Linked.bd_query bd y k = Update nop_delta)) as [E|Hne]; [|exists y; split; [left|done]].
  destruct IH as (x&Hx&Hqx); [|exists x; split; [by right|done]]. intros E'. apply Hq. cbn. by rewrite E, E'.
Qed.

(** ** The linked tree *)
Lemma compact_wf (l : SLB) (ft : FTree) t key d a b cb bdv na pa (aus : gmultiset AU) : lunf l t → lrepr l ft → Linked.wf l →
  Linked.can_compact (Linked.path_target l key d) a b cb bdv na → Linked.valid_path_replacement l key d (two_no_dup na) (two_repr na) pa →
  Linked.is_fresh l (two_repr na ∪ list_to_set pa) →
  aus = to_au_likes (nodes t) ∖ to_au_likes (compact_discard_betree l key d) ⊎ to_au_likes (compact_add_betree na pa) →
  let w := Linked.post_compact l key d a b cb na pa in
  dom (lb_dv w) = dom (lb_dv l) ∪ ({[addr1 na]} ∪ list_to_set pa) ∧
  (nodes_apart w → Linked.wf (mkLB (lb_root w) (filter (λ an : Address * LNode.t, au an.1 ∈ mdom aus) (lb_dv w)) (lb_bdv w))).
Proof.
  intros Hu Hr Hw Hc Hv Hf Ea w. destruct (fresh_sub _ _ _ Hf) as [Hfa Hfb]. pose proof Hv as (Hpv&Hnd&Hdep&Htd&Hdj).
  destruct (path_repr _ _ _ _ Hr Hpv) as [Hpv' Htr].
  pose proof (compact_repr _ _ a b cb bdv na Htr Hc Htd (fresh_target _ _ _ _ Hfa)) as He.
  destruct (target_disk l key d) as [E1 E2]. unfold extends in He. rewrite E1, E2 in He.
  assert (Hdj1 : ({[addr1 na]} : gset Address) ## list_to_set pa) by (unfold two_repr in Hdj; set_solver).
  destruct (substitute_repr l key d _ ft _ _ pa Hr Hpv Hdep Hnd ltac:(destruct Hfb; set_solver) Hdj1 He) as [Hx _].
  pose proof (can_compact_repr _ _ _ _ _ _ _ Htr Hc) as Hcf.
  destruct (FilteredBetree_Proof.compact_ok _ _ _ _ Hcf) as (H1&H2&H3&H4).
  destruct (substitute_ok Filtered.dwf filtered_held ft key d _ Hpv' H1 H2 H3 H4) as (H5&_).
  split; [exact (proj1 (proj2 (proj2 Hx)))|]. intros Hap.
  eapply op_wf; [by eapply op_compact|exact Ea|exact Hx|exact H5|exact Hap].
Qed.

Section Merge.
Context `{Geometry} (grow : bool).
Local Instance bb : Buffer BranchNode := branch_buffer true.
Notation bdv s := (lb_bdv (root (ABB.betree s))).
Notation ndv s := (lb_dv (root (ABB.betree s))).
Notation atree σ := (root (LikesBetree.betree σ)).
Notation binv := (binv true).
Notation apart s := (nodes_apart (root (ABB.betree s))).
Notation tr s σ := (tracked (LikesBetree.buf_likes σ) (ABB.compactors s)).

(** The result of a compaction, as a leaf. *)
Lemma leaf_query keys msgs k : PBranch.wf (PBranch.Leaf keys msgs) →
  PBranch.query (PBranch.Leaf keys msgs) k = buf_query (list_to_map (zip keys msgs)) k.
Proof. intros Hw. rewrite <-(node_buffer_query _ _ Hw), (node_buffer_contents _ Hw). done. Qed.
Lemma compact_leaf s σ (nd : LNode.t) i j : binv s σ → LNode.wf nd →
  (∀ y, y ∈ LNode.buffers nd → Linked.reachable_buffer (root (ABB.betree s)) y) →
  ∃ keys msgs, PBranch.wf (PBranch.Leaf keys msgs) ∧
    (∀ k, PBranch.query (PBranch.Leaf keys msgs) k ≠ Update nop_delta ↔ Linked.valid_compact_key_domain (bdv s) nd i j k) ∧
    (∀ k, PBranch.query (PBranch.Leaf keys msgs) k ≠ Update nop_delta →
       PBranch.query (PBranch.Leaf keys msgs) k = Linked.compact_key_value (bdv s) nd i j k).
Proof.
  intros I Hwn Hreach. destruct (compact_exists (lb_bdv (atree σ)) nd i j Hwn) as (B0&HBd&HBv).
  set (B := if decide (B0 = ∅) then {[0%N := Update nop_delta]} else B0).
  assert (Hq : ∀ k, buf_query B k = buf_query B0 k).
  { intros k. unfold B. case_decide as E; [|done]. rewrite E. unfold buf_query. rewrite lookup_empty.
    destruct (decide (k = 0%N)) as [->|Hk]; [by rewrite lookup_singleton|by rewrite lookup_singleton_ne]. }
  destruct (entries_sorted B) as (keys&msgs&K1&K2&K3&K4). exists keys, msgs.
  assert (Hleaf : PBranch.wf (PBranch.Leaf keys msgs)).
  { apply sorted_leaf; [|done..]. apply K4. unfold B. case_decide; [|done]. apply map_non_empty_singleton. }
  split; [done|].
  assert (Hsame : ∀ x k, x ∈ subrange (LNode.buffers nd) i j → Linked.bd_query (bdv s) x k = Linked.bd_query (lb_bdv (atree σ)) x k).
  { intros x k Hx%elem_subrange. apply (i_query _ _ _ I); [by apply Hreach|done]. }
  assert (Hdr : ∀ x n, x ∈ drop n (subrange (LNode.buffers nd) i j) → x ∈ subrange (LNode.buffers nd) i j).
  { intros x n [p Hp]%elem_of_list_lookup. rewrite lookup_drop in Hp. apply elem_of_list_lookup. eauto. }
  assert (Hval : ∀ k, Linked.compact_key_value (bdv s) nd i j k = Linked.compact_key_value (lb_bdv (atree σ)) nd i j k).
  { intros k. unfold Linked.compact_key_value, Linked.bd_query_from. apply query_all_eq. intros x Hx. eauto. }
  assert (Hb : ∀ k, PBranch.query (PBranch.Leaf keys msgs) k = buf_query B0 k) by (intros k; by rewrite leaf_query, K3, Hq).
  assert (Hin : ∀ k, buf_query B0 k ≠ Update nop_delta → is_Some (B0 !! k)).
  { intros k. unfold buf_query. destruct (B0 !! k); [by eexists|done]. }
  split; intros k; rewrite Hb.
  - rewrite (domain_alt _ _ _ _ _ Hwn). split.
    + intros Hne. pose proof (Hin _ Hne) as HS. pose proof HS as HS'. apply HBd, (domain_alt _ _ _ _ _ Hwn) in HS' as (Hk&Hf&_).
      split; [done|]. split; [done|]. rewrite (HBv _ HS), <-Hval in Hne. apply query_found in Hne as (x&Hx&Hqx). exists x. split; [done|].
      unfold Linked.bd_query in Hqx. destruct (bdv s !! x) as [y|] eqn:Ey; [|done]. exists y. split; [done|]. exact Hqx.
    + intros (Hk&Hf&x&Hx&y&Hy&Hqx).
      assert (Hqx' : Linked.bd_query (bdv s) x k ≠ Update nop_delta) by (unfold Linked.bd_query; rewrite Hy; exact Hqx).
      assert (HS : is_Some (B0 !! k)).
      { apply HBd, (domain_alt _ _ _ _ _ Hwn). split; [done|]. split; [done|]. exists x. split; [done|].
        rewrite (Hsame _ _ (Hdr _ _ Hx)) in Hqx'. unfold Linked.bd_query in Hqx'. destruct (lb_bdv (atree σ) !! x) as [z|] eqn:Ez; [|done].
        exists z. split; [done|]. cbn in Hqx' |- *. unfold buf_query in Hqx'. destruct (z !! k); [by eexists|done]. }
      rewrite (HBv _ HS), <-Hval. by eapply query_some.
  - intros Hne. by rewrite (HBv _ (Hin _ Hne)), Hval.
Qed.

Lemma compact_enabled s σ key d i j ii input bi w a1 keys msgs na pa : binv s σ → apart s →
  ABB.is_fresh s (seq_addrs_to_aus pa ∪ {[au na]}) → au na ∉ seq_addrs_to_aus pa → seq_addrs_disjoint_aus pa →
  ABB.compactors s !! ii = Some input → ABB.valid_compactor_input (root (ABB.betree s)) key d i j input →
  ABB.wip_branches s !! bi = Some w → ABranch.sealed w = true → ABranch.branch w = Some (LBranch.mk a1 {[a1 := LBranch.Leaf keys msgs]}) →
  PBranch.wf (PBranch.Leaf keys msgs) →
  (∀ k, PBranch.query (PBranch.Leaf keys msgs) k ≠ Update nop_delta ↔
     Linked.valid_compact_key_domain (bdv s) (Linked.root_node (Linked.path_target (root (ABB.betree s)) key d)) i j k) →
  (∀ k, PBranch.query (PBranch.Leaf keys msgs) k ≠ Update nop_delta → PBranch.query (PBranch.Leaf keys msgs) k =
     Linked.compact_key_value (bdv s) (Linked.root_node (Linked.path_target (root (ABB.betree s)) key d)) i j k) →
  base.NoDup pa → length pa = d →
  ∃ s' deallocs new, ABB.internal_compact_complete true s s' (ABB.Int (seq_addrs_to_aus pa ∪ {[au na]}) deallocs) new key d i j ii bi na pa.
Proof.
  intros I Hap Hf D1 D2 Hii Hin Hi Hs Hb Hleaf Hcd Hcv Hnd Hlen. set (b := LBranch.mk a1 {[a1 := LBranch.Leaf keys msgs]}) in *.
  pose proof (b_skel _ _ _ I) as Hsk. destruct (b_exact _ _ _ I) as ((Hw&ft&Hr&_)&t&Hu&Et&_).
  destruct (add_branch _ _ _ _ _ _ I Hi Hs Hb) as [AF AS Anew Aun Aold Asub Aus Anot]. change (LBranch.root b) with a1 in *. change (LBranch.disk b) with ({[a1 := LBranch.Leaf keys msgs]} : BranchDisk) in *.
  set (ta := mkTwo na a1).
  assert (Hwip : au a1 ∈ ABB.branch_allocator_aus s) by (apply elem_alloc_aus; eauto).
  assert (Hna1 : au na ≠ au a1) by (intros E; destruct Hf as (_&_&F3); set_solver).
  assert (Hpa1 : au a1 ∉ seq_addrs_to_aus pa) by (destruct Hf as (_&_&F3); set_solver).
  pose proof Hin as (Hpv&Hht&Hij&_).
  assert (Hv : Linked.valid_path_replacement (root (ABB.betree s)) key d (two_no_dup ta) (two_repr ta) pa).
  { split; [done|]. split; [done|]. split; [done|]. split; [unfold two_no_dup; cbn; congruence|].
    intros a Ha Hb'. assert (Hau : au a ∈ seq_addrs_to_aus pa) by (apply elem_to_aus; eauto).
    unfold two_repr in Ha. cbn [ta addr1 addr2] in Ha. apply elem_of_union in Ha as [->%elem_of_singleton| ->%elem_of_singleton]; done. }
  pose proof Hv as Hv'. apply (skel_replacement _ _ _ _ _ _ _ Hsk) in Hv'.
  assert (Hfr : Linked.is_fresh (atree σ) (two_repr ta ∪ list_to_set pa)).
  { apply (i_fresh _ _ _ I). unfold two_repr. cbn [addr1 addr2 ta]. intros a Ha. destruct Hf as (F1&F2&_).
    destruct (decide (a = a1)) as [->|Hne].
    - split; intros Hx; [exact (b_dis2 _ _ _ I _ Hx Hwip)|exact (b_dis3 _ _ _ I _ Hx Hwip)].
    - assert (Hau : au a ∈ seq_addrs_to_aus pa ∪ {[au na]}).
      { apply elem_of_union in Ha as [[->%elem_of_singleton|Ha%elem_of_singleton]%elem_of_union|Ha]; [set_solver|done|].
        apply elem_of_union_l. unfold seq_addrs_to_aus. apply elem_to_aus. eauto. }
      split; intros Hx; [exact (F1 _ Hx Hau)|exact (F2 _ Hx Hau)]. }
  pose proof (skel_target _ _ key d Hsk) as Hskt.
  assert (Hht' : Linked.has_root (Linked.path_target (atree σ) key d)) by by rewrite <-(skel_has_root _ _ Hskt).
  assert (Hwt : Linked.wf (Linked.path_target (root (ABB.betree s)) key d)).
  { rewrite (skel_wf _ _ Hskt). destruct (target_disk (atree σ) key d) as [E1 _]. split; rewrite E1; [apply Hw|].
    intros x Hx. destruct Hht' as (n&a&Ea&Ha). rewrite E1 in Ha. replace x with a by congruence. by eexists. }
  set (nd := Linked.root_node (Linked.path_target (root (ABB.betree s)) key d)) in *.
  assert (End : Linked.root_node (Linked.path_target (atree σ) key d) = nd) by (unfold nd; by rewrite (skel_root_node _ _ Hskt)).
  assert (Hwn : LNode.wf nd).
  { destruct Hht as (n&a&Ea&Ha). destruct Hwt as [[Hw' _] _]. unfold nd, Linked.root_node. rewrite Ea, Ha. by eapply Hw'. }
  destruct (compact_exists (lb_bdv (atree σ)) nd i j Hwn) as (B&HBd&HBv).
  pose proof (skel_post_compact _ _ key d i j (LBranch.Leaf (T:=gset nat) keys msgs) B ta pa Hsk) as Hps.
  set (W := Linked.post_compact (root (ABB.betree s)) key d i j (LBranch.Leaf (T:=gset nat) keys msgs) ta pa) in *.
  set (aus := internal_compact_complete_au_likes (root (ABB.betree s)) key d i j ta pa (ABB.betree_aus s) (ABB.branch_aus s)).
  destruct (compact_wf (atree σ) ft t key d i j B ∅ ta pa aus.1 Hu Hr Hw) as [Hdom Hwf]; [|exact Hv'|exact Hfr| |].
  { split; [by rewrite <-(skel_wf _ _ Hskt)|]. split; [done|]. rewrite End. split; [exact Hij|]. rewrite bdv_target. done. }
  { unfold aus. rewrite (skel_compact_likes _ _ _ _ _ _ _ _ _ _ Hsk). unfold internal_compact_complete_au_likes. cbn [fst]. by rewrite (b_aus _ _ _ I), Et. }
  destruct Hps as [P1 P2]. rewrite <-P2 in Hdom.
  assert (HapW : nodes_apart W).
  { eapply (apart_op true s σ W ({[na]} ∪ list_to_set pa) I Hap).
    - destruct Hsk as [_ E2]. rewrite E2. by rewrite Hdom.
    - apply apart_set; [apply single_apart| |done]. rewrite single_aus. set_solver.
    - rewrite to_aus_union, single_aus. destruct Hf as [Hf _]. unfold seq_addrs_to_aus in Hf. set_solver. }
  set (cs := delete ii (ABB.compactors s)).
  set (dead := (dom (ABB.branch_summary s) ∖ mdom aus.2) ∖ read_ref_aus cs).
  set (D := LBranch.merge_disk (bdv s) {[a1 := LBranch.Leaf keys msgs]}) in *.
  set (m1 := <[au a1 := ABranch.get_summary b]> (ABB.branch_summary s)) in *.
  set (B' := restrict_disk D (restrict_domain_au D (summary_aus (remove_keys m1 dead)))).
  set (new := mkBS (memtable (ABB.betree s)) (keep_nodes W aus.1 B')).
  assert (Hwnew : Linked.wf (root new)).
  { unfold new, keep_nodes. cbn [root]. specialize (Hwf ltac:(unfold nodes_apart in *; by rewrite <-P2)). rewrite P1, P2. exact Hwf. }
  (* the branch is on the new disk *)
  set (tr1 := tr s σ ∪ {[a1]}) in *. set (tr' := filter (λ r, au r ∉ dead) tr1).
  assert (Ha1 : a1 ∈ tr').
  { unfold tr'. apply elem_of_filter. split; [|apply elem_of_union_r; by apply elem_of_singleton]. unfold dead. set_solver. }
  assert (Hsub : tr' ⊆ tr1).
  { unfold tr'. intros r [_ Hr']%elem_of_filter. exact Hr'. }
  assert (Hdead : ∀ r, r ∈ tr1 → (au r ∉ dead ↔ r ∈ tr')) by (intros r Hr'; unfold tr'; rewrite elem_of_filter; tauto).
  destruct (retire _ _ _ _ _ AF AS Hsub Hdead _ (restrict_disk_lookup D (summary_aus (remove_keys m1 dead)))) as (F'&_&L'). fold B' in F', L'.
  assert (HD1 : D !! a1 = Some (LBranch.Leaf keys msgs)) by (unfold D, LBranch.merge_disk; apply lookup_union_Some_l, lookup_singleton).
  assert (Hst : stores B' a1 (PBranch.Leaf keys msgs)).
  { apply stores_leaf. rewrite (L' a1 Ha1 a1 (page_root _ _)). exact HD1. }
  assert (Hq : ∀ k, branch_query B' a1 k = PBranch.query (PBranch.Leaf keys msgs) k).
  { intros k. by apply (branch_query_tree _ _ _ _ (f_wf _ _ F') Hst). }
  assert (Er : LBranch.root_node b = LBranch.Leaf keys msgs) by (unfold LBranch.root_node, b; cbn; by rewrite lookup_singleton).
  eexists _, _, new. eexists _, _, input, w, b. split; [reflexivity|]. split; [done|]. split; [done|]. split; [done|]. split; [done|]. split; [done|].
  split; [done|]. split; [done|]. split; [done|]. cbv zeta. change (LBranch.root b) with a1. change (LBranch.disk b) with ({[a1 := LBranch.Leaf keys msgs]} : BranchDisk).
  rewrite Er. unfold ABB.linked. fold ta. fold W. fold aus. fold cs. fold dead. fold D. fold m1. fold B'.
  split; [|split; [reflexivity|split; [reflexivity|split; [apply keep_dom|split; reflexivity]]]].
  split; [done|]. split; [|split; [done|split; [|done]]].
  - split; [done|]. split; [done|]. split; [exact Hij|]. fold nd. rewrite bdv_target. change (lb_bdv (root new)) with B'. cbn [linked_contains linked_query ABB.bb branch_buffer ta addr2].
    split; intros k; rewrite Hq; [apply Hcd|apply Hcv].
  - split; [done|]. split; [done|]. split; [apply map_filter_subseteq|]. fold W. unfold W. rewrite bdv_post_compact. change (lb_bdv (root new)) with B'. cbn [ta addr2].
    intros a x y Hx Hy. apply restrict_disk_lookup in Hx as [Hx _].
    destruct (decide (a = a1)) as [->|Hna].
    + rewrite lookup_insert in Hy. congruence.
    + rewrite lookup_insert_ne in Hy by done. unfold D, LBranch.merge_disk in Hx. rewrite lookup_union_r in Hx by by rewrite lookup_singleton_ne. congruence.
Qed.

Lemma run_can_compact s0 b ls s key d i j ii input u v us : ABB.initialize s0 b → nodes_apart (root b) → run (ABB.next true grow) s0 ls s →
  ABB.compactors s !! ii = Some input → ABB.valid_compactor_input (root (ABB.betree s)) key d i j input →
  length us = d → base.NoDup (u :: v :: us) → Forall (λ u, ¬ needed s u) (u :: v :: us) → u < au_count → 0 < page_count →
  ∃ ls' s1 s' deallocs new bi na pa, run (ABB.next true grow) s ls' s1 ∧
    Forall (λ l, ∃ alls deallocs, l = ABB.Int alls deallocs ∧ alls ⊆ {[u]}) ls' ∧ ABB.betree s1 = ABB.betree s ∧
    ABB.internal_compact_complete true s1 s' (ABB.Int (list_to_set (v :: us)) deallocs) new key d i j ii bi na pa.
Proof.
  intros Hini Hap Hr Hii Hin Hl Hnd HF Hu Hp. destruct (abb_inv _ _ _ _ _ _ Hini Hr) as [σ I]. pose proof (run_apart true grow _ _ _ _ Hini Hap Hr) as Hs.
  apply stdpp.list.NoDup_cons in Hnd as [N1 Hnd]. apply stdpp.list.NoDup_cons in Hnd as [N2 Hnd].
  pose proof (Forall_inv HF) as HFu. pose proof (Forall_inv_tail HF) as HFr.
  pose proof Hin as (Hpv&Hht&_).
  set (nd := Linked.root_node (Linked.path_target (root (ABB.betree s)) key d)) in *.
  assert (Hwn : LNode.wf nd).
  { destruct Hht as (n&a&Ea&Ha). unfold nd, Linked.root_node. rewrite Ea, Ha. rewrite dv_target in Ha.
    pose proof (b_skel _ _ _ I) as [_ E2]. rewrite E2 in Ha. destruct (b_exact _ _ _ I) as ((Hw&_)&_). by eapply (proj1 (proj1 Hw)). }
  destruct (compact_leaf s σ nd i j I Hwn) as (keys&msgs&Hleaf&Hcd&Hcv).
  { intros y Hy. by eapply target_reach. }
  destruct (build_one true grow s σ u keys msgs I) as (lsb&w&Hrb&Hlb&Hsl&Hb&Ha); [by eapply fresh_unit|done|done|done|].
  match type of Hrb with run _ _ _ ?x => set (s4 := x) in * end.
  destruct (inv_steps true grow _ _ _ _ I Hrb) as [σ4 I4].
  assert (Hi4 : ABB.wip_branches s4 !! length (ABB.wip_branches s) = Some w) by (cbn; rewrite lookup_app_r by lia; by rewrite Nat.sub_diag).
  destruct (free_units true _ _ _ I HFr) as (F1&F2&F3).
  assert (E : list_to_set (v :: us) = seq_addrs_to_aus (page0 <$> us) ∪ {[au (page0 v)]}).
  { rewrite pages_units. cbn [page0 au]. set_solver. }
  destruct (compact_enabled s4 σ4 key d i j ii input (length (ABB.wip_branches s)) w (mkAddr u 0) keys msgs (page0 v) (page0 <$> us) I4 Hs)
    as (s'&ds&new&Hn); try done.
  - rewrite <-E. split_and!; [exact F1|exact F2|]. intros x Hx Hxv.
    unfold ABB.branch_allocator_aus in Hx. cbn in Hx. apply elem_alloc_aus in Hx as (p&w'&Hi&Hw').
    apply lookup_app_Some in Hi as [Hi|[_ Hi]].
    + apply (F3 x); [|done]. apply elem_alloc_aus. eauto.
    + apply elem_of_list_lookup_2, elem_of_list_singleton in Hi as ->. apply Ha in Hw'. apply elem_of_singleton in Hw'. subst x.
      apply elem_of_list_to_set in Hxv. done.
  - rewrite pages_units. cbn [page0 au]. by rewrite elem_of_list_to_set.
  - by apply pages_apart.
  - by apply pages_nodup.
  - by rewrite fmap_length.
  - exists lsb, s4, s', ds, new, (length (ABB.wip_branches s)), (page0 v), (page0 <$> us). rewrite E. done.
Qed.
End Merge.

(** ** As written *)
(** Buffers can be compacted only if they hold the same keys. *)
Lemma compact_same_keys `{Geometry} s s' l new key d i j ii bi na pa k x y : ABB.internal_compact_complete false s s' l new key d i j ii bi na pa →
  let nd := Linked.root_node (Linked.path_target (root (ABB.betree s)) key d) in
  let slice := subrange (LNode.buffers nd) i j in
  bounded_key (LNode.pivots nd) k → LNode.flushed_ofs nd k ≤ i → x ∈ slice → y ∈ slice →
  is_Some (lb_bdv (root (ABB.betree s)) !! x) → branch_query (lb_bdv (root (ABB.betree s))) x k = Update nop_delta →
  is_Some (lb_bdv (root (ABB.betree s)) !! y) → branch_query (lb_bdv (root (ABB.betree s))) y k = Update nop_delta.
Proof.
  intros Hc nd slice Hk Hf Hx Hy [xb Hxb] Hxq [yb Hyb]. destruct Hc as (alls&ds&input&w&b&->&_&_&_&_&_&_&_&_&Hc&_).
  destruct Hc as (_&(Hwt&Hht&Hij&Hcd&Hcv)&_). unfold ABB.linked in *. rewrite bdv_target in Hcd, Hcv. fold nd in Hij, Hcd, Hcv.
  assert (Hwn : LNode.wf nd).
  { destruct Hht as (n&a&Ea&Ha). destruct Hwt as [[Hw' _] _]. unfold nd, Linked.root_node. rewrite Ea, Ha. by eapply Hw'. }
  assert (Hdom : @Linked.valid_compact_key_domain _ (branch_buffer false) (lb_bdv (root (ABB.betree s))) nd i j k).
  { apply (domain_alt _ _ _ _ _ Hwn). split; [done|]. split; [lia|]. exists x. replace (LNode.flushed_ofs nd k - i) with 0 by lia. split; [done|].
    exists xb. split; [done|]. exact Hxq. }
  apply Hcd in Hdom. specialize (Hcv k Hdom). cbn in Hdom, Hcv. rewrite Hdom in Hcv.
  destruct (decide (branch_query (lb_bdv (root (ABB.betree s))) y k = Update nop_delta)) as [E|Hne]; [done|]. exfalso.
  unfold Linked.compact_key_value, Linked.bd_query_from in Hcv. replace (LNode.flushed_ofs nd k - i) with 0 in Hcv by lia.
  eapply (query_some (lb_bdv (root (ABB.betree s))) k slice y Hy); [|symmetry; exact Hcv].
  unfold Linked.bd_query. by rewrite Hyb.
Qed.
