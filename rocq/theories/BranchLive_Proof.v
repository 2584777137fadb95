(** The be-tree whose buffers are branches can always write its memtable out and
    be frozen, and can always give up unfinished work (C54). *)
From Verif Require Import Spec_Model Spec_Proof Abs_Model Betree_Model Betree_Spec Route_Proof Routed_Proof Branch_Spec Branch_Proof BranchPages_Proof BranchBuild_Proof.
From Verif Require Import LinkedBetree_Model LinkedBetree_Spec LikesBetree_Model LikesBetree_Spec LinkedBetree_Proof LinkedBetree_Facts
  LikesTree_Proof LikesOps_Proof LikesBetree_Proof LikesBetree_Facts BranchSkel_Proof BranchCompact_Proof
  BranchBetree_Model BranchBetree_Spec BranchBuffer_Proof BranchForest_Proof BranchBetree_Proof BranchSteps_Proof BranchOps_Proof BranchFlush_Proof
  BranchBetree_Facts Tree_Live.
From Verif Require FilteredBetree_Proof.
From stdpp Require Import sorting.
From Coq Require Import ZifyBool ZifyNat ZifyN Lia.
Implicit Types (s : ABB.State) (σ : LikesBetree.State) (r a : Address).

(** ** A sorted list of the entries of a buffer *)
Definition entry_le (x y : N * Message) : Prop := (x.1 ≤ y.1)%N.
Local Instance entry_le_dec x y : Decision (entry_le x y).
Proof. unfold entry_le. apply _. Defined.
Lemma entries_sorted (B : gmap N Message) : ∃ keys msgs,
  length keys = length msgs ∧ keys_strictly_sorted keys ∧ list_to_map (zip keys msgs) = B ∧ (B ≠ ∅ → 0 < length keys).
Proof.
  set (l := merge_sort entry_le (map_to_list B)).
  assert (Hp : l ≡ₚ map_to_list B) by apply merge_sort_Permutation.
  assert (Htr : Transitive entry_le) by (intros x y z; unfold entry_le; lia).
  assert (Htot : Total entry_le) by (intros x y; unfold entry_le; lia).
  assert (Hs : StronglySorted entry_le l) by (apply Sorted_StronglySorted; [done|by apply (Sorted_merge_sort entry_le)]).
  assert (Hnd : base.NoDup l.*1) by (rewrite Hp; apply NoDup_fst_map_to_list).
  assert (Ez : zip l.*1 l.*2 = l) by apply zip_fst_snd.
  exists l.*1, l.*2. split_and!.
  - by rewrite !fmap_length.
  - clear Hp Ez. intros i j x y Hij Hi Hj. rewrite list_lookup_fmap in Hi, Hj.
    destruct (l !! i) as [p|] eqn:Ei; [|done]. destruct (l !! j) as [q|] eqn:Ej; [|done]. cbn in Hi, Hj. injection Hi as <-. injection Hj as <-.
    split.
    + clear Hnd. revert i j Hij Ei Ej. induction Hs as [|z l Hs IH Hall]; intros i j Hij Ei Ej; [done|].
      destruct j as [|j]; [lia|]. destruct i as [|i]; [|apply (IH i j); [lia|done|done]]. cbn in Ei, Ej. injection Ei as ->.
      rewrite List.Forall_forall in Hall. apply (Hall q). apply elem_of_list_In. by eapply elem_of_list_lookup_2.
    + intros E. assert (i = j); [|lia]. eapply (NoDup_lookup l.*1); [done|by rewrite list_lookup_fmap, Ei|]. rewrite list_lookup_fmap, Ej. cbn. by rewrite E.
  - rewrite Ez. rewrite <-(list_to_map_to_list B). by apply list_to_map_proper.
  - intros Hne. rewrite fmap_length, Hp. destruct (map_to_list B) eqn:E; [|cbn; lia]. apply map_to_list_empty_iff in E. done.
Qed.
Lemma sorted_leaf (keys : list Key) (msgs : list Message) : 0 < length keys → length keys = length msgs → keys_strictly_sorted keys → PBranch.wf (PBranch.Leaf keys msgs).
Proof. intros H1 H2 H3. cbn. done. Qed.

(** ** Disks *)
Lemma nd_wf_restrict (W : gmap Address LNode.t) (S : gset AU) : nd_wf W →
  (∀ a n c, W !! a = Some n → Some c ∈ LNode.children n → au c ∈ S) → nd_wf (filter (λ an : Address * LNode.t, au an.1 ∈ S) W).
Proof.
  intros [H1 H2] Hc. split.
  - intros a n [Hn _]%map_filter_lookup_Some. by apply (H1 a).
  - intros a n [Hn _]%map_filter_lookup_Some. destruct (H2 _ _ Hn) as [N1 N2]. split.
    + intros i q Hq c ->. destruct (N1 i (Some c) Hq c eq_refl) as [m Hm]. exists m. apply map_filter_lookup_Some. split; [done|]. cbn.
      eapply Hc; [exact Hn|]. by eapply elem_of_list_lookup_2.
    + intros i c m Hi [Hm _]%map_filter_lookup_Some. by apply (N2 i c).
Qed.
Lemma stores_more (d d' : BranchDisk) n : d ⊆ d' → ∀ a, stores d a n → stores d' a n.
Proof.
  intros Hs a Hst. induction Hst as [a keys msgs Ha|a pivots addrs aux children Ha Hl Hc IH].
  - apply stores_leaf. by eapply lookup_weaken.
  - eapply stores_index; [by eapply lookup_weaken|done|done].
Qed.
Lemma answers_more dv dv' (d d' : BranchDisk) p k m : dv ⊆ dv' → d ⊆ d' → disk_branch_answers dv d p k m → disk_branch_answers dv' d' p k m.
Proof.
  intros Hv Hd Ha. induction Ha as [k|a n k i lo hi p ofs ts m Hn Hlo Hhi H1 H2 Hc Ho Hts Ha IH]; [constructor|].
  apply (branch_answers_node dv' d' a n k i lo hi p ofs); try done; [exact (lookup_weaken _ _ _ _ Hn Hv)|].
  eapply Forall2_impl; [exact Hts|]. intros ba t. by apply stores_more.
Qed.

Section Live.
Context `{Geometry} (fixed grow : bool).
Local Instance bb : Buffer BranchNode := branch_buffer fixed.
Notation bdv s := (lb_bdv (root (ABB.betree s))).
Notation ndv s := (lb_dv (root (ABB.betree s))).
Notation atree σ := (root (LikesBetree.betree σ)).
Notation tr s σ := (tracked (LikesBetree.buf_likes σ) (ABB.compactors s)).
Notation binv := (binv fixed).
Notation bstep := (bstep fixed).

(** The tree in the pages and the image of it hold one map. *)
Lemma image_holds s σ : binv s σ → ∃ m, Betree_Spec.holds linked_answers (Linked.i_bdv (root (ABB.betree s))) m ∧
  Betree_Spec.holds branch_answers (root (ABB.betree s)) m.
Proof.
  intros I. pose proof (b_skel _ _ _ I) as Hsk. set (T := root (ABB.betree s)) in *.
  destruct (b_exact _ _ _ I) as (Hli&_). pose proof (linv_legal _ Hli) as (Hac&Hbd&Htot). destruct Hli as (Hw&t&Ht&_).
  assert (Hsk' : skel (Linked.i_bdv T) (atree σ)) by exact Hsk.
  assert (Hw' : Linked.wf (Linked.i_bdv T)) by by rewrite (skel_wf _ _ Hsk').
  destruct (linked_repr_exists (Linked.i_bdv T)) as [t' Ht'].
  { by rewrite (skel_acyclic _ _ Hsk'). }
  { intros ba Hba. assert (Hr : Linked.reachable_buffer T ba) by exact Hba.
    destruct (root_some _ _ _ (b_forest _ _ _ I) (i_tracked _ _ _ I _ Hr)) as [x Hx]. cbn. unfold Linked.bd_i. rewrite map_lookup_imap. fold T in Hx. rewrite Hx. by eexists. }
  assert (Hcov : covers_all_keys t').
  { apply (cover_iff _ _ Hw' Ht'). intros n (a&Ha&Hn). apply Htot. destruct Hsk as [E1 E2]. exists a. rewrite <-E1, <-E2. done. }
  assert (Hh : Betree_Spec.holds linked_answers (Linked.i_bdv T) (den filtered_held t')).
  { apply (holds_iff _ _ _ Hw' Ht'). apply (holds_den Filtered.dwf); [|done]. by apply (repr_wf _ _ _ _ (proj1 Hw') Ht'). }
  eexists. split; [exact Hh|]. intros k v. rewrite <-(Hh k v).
  apply branch_image; [apply I|]. intros a n ba Hr Hn Hba. apply (f_tree _ _ (b_forest _ _ _ I)). apply (i_tracked _ _ _ I). by exists a, n.
Qed.

(** ** Writing a finished branch to the tree *)
(** No page names a node in the unit of the root. *)
Definition root_alone s : Prop :=
  ∀ g a n c, lb_root (root (ABB.betree s)) = Some g → ndv s !! a = Some n → Some c ∈ LNode.children n → au c ≠ au g.
Definition kept_aus s (a2 : Address) : AULikes := ABB.betree_aus s ∖ to_au_likes (root_likes (root (ABB.betree s))) ⊎ {[+ au a2 +]}.
Definition push_result s (a2 a1 : Address) keys msgs : BState BLB :=
  mkBS (mt_drain (memtable (ABB.betree s)))
    (mkLB (Some a2)
       (filter (λ an : Address * LNode.t, au an.1 ∈ mdom (kept_aus s a2))
          (lb_dv (Linked.push_memtable (root (ABB.betree s)) (LBranch.Leaf (T:=gset nat) keys msgs) (mkTwo a2 a1))))
       (LBranch.merge_disk (bdv s) {[a1 := LBranch.Leaf keys msgs]})).
Lemma kept_other s a2 c g : lb_root (root (ABB.betree s)) = Some g → au c ∈ mdom (ABB.betree_aus s) → au c ≠ au g → au c ∈ mdom (kept_aus s a2).
Proof.
  intros Hg Hc Hne. unfold kept_aus, root_likes. rewrite Hg. apply elem_mdom in Hc. apply elem_mdom, gmultiset_elem_of_disj_union. left.
  destruct (ndv s !! g); [|rewrite to_au_empty; multiset_solver]. rewrite to_au_singleton.
  apply elem_of_multiplicity in Hc. apply elem_of_multiplicity. rewrite multiplicity_difference, multiplicity_singleton_ne by done. rewrite Nat.sub_0_r. exact Hc.
Qed.
Lemma push_enabled s σ i w a1 a2 keys msgs : binv s σ → ABB.is_fresh s {[au a2]} → root_alone s → is_Some (lb_root (root (ABB.betree s))) →
  ABB.wip_branches s !! i = Some w → ABranch.sealed w = true → ABranch.branch w = Some (LBranch.mk a1 {[a1 := LBranch.Leaf keys msgs]}) →
  PBranch.wf (PBranch.Leaf keys msgs) → list_to_map (zip keys msgs) = mt_buffer (memtable (ABB.betree s)) →
  let new := push_result s a2 a1 keys msgs in
  ABB.internal_flush_memtable fixed s
    (ABB.mkState new (kept_aus s a2) (ABB.branch_aus s ⊎ {[+ au a1 +]})
       (<[au a1 := ABranch.get_summary (LBranch.mk a1 {[a1 := LBranch.Leaf keys msgs]})]> (ABB.branch_summary s)) (ABB.compactors s) (delete i (ABB.wip_branches s)))
    (ABB.Int {[au a2]} (mdom (ABB.betree_aus s) ∖ mdom (kept_aus s a2))) new i a2.
Proof.
  intros I Hf Hal [g Hg] Hi Hsl Hb Hleaf Hmap new. set (b := LBranch.mk a1 {[a1 := LBranch.Leaf keys msgs]}) in *.
  pose proof (b_skel _ _ _ I) as Hsk. destruct (b_exact _ _ _ I) as ((Hw&_)&_).
  destruct (add_branch _ _ _ _ _ _ I Hi Hsl Hb) as [AF AS Anew Aun Aold Asub Aus Anot].
  assert (Hwip : au a1 ∈ ABB.branch_allocator_aus s) by (apply elem_alloc_aus; eauto).
  assert (Hfr : Linked.is_fresh (atree σ) (two_repr (mkTwo a2 a1))).
  { apply (i_fresh _ _ _ I). unfold two_repr. cbn [addr1 addr2]. intros a [->%elem_of_singleton| ->%elem_of_singleton]%elem_of_union.
    - destruct Hf as (F1&F2&_). set_solver.
    - split; intros Hx; [exact (b_dis2 _ _ _ I _ Hx Hwip)|exact (b_dis3 _ _ _ I _ Hx Hwip)]. }
  assert (Hne : a2 ≠ a1) by (intros ->; destruct Hf as (_&_&F3); set_solver).
  assert (Hkeep : au a2 ∈ mdom (kept_aus s a2)).
  { apply elem_mdom, gmultiset_elem_of_disj_union. right. by apply gmultiset_elem_of_singleton. }
  set (W := Linked.push_memtable (root (ABB.betree s)) (LBranch.Leaf (T:=gset nat) keys msgs) (mkTwo a2 a1)) in *.
  assert (HwW : Linked.wf W).
  { apply (proj2 (skel_wf _ _ (skel_push _ _ (LBranch.Leaf (T:=gset nat) keys msgs) (mt_buffer (memtable (ABB.betree s))) (mkTwo a2 a1) Hsk))).
    by apply push_wf. }
  destruct (proj2 Hw g) as [gn Hgn]; [destruct Hsk as [E1 E2]; by rewrite <-E1|].
  assert (Hgn' : ndv s !! g = Some gn) by (destruct Hsk as [E1 E2]; by rewrite E2).
  assert (EW : lb_dv W = <[a2 := LNode.extend_buffer_seq gn [a1]]> (ndv s)).
  { unfold W, Linked.push_memtable. cbn [lb_dv addr1 addr2]. rewrite Hg, Hgn'. done. }
  assert (Hch : ∀ a n c, ndv s !! a = Some n → Some c ∈ LNode.children n → au c ∈ mdom (kept_aus s a2)).
  { intros a n c Hn Hc. eapply kept_other; [exact Hg| |by eapply Hal]. apply (b_nodes _ _ _ I). apply elem_of_dom.
    destruct Hw as [[_ Hnd] _]. destruct Hsk as [E1 E2]. rewrite E2 in Hn |- *. apply elem_of_list_lookup in Hc as [j Hj].
    by apply (proj1 (Hnd _ _ Hn) j (Some c) Hj). }
  assert (Enew : lb_dv (root new) !! a2 = Some (LNode.extend_buffer_seq gn [a1])).
  { unfold new, push_result. cbn [root lb_dv]. fold W. apply map_filter_lookup_Some. split; [rewrite EW; apply lookup_insert|done]. }
  assert (Hwn : Linked.wf (root new)).
  { split.
    - unfold new, push_result. cbn [root lb_dv]. fold W. apply nd_wf_restrict; [apply HwW|]. intros a n c. rewrite EW.
      intros [[<- <-]|[_ Hn]]%lookup_insert_Some Hc; [|by eapply Hch]. cbn [LNode.extend_buffer_seq LNode.children] in Hc. by eapply Hch.
    - intros a [= <-]. eauto. }
  assert (Erl : root_likes (root new) = {[+ a2 +]}).
  { unfold root_likes. change (lb_root (root new)) with (Some a2). cbv iota. by rewrite Enew. }
  assert (Hst : stores (lb_bdv (root new)) a1 (PBranch.Leaf keys msgs)).
  { apply stores_leaf. unfold new, push_result. cbn [root lb_bdv]. unfold LBranch.merge_disk. apply lookup_union_Some_l, lookup_singleton. }
  assert (Er : LBranch.root_node b = LBranch.Leaf keys msgs) by (unfold LBranch.root_node, b; cbn; by rewrite lookup_singleton).
  eexists _, _, w, b. split; [reflexivity|]. split; [done|]. split; [done|]. split; [done|]. split; [done|]. cbv zeta. rewrite Er.
  unfold flush_memtable_au_likes, ABB.linked. rewrite Erl, to_au_singleton. change (LBranch.root b) with a1. cbn [addr2 fst snd].
  split; [|split_and!; try done].
  - split; [done|]. split; [done|]. split.
    + change (node_buffer (branch_tree (lb_bdv (root new)) a1) = mt_buffer (memtable (ABB.betree s))).
      rewrite (branch_tree_stores (lb_bdv (root new)) a1 _ (f_wf _ _ AF) Hst). rewrite node_buffer_contents by done. exact Hmap.
    + split; [|done]. split; [done|]. split; [done|]. fold W. split.
      * unfold new, push_result. cbn [root lb_dv]. fold W. apply map_filter_subseteq.
      * intros a x y Hx Hy. unfold new, push_result in Hx. cbn [root lb_bdv] in Hx. unfold LBranch.merge_disk in Hx.
        unfold W, Linked.push_memtable in Hy. cbn [lb_bdv addr2] in Hy.
        destruct (decide (a = a1)) as [->|Hna].
        -- rewrite lookup_insert in Hy. rewrite (lookup_union_Some_l _ _ _ (LBranch.Leaf keys msgs)) in Hx by apply lookup_singleton. congruence.
        -- rewrite lookup_insert_ne in Hy by done. rewrite lookup_union_r in Hx by by rewrite lookup_singleton_ne. congruence.
  - fold W. apply set_eq. intros a. unfold restrict_domain_au. rewrite elem_of_filter, !elem_of_dom. unfold new, push_result. cbn [root lb_dv]. fold W. split.
    + intros [x [Hx Ha]%map_filter_lookup_Some]. split; [done|by eexists].
    + intros [Ha [x Hx]]. exists x. by apply map_filter_lookup_Some.
Qed.

(** ** Freezing *)
Lemma fresh_unit s σ u : binv s σ → ¬ needed s u → ABB.is_fresh s {[u]}.
Proof.
  intros I Hn. rewrite (needed_iff _ _ _ _ I) in Hn. unfold held in Hn. rewrite !elem_of_union in Hn.
  split_and!; intros x Hx ->%elem_of_singleton; tauto.
Qed.
Lemma freeze_step s : mt_is_empty (memtable (ABB.betree s)) →
  ABB.next fixed grow s s (ABB.Lbl (FreezeAs (mkStamped (Linked.i_bdv (root (ABB.betree s))) (mt_seq_end (memtable (ABB.betree s)))))).
Proof.
  intros He. left. exists (ABB.betree s). eexists. split; [reflexivity|]. split; [done|]. split; [|by destruct s].
  right; right; left. split; [done|]. done.
Qed.
(** Starting and finishing a branch of one page. *)
Lemma build_one s σ u keys msgs : binv s σ → ABB.is_fresh s {[u]} → u < au_count → 0 < page_count → PBranch.wf (PBranch.Leaf keys msgs) →
  ∃ ls w, run (ABB.next fixed grow) s ls (ABB.mkState (ABB.betree s) (ABB.betree_aus s) (ABB.branch_aus s) (ABB.branch_summary s) (ABB.compactors s) (ABB.wip_branches s ++ [w])) ∧
    Forall (λ l, ∃ alls deallocs, l = ABB.Int alls deallocs ∧ alls ⊆ {[u]}) ls ∧
    ABranch.sealed w = true ∧ ABranch.branch w = Some (LBranch.mk (mkAddr u 0) {[mkAddr u 0 := LBranch.Leaf keys msgs]}) ∧
    all_aus (ABranch.mini_allocator w) ⊆ {[u]}.
Proof.
  intros I Hf Hu Hp (Hk1&Hk2&Hk3). set (w1 := ABranch.new {[u]}). set (w2 := ABranch.branch_initialize w1 (mkAddr u 0) keys msgs).
  set (w3 := ABranch.branch_seal w2 None (removable_aus (ABranch.mini_allocator w2))).
  set (st w := ABB.mkState (ABB.betree s) (ABB.betree_aus s) (ABB.branch_aus s) (ABB.branch_summary s) (ABB.compactors s) (ABB.wip_branches s ++ [w])).
  assert (El : allocs (ABranch.mini_allocator w1) !! u = Some (pa_new u)).
  { unfold w1, ABranch.new. cbn [ABranch.mini_allocator]. rewrite add_lookup. cbn. rewrite lookup_empty, decide_True by by apply elem_of_singleton. done. }
  assert (Hca : can_allocate (ABranch.mini_allocator w1) (mkAddr u 0)).
  { exists (pa_new u). split; [exact El|]. split; [done|]. split; [done|]. cbn. set_solver. }
  assert (Ha1 : all_aus (ABranch.mini_allocator w1) = {[u]}).
  { unfold w1, ABranch.new. cbn [ABranch.mini_allocator]. rewrite add_all. unfold all_aus. cbn. rewrite dom_empty_L. set_solver. }
  assert (Ha2 : all_aus (ABranch.mini_allocator w2) = {[u]}).
  { unfold w2, ABranch.branch_initialize. cbn [ABranch.mini_allocator]. by rewrite allocate_all. }
  assert (Hb : ∀ w w' e deallocs, ABranch.build_next w w' (e, ∅, deallocs) → ABB.next fixed grow (st w) (st w') (ABB.Int ∅ deallocs)).
  { intros w w' e deallocs Hbn. right; right; left. exists (length (ABB.wip_branches s) + 0), w', e, ∅, deallocs, w.
    split; [done|]. split; [split_and!; apply disjoint_empty_r|]. split; [|split].
    - cbn. rewrite lookup_app_r by lia. by replace (_ - _) with 0 by lia.
    - unfold ABB.builds. destruct grow; [by left|done].
    - unfold st. cbn. by rewrite insert_app_r. }
  exists [ABB.Int {[u]} ∅; ABB.Int ∅ ∅; ABB.Int ∅ (removable_aus (ABranch.mini_allocator w2))], w3. split; [|split_and!].
  - apply run_cons with (st w1); [|apply run_cons with (st w2); [|apply run_one]].
    + right; left. exists {[u]}. done.
    + apply (Hb w1 w2 (ABranch.Initialize (mkAddr u 0) keys msgs)). split; [done|]. split; [done|]. split; [|done].
      split; [done|]. split; [|done]. apply set_eq. intros v. rewrite elem_reserved_aus. split; [|set_solver].
      intros (p&Hp'&Hr). unfold w1, ABranch.new in Hp'. cbn [ABranch.mini_allocator] in Hp'. rewrite add_lookup in Hp'. cbn in Hp'. rewrite lookup_empty in Hp'.
      destruct (decide _); [|done]. injection Hp' as <-. done.
    + apply (Hb w2 w3 (ABranch.Seal None)). split; [done|]. split; [|done]. split; [done|]. eexists. split; [reflexivity|]. split; [|done].
      unfold LBranch.root_node. cbn. rewrite lookup_singleton. cbn. split; [by intros []|done].
  - repeat constructor; eexists _, _; (split; [reflexivity|]); set_solver.
  - done.
  - done.
  - unfold w3, ABranch.branch_seal. cbn [ABranch.mini_allocator]. rewrite prune_all, Ha2. set_solver.
Qed.
Lemma inv_steps s σ ls s' : binv s σ → run (ABB.next fixed grow) s ls s' → ∃ σ', binv s' σ'.
Proof.
  intros I Hr. induction Hr as [s|s ls s1 l s2 Hr IH Hn]; [eauto|]. destruct (IH I) as [σ1 I1].
  destruct (abb_step _ _ _ _ _ _ I1 Hn) as (σ2&I2&_). eauto.
Qed.
Lemma state_writes (P Q : gset AU) ls : P ⊆ Q →
  Forall (λ l, ∃ alls deallocs, l = ABB.Int alls deallocs ∧ alls ⊆ P) ls → Forall (λ l, ∃ alls deallocs, l = ABB.Int alls deallocs ∧ alls ⊆ Q) ls.
Proof. intros HPQ HF. eapply Forall_impl; [exact HF|]. intros l (alls&d&->&Hs). exists alls, d. split; [done|]. set_solver. Qed.

Lemma inv_can_freeze s σ u1 u2 u3 : binv s σ → base.NoDup [u1; u2; u3] → Forall (λ u, u < au_count ∧ ¬ needed s u) [u1; u2; u3] → 0 < page_count →
  ∃ ls' s', run (ABB.next fixed grow) s ls' s' ∧
    Forall (λ l, ∃ alls deallocs, l = ABB.Int alls deallocs ∧ alls ⊆ {[u1; u2; u3]}) ls' ∧
    mt_is_empty (memtable (ABB.betree s')) ∧ mt_seq_end (memtable (ABB.betree s')) = mt_seq_end (memtable (ABB.betree s)) ∧
    ABB.compactors s' = ABB.compactors s ∧ ABB.wip_branches s' = ABB.wip_branches s ∧
    ∃ m, state_holds branch_answers (ABB.betree s) m ∧ Betree_Spec.holds linked_answers (Linked.i_bdv (root (ABB.betree s'))) m.
Proof.
  intros I Hnd Hall Hpc. destruct (image_holds _ _ I) as (m0&Hm0&Hb0).
  destruct (decide (mt_buffer (memtable (ABB.betree s)) = ∅)) as [He|Hne].
  { exists [], s. split; [constructor|]. split; [constructor|]. split; [done|]. split; [done|]. split; [done|]. split; [done|].
    exists m0. split; [|done]. exists m0. split; [done|]. intros k. by rewrite He, lookup_empty. }
  assert (Hu : ∀ u, u ∈ [u1; u2; u3] → u < au_count ∧ ABB.is_fresh s {[u]}).
  { intros u Hin. rewrite stdpp.list.Forall_forall in Hall. destruct (Hall u Hin) as [H1 H2]. split; [done|]. by eapply fresh_unit. }
  apply stdpp.list.NoDup_cons in Hnd as [N1 Hnd]. apply stdpp.list.NoDup_cons in Hnd as [N2 _].
  assert (D12 : u1 ≠ u2) by set_solver. assert (D13 : u1 ≠ u3) by set_solver. assert (D23 : u2 ≠ u3) by set_solver.
  destruct (Hu u1) as [L1 (F1a&F1b&F1c)]; [set_solver|]. destruct (Hu u2) as [L2 (F2a&F2b&F2c)]; [set_solver|]. destruct (Hu u3) as [L3 F3]; [set_solver|].
  pose proof F3 as (F3a&F3b&F3c).
  set (a3 := mkAddr u3 0). set (a2 := mkAddr u2 0). set (a1 := mkAddr u1 0).
  set (T := root (ABB.betree s)) in *.
  set (s1 := ABB.mkState (mkBS (memtable (ABB.betree s)) (Linked.grow T a3)) (ABB.betree_aus s ⊎ {[+ u3 +]}) (ABB.branch_aus s) (ABB.branch_summary s)
    (ABB.compactors s) (ABB.wip_branches s)).
  assert (Hg : ABB.next fixed grow s s1 (ABB.Int {[u3]} ∅)).
  { do 5 right; left. exists (mkBS (memtable (ABB.betree s)) (Linked.grow T a3)), a3. split; [done|]. split; [done|]. done. }
  destruct (abb_step _ _ _ _ _ _ I Hg) as (σ1&I1&_).
  assert (Fm : ∀ u, u ≠ u3 → ABB.is_fresh s {[u]} → ABB.is_fresh s1 {[u]}).
  { intros u Hn (Fa&Fb&Fc). split_and!; [|exact Fb|exact Fc]. cbn. intros x Hx ->%elem_of_singleton.
    apply elem_mdom, gmultiset_elem_of_disj_union in Hx as [Hx|Hx%gmultiset_elem_of_singleton]; [|done].
    apply (Fa u); [by apply elem_mdom|by apply elem_of_singleton]. }
  destruct (entries_sorted (mt_buffer (memtable (ABB.betree s)))) as (keys&msgs&K1&K2&K3&K4).
  assert (Hleaf : PBranch.wf (PBranch.Leaf keys msgs)) by (apply sorted_leaf; auto).
  destruct (build_one s1 σ1 u1 keys msgs I1) as (lsb&w&Hrb&Hlb&Hs&Hb&Ha); [apply Fm; [done|done]|done|done|done|].
  match type of Hrb with run _ _ _ ?x => set (s4 := x) in * end.
  destruct (inv_steps _ _ _ _ I1 Hrb) as [σ4 I4].
  assert (Hold : ∀ a n c, lb_dv T !! a = Some n → Some c ∈ LNode.children n → au c ∈ mdom (ABB.betree_aus s)).
  { intros a n c Hn Hc. apply (b_nodes _ _ _ I). apply elem_of_dom. destruct (b_exact _ _ _ I) as ((((_&Hnd')&_)&_)&_).
    destruct (b_skel _ _ _ I) as [E1 E2]. fold T in E1, E2 |- *. rewrite E2 in Hn |- *. apply elem_of_list_lookup in Hc as [j Hj].
    by apply (proj1 (Hnd' _ _ Hn) j (Some c) Hj). }
  assert (Hroot : ∀ c, lb_root T = Some c → au c ∈ mdom (ABB.betree_aus s)).
  { intros c Hc. apply (b_nodes _ _ _ I). apply elem_of_dom. destruct (b_exact _ _ _ I) as (((_&Hd)&_)&_).
    destruct (b_skel _ _ _ I) as [E1 E2]. fold T in E1, E2 |- *. rewrite E2. apply Hd. by rewrite <-E1. }
  assert (Hal : root_alone s4).
  { intros g a n c [= <-] Hn Hc. cbn [a3 au]. assert (Hin : au c ∈ mdom (ABB.betree_aus s)).
    - cbn in Hn. apply lookup_insert_Some in Hn as [[_ <-]|[_ Hn]]; [|by eapply Hold]. cbn in Hc.
      apply elem_of_list_singleton in Hc. by apply Hroot.
    - intros E. apply (F3a (au c) Hin). by apply elem_of_singleton. }
  assert (Hf4 : ABB.is_fresh s4 {[u2]}).
  { destruct (Fm u2) as (X1&X2&X3); [done|done|]. split_and!; [exact X1|exact X2|]. intros x Hx ->%elem_of_singleton.
    cbn in Hx. unfold ABB.branch_allocator_aus in Hx. cbn in Hx. apply elem_alloc_aus in Hx as (i&w'&Hi&Hw').
    apply lookup_app_Some in Hi as [Hi|[_ Hi]].
    - apply (X3 u2); [|by apply elem_of_singleton]. apply elem_alloc_aus. eauto.
    - apply elem_of_list_lookup_2, elem_of_list_singleton in Hi as ->. apply Ha in Hw'. apply elem_of_singleton in Hw'. done. }
  assert (Hi4 : ABB.wip_branches s4 !! length (ABB.wip_branches s) = Some w) by (cbn; rewrite lookup_app_r by lia; by rewrite Nat.sub_diag).
  pose proof (push_enabled s4 σ4 (length (ABB.wip_branches s)) w a1 a2 keys msgs I4 Hf4 Hal ltac:(by eexists) Hi4 Hs Hb Hleaf K3) as Hpe. cbv zeta in Hpe.
  match type of Hpe with ABB.internal_flush_memtable _ _ ?x ?y _ _ _ => set (s5 := x) in *; set (l5 := y) in * end.
  assert (Hpush : ABB.next fixed grow s4 s5 l5) by (do 4 right; left; eexists _, _, a2; exact Hpe).
  destruct (abb_step _ _ _ _ _ _ I4 Hpush) as (σ5&I5&_). destruct (image_holds _ _ I5) as (m5&Hm5&Hb5).
  exists ([ABB.Int {[u3]} ∅] ++ lsb ++ [l5]), s5. split.
  { eapply run_app; [by apply run_one|]. eapply run_app; [exact Hrb|by apply run_one]. }
  split.
  { apply Forall_app_2; [|apply Forall_app_2].
    - constructor; [|constructor]. eexists _, _. split; [reflexivity|]. set_solver.
    - eapply state_writes; [|exact Hlb]. set_solver.
    - constructor; [|constructor]. eexists _, _. split; [reflexivity|]. cbn. set_solver. }
  split; [done|]. split; [done|]. split; [done|]. split.
  { cbn. rewrite delete_middle. by rewrite app_nil_r. }
  exists m5. split; [|done]. exists m0. split; [done|]. intros k. apply Hb5. clear Hpe Hpush I5.
  assert (Edv : lb_dv (root (ABB.betree s5)) = filter (λ an : Address * LNode.t, au an.1 ∈ mdom (kept_aus s4 a2))
    (<[a2 := LNode.mk [a1] (domain_to_pivots total_domain) [lb_root T] [0]]> (<[a3 := LNode.mk [] (domain_to_pivots total_domain) [lb_root T] [0]]> (lb_dv T)))).
  { cbn [s5 ABB.betree push_result root lb_dv Linked.push_memtable s4 s1 Linked.grow lb_root addr1 addr2]. by rewrite lookup_insert. }
  assert (Hsub : lb_dv T ⊆ lb_dv (root (ABB.betree s5))).
  { apply map_subseteq_spec. intros a n Hn. assert (Hau : au a ∈ mdom (ABB.betree_aus s)) by (apply (b_nodes _ _ _ I), elem_of_dom; by eexists).
    assert (Ha3 : au a ≠ u3) by (intros E; apply (F3a _ Hau); by apply elem_of_singleton).
    assert (Ha2 : au a ≠ u2) by (intros E; apply (F2a _ Hau); by apply elem_of_singleton).
    rewrite Edv. apply map_filter_lookup_Some. split.
    - rewrite lookup_insert_ne by (intros <-; done). rewrite lookup_insert_ne by (intros <-; done). done.
    - cbn [fst]. eapply (kept_other s4 a2 a a3); [done| |done]. cbn. apply elem_mdom, gmultiset_elem_of_disj_union. left. by apply elem_mdom. }
  assert (Hbs : lb_bdv T ⊆ lb_bdv (root (ABB.betree s5))) by exact (ad_sub _ _ _ _ (add_branch _ _ _ _ _ _ I4 Hi4 Hs Hb)).
  assert (Hq : disk_branch_answers (lb_dv (root (ABB.betree s5))) (lb_bdv (root (ABB.betree s5))) (lb_root T) k (m0 k)).
  { eapply answers_more; [exact Hsub|exact Hbs|]. by apply Hb0. }
  replace (option_list (mt_buffer (memtable (ABB.betree s)) !! k)) with
    (omap (λ t, (list_to_map (contents t) : gmap N Message) !! k) [PBranch.Leaf keys msgs]).
  2: { cbn [omap list_omap contents]. rewrite <-K3. by destruct (_ !! k). }
  apply (branch_answers_node _ _ a2 (LNode.mk [a1] (domain_to_pivots total_domain) [lb_root T] [0]) k 0 (Elem 0) EMax (lb_root T) 0); try done.
  - rewrite Edv. apply map_filter_lookup_Some. split; [apply lookup_insert|]. cbn. apply elem_mdom, gmultiset_elem_of_disj_union. right. by apply gmultiset_elem_of_singleton.
  - cbn. apply N.le_0_l.
  - change (lb_bdv (root (ABB.betree s5))) with (({[a1 := LBranch.Leaf keys msgs]} : BranchDisk) ∪ lb_bdv T).
    constructor; [|constructor]. apply stores_leaf. apply lookup_union_Some_l, lookup_singleton.
Qed.

(** ** Giving up unfinished work *)
Lemma inv_give_up n : ∀ s σ, binv s σ → length (ABB.compactors s) + length (ABB.wip_branches s) = n →
  ∃ ls s', run (ABB.next fixed grow) s ls s' ∧ Forall (λ l, ∃ deallocs, l = ABB.Int ∅ deallocs) ls ∧
    ABB.compactors s' = [] ∧ ABB.wip_branches s' = [] ∧ memtable (ABB.betree s') = memtable (ABB.betree s) ∧
    lb_root (root (ABB.betree s')) = lb_root (root (ABB.betree s)) ∧ ndv s' = ndv s ∧ bdv s' ⊆ bdv s ∧ ∃ σ', binv s' σ'.
Proof.
  induction n as [n IH] using lt_wf_ind. intros s σ I En.
  destruct (ABB.compactors s) as [|c cs] eqn:Ec; [destruct (ABB.wip_branches s) as [|w ws] eqn:Ew|].
  - exists [], s. split; [constructor|]. split; [constructor|]. split_and!; try done. eauto.
  - set (s1 := ABB.mkState (ABB.betree s) (ABB.betree_aus s) (ABB.branch_aus s) (ABB.branch_summary s) (ABB.compactors s) ws).
    assert (Hn : ABB.next fixed grow s s1 (ABB.Int ∅ (all_aus (ABranch.mini_allocator w)))).
    { do 3 right; left. exists 0, w. rewrite Ew. split; [done|]. split; [done|]. done. }
    destruct (abb_step _ _ _ _ _ _ I Hn) as (σ1&I1&_).
    destruct (IH (length (ABB.compactors s1) + length (ABB.wip_branches s1)) ltac:(cbn; rewrite Ec; cbn in *; lia) s1 σ1 I1 eq_refl) as (ls&s'&Hr&HF&H1&H2&H3&H4&H5&H6&H7).
    exists (ABB.Int ∅ (all_aus (ABranch.mini_allocator w)) :: ls), s'. split; [by eapply run_cons|]. split; [constructor; [by eexists|done]|]. done.
  - assert (Hn : ∃ s1 dl, ABB.internal_compact_abort s s1 (ABB.Int ∅ dl) 0 ∧ ABB.compactors s1 = cs ∧ ABB.wip_branches s1 = ABB.wip_branches s ∧
      memtable (ABB.betree s1) = memtable (ABB.betree s) ∧ lb_root (root (ABB.betree s1)) = lb_root (root (ABB.betree s)) ∧ ndv s1 = ndv s ∧ bdv s1 ⊆ bdv s).
    { eexists _, _. split; [unfold ABB.internal_compact_abort; split; [rewrite Ec; cbn; lia|split; reflexivity]|]. rewrite Ec. cbn. split_and!; try done. apply map_filter_subseteq. }
    destruct Hn as (s1&dl&Hn&E1&E2&E3&E4&E5&E6).
    assert (Hnx : ABB.next fixed grow s s1 (ABB.Int ∅ dl)) by (do 9 right; left; by exists 0).
    destruct (abb_step _ _ _ _ _ _ I Hnx) as (σ1&I1&_).
    destruct (IH (length (ABB.compactors s1) + length (ABB.wip_branches s1)) ltac:(rewrite E1, E2; cbn in *; lia) s1 σ1 I1 eq_refl) as (ls&s'&Hr&HF&H1&H2&H3&H4&H5&H6&H7).
    exists (ABB.Int ∅ dl :: ls), s'. split; [by eapply run_cons|]. split; [constructor; [by eexists|done]|]. split_and!; try congruence; try done. by etrans.
Qed.

(** ** Runs *)
Lemma run_can_freeze s0 b ls s u1 u2 u3 : ABB.initialize s0 b → run (ABB.next fixed grow) s0 ls s →
  base.NoDup [u1; u2; u3] → Forall (λ u, u < au_count ∧ ¬ needed s u) [u1; u2; u3] → 0 < page_count →
  ∃ ls' s' img m, run (ABB.next fixed grow) s ls' s' ∧
    Forall (λ l, ∃ alls deallocs, l = ABB.Int alls deallocs ∧ alls ⊆ {[u1; u2; u3]}) ls' ∧
    ABB.next fixed grow s' s' (ABB.Lbl (FreezeAs img)) ∧
    st_seq_end img = mt_seq_end (memtable (ABB.betree s)) ∧
    state_holds branch_answers (ABB.betree s) m ∧ Betree_Spec.holds linked_answers (st_value img) m.
Proof.
  intros Hi Hr Hnd Hu Hp. destruct (abb_inv _ _ _ _ _ _ Hi Hr) as [σ I].
  destruct (inv_can_freeze _ _ _ _ _ I Hnd Hu Hp) as (ls'&s'&Hr'&HF&He&Hs&_&_&m&Hm&Hh).
  exists ls', s', (mkStamped (Linked.i_bdv (root (ABB.betree s'))) (mt_seq_end (memtable (ABB.betree s')))), m.
  split; [done|]. split; [done|]. split; [by apply freeze_step|]. done.
Qed.
Lemma run_give_up s0 b ls s : ABB.initialize s0 b → run (ABB.next fixed grow) s0 ls s →
  ∃ ls' s' m, run (ABB.next fixed grow) s ls' s' ∧ Forall (λ l, ∃ deallocs, l = ABB.Int ∅ deallocs) ls' ∧
    memtable (ABB.betree s') = memtable (ABB.betree s) ∧
    Betree_Spec.holds branch_answers (root (ABB.betree s)) m ∧ Betree_Spec.holds branch_answers (root (ABB.betree s')) m ∧
    (∀ r, ¬ being_read s' r) ∧
    (∀ u, needed s' u → (∃ a, node_live (root (ABB.betree s')) a ∧ au a = u) ∨
       ∃ r U, buffer_live (root (ABB.betree s')) r ∧ branch_units (bdv s') r U ∧ u ∈ U).
Proof.
  intros Hi Hr. destruct (abb_inv _ _ _ _ _ _ Hi Hr) as [σ I].
  destruct (inv_give_up _ _ _ I eq_refl) as (ls'&s'&Hr'&HF&Hc&Hw&Hm&E1&E2&E3&σ'&I').
  destruct (image_holds _ _ I) as (m&_&Hh). destruct (image_holds _ _ I') as (m'&_&Hh').
  assert (Hnr : ∀ r, ¬ being_read s' r) by (intros r (c&Hcc&_); rewrite Hc in Hcc; by apply elem_of_nil in Hcc).
  assert (Em : ∀ k, m' k = m k).
  { intros k. symmetry. apply Hh. unfold branch_answers. rewrite <-E1, <-E2. eapply answers_more; [reflexivity|exact E3|]. by apply Hh'. }
  exists ls', s', m. split; [done|]. split; [done|]. split; [done|]. split; [done|]. split; [|split; [done|]].
  - intros k v. rewrite <-(Em k). apply Hh'.
  - intros u ([|r|i]&Ho); cbn in Ho.
    + by left.
    + right. destruct Ho as ([Hl|Hb]&U&HU&Hin); [|by apply Hnr in Hb]. eauto 10.
    + destruct Ho as (w&Hw'&_). rewrite Hw in Hw'. done.
Qed.
End Live.
