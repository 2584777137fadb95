(** The branch pages as a buffer: the functions of the model compute what the
    relational definitions of Branch_Model.v say (C42, C43). *)
From Verif Require Import Spec_Model Spec_Proof Betree_Model Route_Proof Branch_Spec Branch_Proof BranchPages_Proof BranchBetree_Model.
From Coq Require Import Sorting.Sorted Lia ZifyBool ZifyNat ZifyN.
Implicit Types (dv : gmap Address (LBranch.Node (gset nat))) (a : Address).
Notation reach dv := (rtc (names dv)).

Lemma reach_stores dv n : ∀ a x, stores dv a n → reach dv a x → ∃ nx, stores dv x nx ∧ (x = a ∨ height nx < height n).
Proof.
  induction n as [keys msgs|pivots children IH] using node_ind'; intros a x Hs Hr.
  - rewrite reach_leaf in Hr by (by apply stores_leaf_inv). subst. eauto.
  - pose proof Hs as Hs0. apply stores_index_inv in Hs as (addrs & aux & Hd & Hl & Hc).
    rewrite reach_index in Hr by done. destruct Hr as [->|(j & c & Hj & Hr)]; [eauto|].
    destruct (lookup_lt_is_Some_2 children j) as [m Hm]; [rewrite <- Hl; by eapply lookup_lt_Some|].
    destruct (IH j m Hm c x (Hc _ _ _ Hj Hm) Hr) as (nx & H1 & H4). exists nx. split; [done|]. right.
    pose proof (height_child pivots children j m Hm). destruct H4 as [->|H4]; [|lia].
    by rewrite (stores_det _ _ _ _ H1 (Hc _ _ _ Hj Hm)).
Qed.
(** A stored tree is no higher than the number of pages. *)
Lemma stores_size n : ∀ dv a, stores dv a n → height n ≤ size dv.
Proof.
  induction n as [keys msgs|pivots children IH] using node_ind'; intros dv a Hs; [simpl; lia|].
  pose proof Hs as Hs0. apply stores_index_inv in Hs as (addrs & aux & Hd & Hl & Hc).
  assert (0 < size dv).
  { destruct (size dv) eqn:E; [|lia]. apply map_size_empty_iff in E. subst. by rewrite lookup_empty in Hd. }
  assert (Hk : ∀ c, c ∈ children → height c ≤ size dv - 1).
  { intros n [i Hn]%elem_of_list_lookup. destruct (lookup_lt_is_Some_2 addrs i) as [c Hci]; [rewrite Hl; by eapply lookup_lt_Some|].
    assert (Hst : stores (delete a dv) c n).
    { eapply stores_change; [by eapply Hc|]. intros x Hx. apply lookup_delete_ne. intros <-.
      destruct (reach_stores _ _ _ _ (Hc _ _ _ Hci Hn) Hx) as (nx & H1 & H2).
      pose proof (stores_det _ _ _ _ H1 Hs0) as ->. pose proof (height_child pivots children i n Hn) as Hh.
      destruct H2 as [->|H2]; [|lia]. pose proof (stores_det _ _ _ _ Hs0 (Hc _ _ _ Hci Hn)) as E. rewrite E in Hh. lia. }
    pose proof (IH i n Hn _ _ Hst) as Hle. rewrite map_size_delete, Hd in Hle. lia. }
  assert (foldr (λ c r, Nat.max (height c) r) 0 children ≤ size dv - 1); [|simpl; lia].
  clear -Hk. induction children as [|c l IHl]; simpl; [lia|].
  pose proof (Hk c ltac:(left)). pose proof (IHl ltac:(intros; apply Hk; by right)). lia.
Qed.

(** ** The tests *)
Lemma node_wfb_iff (n : LBranch.Node (gset nat)) : node_wfb n = true ↔ LBranch.node_wf n.
Proof. destruct n; simpl; rewrite ?andb_true_iff, ?Nat.ltb_lt, ?Nat.eqb_eq; done. Qed.
Lemma tree_pageb_iff dv c : tree_pageb dv c = true ↔ ∃ m, dv !! c = Some m ∧ ¬ LBranch.is_aux m.
Proof.
  unfold tree_pageb. destruct (dv !! c) as [[]|]; split; try done; intros.
  - eexists; split; [done|by intros []].
  - eexists; split; [done|by intros []].
  - destruct H as (m & [= <-] & Hm). by destruct Hm.
  - by destruct H as (m & ? & _).
Qed.
Lemma disk_wfb_iff dv : disk_wfb dv = true ↔ LBranch.disk_wf dv.
Proof.
  unfold disk_wfb, LBranch.disk_wf. rewrite forallb_forall. split.
  - intros Hf. assert (Hf' : ∀ a n, dv !! a = Some n → node_wfb n = true ∧ forallb (tree_pageb dv) (LBranch.children n) = true).
    { intros a n Hn. apply andb_true_iff. apply (Hf (a, n)), elem_of_list_In, elem_of_map_to_list, Hn. }
    split.
    + intros a n Hn. by apply node_wfb_iff, (Hf' a).
    + intros a n i c Hn Hc. apply tree_pageb_iff. destruct (Hf' a n Hn) as [_ Hx]. rewrite forallb_forall in Hx.
      apply Hx, elem_of_list_In. by eapply elem_of_list_lookup_2.
  - intros [H1 H2] [a n] Hin%elem_of_list_In%elem_of_map_to_list. apply andb_true_iff. split; [by apply node_wfb_iff, (H1 a)|].
    apply forallb_forall. intros c [i Hi]%elem_of_list_In%elem_of_list_lookup. apply tree_pageb_iff. by eapply H2.
Qed.
Lemma levels_rk f dv a : levels_below f dv a = rk f dv a.
Proof.
  revert a. induction f as [|f IH]; intros a; [done|]. cbn [levels_below rk]. destruct (dv !! a) as [n|]; [|done].
  by rewrite (mapM_ext (levels_below f dv) (rk f dv)) by apply IH.
Qed.
Lemma rk_tree dv f : LBranch.disk_wf dv → ∀ a, tree_pageb dv a = true → is_Some (rk f dv a) → ∃ n, stores dv a n.
Proof.
  intros [H1 H2]. induction f as [|f IH]; intros a Ht [v Hv]; [done|]. cbn [rk] in Hv.
  apply tree_pageb_iff in Ht as (m & Hm & Hna). rewrite Hm in Hv.
  destruct m as [keys msgs|pivots cs aux|]; [by eexists; apply stores_leaf| |by destruct Hna].
  cbn [LBranch.children] in Hv. destruct (mapM (rk f dv) cs) as [l|] eqn:E; [|done]. apply mapM_Some in E.
  destruct (list_choice (stores dv) cs) as (ns & Hl & Hns).
  { intros i c Hi. destruct (Forall2_lookup_l _ _ _ _ _ E Hi) as (rc & _ & Hrc).
    apply IH; [apply tree_pageb_iff; by eapply (H2 a)|by eexists]. }
  eexists. by eapply stores_index.
Qed.
Lemma stored_iff dv a : LBranch.acyclic (LBranch.mk a dv) ↔ LBranch.disk_wf dv ∧ ∃ n, stores dv a n.
Proof.
  split.
  - intros ((Hwf & (m & Hm & Hna)) & (r & Hr & [x Hx])). split; [done|]. by eapply ranking_stores.
  - intros (Hwf & n & Hs). split; [|by eapply stores_acyclic]. split; [done|].
    destruct (stores_entry _ _ _ Hs) as (m & Hm & Hna & _). by exists m.
Qed.
Lemma acyclicb_iff dv a : acyclicb dv a = true ↔ LBranch.acyclic (LBranch.mk a dv).
Proof.
  unfold acyclicb. rewrite stored_iff, !andb_true_iff, disk_wfb_iff, bool_decide_eq_true, levels_rk. split.
  - intros [[Hwf Ht] Hs]. split; [done|]. by eapply rk_tree.
  - intros (Hwf & n & Hs). split; [split; [done|]|].
    + apply tree_pageb_iff. destruct (stores_entry _ _ _ Hs) as (m & Hm & Hna & _). by exists m.
    + destruct (rk_stores _ _ _ Hs) as [v Hv]. exists v. eapply rk_le; [|exact Hv]. pose proof (stores_size _ _ _ Hs). lia.
Qed.

(** ** Queries *)
Lemma query_any dv r n : LBranch.disk_wf dv → LBranch.disk_valid_ranking dv r → ∀ a k x f g,
  stores dv a n → r !! a = Some x → height n < f → x < g →
  LBranch.query_internal f dv a k = LBranch.query_internal g dv a k.
Proof.
  intros Hwf Hr. induction n as [keys msgs|pivots children IH] using node_ind'; intros a k x f g Hs Hx Hf Hg.
  - apply stores_leaf_inv in Hs. destruct f, g; try lia. simpl. by rewrite Hs.
  - apply stores_index_inv in Hs as (addrs & aux & Hd & Hl & Hc). destruct f as [|f], g as [|g]; try lia.
    cbn [LBranch.query_internal]. rewrite Hd.
    assert (Hlen : length addrs = S (length pivots)) by apply (proj1 Hwf _ _ Hd).
    pose proof (key_largest_lte_bound pivots k) as Hb.
    destruct (lookup_lt_is_Some_2 addrs (Z.to_nat (key_largest_lte pivots k + 1))) as [c Hci]; [lia|].
    destruct (lookup_lt_is_Some_2 children (Z.to_nat (key_largest_lte pivots k + 1))) as [n Hn]; [lia|].
    rewrite (nth_lookup_some _ _ _ _ Hci). destruct (Hr _ _ _ Hx Hd _ c Hci) as (rc & Hrc & Hlt).
    pose proof (height_child pivots children _ _ Hn) as Hh. simpl in Hh, Hf.
    eapply (IH _ n Hn); [by eapply Hc|done|lia|lia].
Qed.
(** The computed query is a value of the query of LinkedBranch_v.rs. *)
Lemma branch_query_value dv a k : LBranch.query (LBranch.mk a dv) k (branch_query dv a k).
Proof.
  unfold branch_query. destruct (acyclicb dv a) eqn:E.
  - apply acyclicb_iff in E. left. pose proof E as (Hwf & r & Hr & [x Hx]). exists r, x. split_and!; [done|by split|done|].
    destruct (proj1 (stored_iff _ _) E) as (_ & n & Hn). pose proof (stores_size _ _ _ Hn).
    eapply query_any; [apply Hwf|exact Hr|exact Hn|exact Hx|lia|lia].
  - right. split; [|done]. intros H%acyclicb_iff. congruence.
Qed.

(** ** A branch that stores a search tree *)
Lemma holds_acyclicb dv a n : LBranch.disk_wf dv → stores dv a n → acyclicb dv a = true.
Proof. intros. apply acyclicb_iff, stored_iff. eauto. Qed.
Lemma branch_query_tree dv a n k : LBranch.disk_wf dv → stores dv a n → PBranch.wf n → branch_query dv a k = PBranch.query n k.
Proof. intros H1 H2 H3. apply (query_iff (LBranch.mk a dv) n); [by split_and!|]. apply branch_query_value. Qed.
Lemma branch_tree_upto_stores dv n : ∀ a f, stores dv a n → height n < f → branch_tree_upto f dv a = n.
Proof.
  induction n as [keys msgs|pivots children IH] using node_ind'; intros a f Hs Hf; destruct f as [|f]; try lia.
  - apply stores_leaf_inv in Hs. simpl. by rewrite Hs.
  - apply stores_index_inv in Hs as (addrs & aux & Hd & Hl & Hc). cbn [branch_tree_upto]. rewrite Hd. f_equal.
    apply list_eq. intros i. rewrite list_lookup_fmap. destruct (addrs !! i) as [c|] eqn:Hci; simpl.
    + destruct (lookup_lt_is_Some_2 children i) as [n Hn]; [rewrite <- Hl; by eapply lookup_lt_Some|].
      rewrite Hn. f_equal. pose proof (height_child pivots children _ _ Hn) as Hh. apply (IH i n Hn); [by eapply Hc|lia].
    + symmetry. apply lookup_ge_None. apply lookup_ge_None in Hci. lia.
Qed.
Lemma branch_tree_stores dv a n : LBranch.disk_wf dv → stores dv a n → branch_tree dv a = n.
Proof.
  intros Hwf Hs. unfold branch_tree. rewrite (holds_acyclicb _ _ _ Hwf Hs). apply branch_tree_upto_stores; [done|].
  pose proof (stores_size _ _ _ Hs). lia.
Qed.
Lemma elem_foldr_union (l : list (gmap N Message)) k : is_Some (foldr (∪) ∅ l !! k) ↔ ∃ i m, l !! i = Some m ∧ is_Some (m !! k).
Proof.
  induction l as [|m l IH]; simpl.
  - rewrite lookup_empty. split; [intros [? ?]; done|intros (i & m & H & _); done].
  - rewrite lookup_union_is_Some, IH. split.
    + intros [H|(i & x & H1 & H2)]; [by exists 0, m|by exists (S i), x].
    + intros ([|i] & x & H1 & H2); [simpl in H1; by left; simplify_eq|right; by exists i, x].
Qed.
Lemma node_buffer_spec lo hi n k m : search_tree lo hi n → node_buffer n !! k = Some m ↔ (k, m) ∈ contents n.
Proof.
  intros Ht. revert k m. induction Ht as [lo hi keys msgs _ Hl Hs Hk|lo hi pivots children Hl Hs Hp Hc IH]; intros k m.
  - cbn [node_buffer contents].
    set (v k := nth (Z.to_nat (key_largest_lte keys k)) msgs (Update nop_delta)).
    assert (Hnd : NoDup (map (λ k, (k, v k)) keys).*1).
    { rewrite <- list_fmap_compose. change (fst ∘ (λ k, (k, v k))) with (@id N). rewrite list_fmap_id. by apply strong_NoDup. }
    transitivity ((k, m) ∈ map (λ k, (k, v k)) keys); [symmetry; by apply elem_of_list_to_map|].
    assert (Hv : ∀ i, keys !! i = Some k → key_largest_lte keys k = Z.of_nat i).
    { intros i Hi. destruct (key_largest_lte_full keys k (keys_strict_sorted _ Hs)) as (_ & _ & Hin).
      destruct (Hin (elem_of_list_lookup_2 _ _ _ Hi)) as (j & Hj & Hjk). rewrite Hj. f_equal.
      apply (keys_strictly_sorted_unique keys j i k); [by apply sorted_strong|done|done]. }
    rewrite elem_of_zip_iff. change (map ?f ?l) with (f <$> l). rewrite elem_of_list_fmap. split.
    + intros (j & [= <- ->] & [i Hi]%elem_of_list_lookup). exists i. split; [done|]. unfold v. rewrite (Hv i Hi), Nat2Z.id.
      destruct (lookup_lt_is_Some_2 msgs i) as [x Hx]; [rewrite <- Hl; by eapply lookup_lt_Some|].
      by rewrite (nth_lookup_some _ _ _ _ Hx).
    + intros (i & Hi & Hm). exists k. split; [|by eapply elem_of_list_lookup_2]. f_equal. unfold v. rewrite (Hv i Hi), Nat2Z.id.
      symmetry. by apply nth_lookup_some.
  - cbn [node_buffer]. rewrite map_lookup_imap, elem_contents.
    set (i := Z.to_nat (key_largest_lte pivots k + 1)).
    assert (Hsl : within lo hi k → ∃ c, children !! i = Some c ∧ nth i (map node_buffer children) ∅ = node_buffer c).
    { intros Hw. destruct (slot_bounds pivots lo hi k Hs Hw) as [Hi Hwi]. fold i in Hi, Hwi.
      destruct (lookup_lt_is_Some_2 children i) as [c Hci]; [lia|]. exists c. split; [done|]. apply nth_lookup_some.
      change (map ?f ?l) with (f <$> l). by rewrite list_lookup_fmap, Hci. }
    assert (Hwi : ∀ j c x, children !! j = Some c → (k, x) ∈ contents c → within lo hi k ∧ j = i).
    { intros j c x Hj Hin. assert (Hw : within lo hi k).
      { assert (Ht : search_tree lo hi (PBranch.Index pivots children)) by by constructor.
        eapply contents_within; [exact Ht|]. apply elem_contents. eauto. }
      split; [done|]. symmetry. apply (slot_unique pivots lo hi k j); [done|apply lookup_lt_Some in Hj; lia|].
      eapply contents_within; [by apply (Hc j c)|done]. }
    split.
    + intros (y & Hy & Hlk)%bind_Some. assert (Hsome : is_Some (foldr (∪) ∅ (map node_buffer children) !! k)) by (by eexists).
      apply elem_foldr_union in Hsome as (j & mp & Hj & [x Hx]). change (map ?f ?l) with (f <$> l) in Hj.
      rewrite list_lookup_fmap in Hj. apply fmap_Some in Hj as (c & Hc' & ->).
      apply (IH j c Hc') in Hx. destruct (Hwi j c x Hc' Hx) as [Hw ->].
      destruct (Hsl Hw) as (d & Hd & E). rewrite E in Hlk. exists i, d. split; [done|]. by apply (IH i d Hd).
    + intros (j & c & Hj & Hin). destruct (Hwi j c m Hj Hin) as [Hw ->]. destruct (Hsl Hw) as (d & Hd & E).
      rewrite Hj in Hd. injection Hd as <-. rewrite E. apply (IH i c Hj) in Hin.
      assert (Hsome : is_Some (foldr (∪) ∅ (map node_buffer children) !! k)).
      { apply elem_foldr_union. exists i, (node_buffer c). split; [|by eexists]. change (map ?f ?l) with (f <$> l).
        by rewrite list_lookup_fmap, Hj. }
      destruct Hsome as [y Hy]. by rewrite Hy.
Qed.
Lemma node_buffer_contents n : PBranch.wf n → node_buffer n = list_to_map (contents n).
Proof.
  intros Hwf%wf_iff. apply map_eq. intros k. apply option_eq. intros m. rewrite (node_buffer_spec _ _ _ _ _ Hwf).
  apply elem_of_list_to_map. eapply strong_NoDup, contents_sorted, Hwf.
Qed.
Lemma node_buffer_query n k : PBranch.wf n → buf_query (node_buffer n) k = PBranch.query n k.
Proof.
  intros Hwf. pose proof Hwf as Ht%wf_iff. unfold buf_query. destruct (node_buffer n !! k) as [m|] eqn:E; simpl.
  - apply (node_buffer_spec _ _ _ _ _ Ht) in E. symmetry. by apply query_has.
  - symmetry. apply query_none; [done|]. intros m Hin%(node_buffer_spec _ _ _ _ _ Ht). congruence.
Qed.
