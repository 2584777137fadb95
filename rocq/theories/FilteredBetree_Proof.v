(** The filtered be-tree keeps its structure and behaves as the versioned map (C17, C19). *)
From Verif Require Import Spec_Model Abs_Model Betree_Model Betree_Spec Spec_Proof Abs_Proof Route_Proof Betree_Common Routed_Proof.
From Coq Require Import ZifyBool ZifyNat ZifyN Lia.
Import Filtered.

Notation ans := (routed_answers filtered_held).
Notation RNode := Routed.Node.
Notation RNil := Routed.Nil.
Notation msgs_of k := (omap (λ b : gmap N Message, b !! k)).

Lemma held_eq c i k o : flushed c !! i = Some o → filtered_held c i k = msgs_of k (drop o (buffers c)).
Proof. intros H. unfold filtered_held. by rewrite H. Qed.
Lemma dwf_lookup c n i : dwf c n → i < n → ∃ o, flushed c !! i = Some o ∧ o ≤ length (buffers c).
Proof.
  intros [Hl Hf] Hi. destruct (lookup_lt_is_Some_2 (flushed c) i) as [o Ho]; [lia|].
  exists o. split; [done|]. exact (proj1 (Forall_lookup _ _) Hf _ _ Ho).
Qed.
Lemma Hq d n i k m : dwf d n → i < n → merge_all m (filtered_held d i k) = merge m (q d i k).
Proof.
  intros Hd Hi. destruct (dwf_lookup _ _ _ Hd Hi) as (o&Ho&_). rewrite (held_eq _ _ _ _ Ho).
  unfold q, query_from. rewrite (nth_lookup_Some _ _ _ _ Ho). apply merge_all_bufs.
Qed.
Lemma empty_root_wf d : elt_lt (dom_start d) (dom_end d) → wf (empty_root d).
Proof.
  intros H. apply wf_node. split; [by apply domain_to_pivots_wf|]. split; [done|]. split.
  { split; [done|]. by repeat constructor. }
  intros [|i] c Hc; [|done]. injection Hc as <-. done.
Qed.
Lemma between_dom d i k : between (domain_to_pivots d) i k ↔ i = 0 ∧ dom_contains d k.
Proof.
  rewrite between_at. unfold domain_to_pivots. cbn [length]. unfold dom_contains, to_element. split.
  - intros (H&H1&H2). assert (i = 0) as -> by lia. done.
  - intros [-> [H1 H2]]. split; [lia|done].
Qed.
Lemma empty_root_ans d k m : ans (empty_root d) k m ↔ dom_contains d k ∧ m = message_empty.
Proof.
  unfold empty_root. rewrite ans_node. split.
  - intros (i&c&m'&[-> Hb]%between_dom&[= <-]& ->%ans_nil&->). done.
  - intros [Hd ->]. exists 0, RNil, message_empty. rewrite between_dom, ans_nil. done.
Qed.
Lemma extend_wf c p ch bs : wf (RNode c p ch) → wf (extend_buffer_seq (RNode c p ch) bs).
Proof.
  cbn [extend_buffer_seq]. rewrite !wf_node. intros (?&?&[H1 H2]&?). split; [done|]. split; [done|].
  split; [|done]. split; [done|]. cbn [flushed buffers]. apply Forall_lookup. intros j x Hx.
  pose proof (proj1 (Forall_lookup _ _) H2 _ _ Hx) as Hle. simpl in Hle. rewrite app_length. lia.
Qed.
Lemma extend_ans c p ch bs k m : wf (RNode c p ch) →
  ans (extend_buffer_seq (RNode c p ch) bs) k m ↔
  ∃ m0, ans (RNode c p ch) k m0 ∧ m = merge_all m0 (msgs_of k bs).
Proof.
  intros (_&_&Hd&_)%wf_node. cbn [extend_buffer_seq]. rewrite ans_node. setoid_rewrite ans_node.
  assert (Hh : ∀ i x, ch !! i = Some x → filtered_held (mkC (buffers c ++ bs) (flushed c)) i k =
     filtered_held c i k ++ msgs_of k bs).
  { intros i x Hx. apply lookup_lt_Some in Hx. destruct (dwf_lookup _ _ _ Hd Hx) as (o&Ho&Hle).
    rewrite (held_eq _ _ _ _ Ho). rewrite (held_eq (mkC (buffers c ++ bs) (flushed c)) _ _ o) by done.
    cbn [buffers]. by rewrite drop_app_le, omap_app by done. }
  split.
  - intros (i&x&m'&Hb&Hc&Ha&->). rewrite (Hh _ _ Hc), merge_all_app.
    eexists. split; [|done]. by exists i, x, m'.
  - intros (m0&(i&x&m'&Hb&Hc&Ha&->)&->). exists i, x, m'. by rewrite (Hh _ _ Hc), merge_all_app.
Qed.

Lemma push_memtable_ok n mt :
  wf n → covers_all_keys n →
  wf (push_memtable n mt) ∧ covers_all_keys (push_memtable n mt) ∧
  ∀ k m, ans (push_memtable n mt) k m ↔ ∃ b, ans n k b ∧ m = merge b (mt_query mt k).
Proof.
  intros Hw Hc. unfold push_memtable, mt_query.
  assert (Hm : ∀ m0 k, merge_all m0 (msgs_of k [mt_buffer mt]) = merge m0 (buf_query (mt_buffer mt) k)).
  { intros m0 k. rewrite merge_all_bufs. simpl. by rewrite merge_nop_r. }
  assert (Ht : elt_lt (dom_start total_domain) (dom_end total_domain)) by (elt_cases; done).
  destruct n as [|b p ch].
  - split; [|split].
    + cbn [promote]. apply extend_wf. by apply empty_root_wf.
    + done.
    + intros k m. cbn [promote].
      change (empty_root total_domain) with (RNode (mkC [] [0]) (domain_to_pivots total_domain) [RNil]).
      rewrite extend_ans by (by apply (empty_root_wf total_domain)).
      setoid_rewrite (empty_root_ans total_domain). setoid_rewrite ans_nil. setoid_rewrite Hm.
      assert (dom_contains total_domain k).
      { split; unfold total_domain, min_elem, to_element; cbn [dom_start dom_end]; elt_cases; lia. }
      naive_solver.
  - cbn [promote]. split; [by apply extend_wf|]. split; [done|].
    intros k m. rewrite extend_ans by done. by setoid_rewrite Hm.
Qed.
Lemma grow_ok n :
  wf n → covers_all_keys n →
  wf (grow n) ∧ covers_all_keys (grow n) ∧ teq filtered_held n (grow n).
Proof.
  intros Hw Hc. split; [|split].
  - apply wf_node. split. { apply domain_to_pivots_wf. elt_cases; done. }
    split; [done|]. split. { split; [done|]. by repeat constructor. }
    intros [|i] c Hi; [|done]. injection Hi as <-. split; [done|].
    intros Hn. exact (proj1 (covers_domain dwf n Hw Hn) Hc).
  - done.
  - intros k m. unfold grow. rewrite ans_node. split.
    + intros Ha. exists 0, n, m. rewrite between_dom.
      split; [|done]. split; [done|].
      split; unfold total_domain, min_elem, to_element; cbn [dom_start dom_end]; elt_cases; lia.
    + intros (i&c&m'&[-> Hb]%between_dom&[= <-]&Ha&->). done.
Qed.

Lemma ofs_dup_lookup o i j x : o !! i = Some x →
  ofs_dup o i !! j = if decide (j ≤ i) then o !! j else o !! (j - 1).
Proof.
  intros Hi. pose proof (lookup_lt_Some _ _ _ Hi). unfold ofs_dup. rewrite (nth_lookup_Some _ _ _ _ Hi).
  rewrite seq_insert_lookup by lia. destruct (decide (j < i)), (decide (j ≤ i)); try lia; try done.
  - destruct (decide (j = i)); [by subst|lia].
  - destruct (decide (j = i)); [lia|done].
Qed.
Lemma dup_ok c n i : dwf c n → i < n →
  let c' := mkC (buffers c) (ofs_dup (flushed c) i) in
  dwf c' (S n) ∧ (∀ j k, j ≤ i → filtered_held c' j k = filtered_held c j k) ∧
  (∀ j k, i ≤ j → filtered_held c' (S j) k = filtered_held c j k).
Proof.
  intros Hd Hi c'. destruct (dwf_lookup _ _ _ Hd Hi) as (o&Ho&Hle).
  destruct Hd as [Hl Hf]. split; [split|split].
  - unfold c'. cbn [flushed]. unfold ofs_dup. rewrite seq_insert_length; lia.
  - unfold c'. cbn [flushed buffers]. unfold ofs_all_lte. apply Forall_lookup. intros j x Hx.
    rewrite (ofs_dup_lookup _ _ _ _ Ho) in Hx. destruct (decide _);
      exact (proj1 (Forall_lookup _ _) Hf _ _ Hx).
  - intros j k Hj. unfold filtered_held, c'. cbn [flushed buffers]. rewrite (ofs_dup_lookup _ _ _ _ Ho).
    destruct (decide _); [done|lia].
  - intros j k Hj. unfold filtered_held, c'. cbn [flushed buffers]. rewrite (ofs_dup_lookup _ _ _ _ Ho).
    destruct (decide _); [lia|]. simpl. by rewrite Nat.sub_0_r.
Qed.
Lemma ofs_slice_ok c n a b : dwf c n → a < b ≤ n →
  let c' := mkC (buffers c) (ofs_slice (flushed c) a b) in
  dwf c' (b - a) ∧ ∀ j k, j < b - a → filtered_held c' j k = filtered_held c (a + j) k.
Proof.
  intros [Hl Hf] Hab c'. split; [split|].
  - unfold c'. cbn [flushed]. unfold ofs_slice. rewrite subrange_length; lia.
  - unfold c'. cbn [flushed buffers]. unfold ofs_all_lte, ofs_slice. apply Forall_lookup. intros j x.
    rewrite subrange_lookup. destruct (decide _); [|done]. intros Hx. exact (proj1 (Forall_lookup _ _) Hf _ _ Hx).
  - intros j k Hj. unfold filtered_held, c', ofs_slice. cbn [flushed buffers].
    rewrite subrange_lookup. destruct (decide _); [done|lia].
Qed.

Lemma split_parent_ok n r :
  can_split_parent n r →
  wf (split_parent n r) ∧ Routed.is_node (split_parent n r) ∧
  Routed.my_domain (split_parent n r) = Routed.my_domain n ∧ teq filtered_held n (split_parent n r).
Proof.
  intros (Hw&Hn&Hr). destruct n as [|b p ch]; [by destruct Hn|]. clear Hn.
  pose proof Hw as (Hp&Hl&Hd&Hch)%wf_node.
  destruct r as [i sk|i j].
  - destruct Hr as ((_&Hi)&(Hwc&(Hnc&Hleaf&Hfl)&Hcont&Hne)). cbn [Routed.children_of] in Hi.
    destruct (lookup_lt_is_Some_2 ch i Hi) as [c Hc].
    rewrite (child_at_lookup (RNode b p ch) i c Hc) in *. cbn [split_parent].
    rewrite (child_at_lookup (RNode b p ch) i c Hc).
    destruct (Hch _ _ Hc) as [_ Hdm]. specialize (Hdm Hnc).
    destruct c as [|cb cp cch]; [by destruct Hnc|]. cbn [Routed.children_of] in Hleaf. subst cch.
    pose proof Hwc as (Hcp&Hcl&Hcd&_)%wf_node. simpl in Hcl, Hcd.
    destruct cp as [|lo [|hi [|]]]; try (simpl in Hcl; lia). clear Hcl.
    unfold Routed.my_domain in Hdm, Hcont, Hne. cbn in Hdm. injection Hdm as E1 E2.
    destruct Hcont as [Hc1 Hc2]. cbn in Hc1, Hc2, Hne. unfold to_element in *.
    assert (Hlo : elt_lt lo (Elem sk)) by done.
    cbn [split_leaf].
    destruct (narrow_ok dwf filtered_held cb cb [lo; hi] [lo; Elem sk])
      as (Hwl&Hdl&Hal); [done| |done|done| | |done|].
    { by apply (domain_to_pivots_wf (mkDomain lo (Elem sk))). }
    { apply elt_lte_refl. } { by apply elt_lt_lte. }
    destruct (narrow_ok dwf filtered_held cb cb [lo; hi] [Elem sk; hi])
      as (Hwr&Hdr&Har); [done| |done|done| | |done|].
    { by apply (domain_to_pivots_wf (mkDomain (Elem sk) hi)). }
    { by apply elt_lt_lte. } { apply elt_lte_refl. }
    cbn in Hdl, Hdr, Hal, Har. rewrite E1 in *. rewrite E2 in *.
    destruct (dup_ok b (length ch) i Hd Hi) as (Hd'&Hh1&Hh2).
    edestruct (split_ok dwf filtered_held b (mkC (buffers b) (ofs_dup (flushed b) i)) p ch i
      (RNode cb [pivot_at p i; pivot_at p (S i)] [RNil]) (Elem sk)) as (H1&H2&H3);
      [done|exact Hc|exact Hlo|exact Hc2|exact Hwl|exact Hwr|done|done|exact Hdl|exact Hdr|exact Hal|exact Har|done| | |].
    { intros j k m _ Hj. by rewrite Hh1. }
    { intros j k m _ Hj. by rewrite Hh2. }
    split; [exact H1|]. split; [done|]. split; [exact H2|exact H3].
  - destruct Hr as ((_&Hi)&(Hwc&(Hnc&Hix)&Hj)). cbn [Routed.children_of] in Hi.
    destruct (lookup_lt_is_Some_2 ch i Hi) as [c Hc].
    rewrite (child_at_lookup (RNode b p ch) i c Hc) in *. cbn [split_parent].
    rewrite (child_at_lookup (RNode b p ch) i c Hc).
    destruct (Hch _ _ Hc) as [_ Hdm]. specialize (Hdm Hnc).
    destruct c as [|cb cp cch]; [by destruct Hnc|]. cbn [Routed.pivots_of] in Hj.
    pose proof Hwc as (Hcp&Hcl&Hcd&_)%wf_node. unfold num_ranges in Hj.
    unfold Routed.my_domain in Hdm. cbn [Routed.pivots_of] in Hdm. injection Hdm as E1 E2.
    rewrite pivot_last_eq in E2. replace (length cp - 1) with (length cch) in E2 by lia.
    cbn [split_index Routed.pivots_of].
    set (e := pivot_at cp j).
    assert (He1 : elt_lt (pivot_at p i) e) by (rewrite <-E1; apply pt_lt; [done|lia]).
    assert (He2 : elt_lt e (pivot_at p (S i))) by (rewrite <-E2; apply pt_lt; [done|lia]).
    unfold pt_subrange. pose proof Hcd as [Hfl _]. rewrite <-Hfl.
    destruct (ofs_slice_ok cb (length cch) 0 j Hcd) as [Hdl' Hhl]; [lia|].
    destruct (ofs_slice_ok cb (length cch) j (length cch) Hcd) as [Hdr' Hhr]; [lia|].
    destruct (slice_ok dwf filtered_held cb (mkC (buffers cb) (ofs_slice (flushed cb) 0 j)) cp cch 0 j)
      as (Hwl&Hdl&Hal); [done|lia|done| |].
    { intros a k m Ha _. by rewrite Hhl. }
    destruct (slice_ok dwf filtered_held cb (mkC (buffers cb) (ofs_slice (flushed cb) j (length cch))) cp cch j (length cch))
      as (Hwr&Hdr&Har); [done|lia|done| |].
    { intros a k m Ha _. by rewrite Hhr. }
    replace (length cch + 1) with (length cp) in * by lia.
    fold e in Hdl, Hdr, Hal, Har. rewrite E1 in Hdl, Hal. rewrite E2 in Hdr, Har.
    destruct (dup_ok b (length ch) i Hd Hi) as (Hd'&Hh1&Hh2).
    edestruct (split_ok dwf filtered_held b (mkC (buffers b) (ofs_dup (flushed b) i)) p ch i (RNode cb cp cch) e) as (H1&H2&H3);
      [done|exact Hc|exact He1|exact He2|exact Hwl|exact Hwr|done|done|exact Hdl|exact Hdr|exact Hal|exact Har|done| | |].
    { intros a k m _ Ha. by rewrite Hh1. }
    { intros a k m _ Ha. by rewrite Hh2. }
    split; [exact H1|]. split; [done|]. split; [exact H2|exact H3].
Qed.

Lemma flush_ok n i gc :
  can_flush n i gc →
  wf (flush n i gc) ∧ Routed.is_node (flush n i gc) ∧
  Routed.my_domain (flush n i gc) = Routed.my_domain n ∧ teq filtered_held n (flush n i gc).
Proof.
  intros (Hw&Hn&(_&Hi)&Hgc). destruct n as [|b p ch]; [by destruct Hn|]. clear Hn.
  cbn [Routed.children_of contents_of] in Hi, Hgc. pose proof Hw as (Hp&Hl&Hd&Hch)%wf_node.
  destruct (lookup_lt_is_Some_2 ch i Hi) as [c Hc]. destruct (Hch _ _ Hc) as [Hwc Hdm].
  cbn [flush]. rewrite (child_at_lookup (RNode b p ch) i c Hc).
  unfold Routed.child_domain. cbn [Routed.pivots_of]. replace (i + 1) with (S i) by lia.
  set (cd := mkDomain (pivot_at p i) (pivot_at p (S i))) in *.
  assert (Hcd : elt_lt (dom_start cd) (dom_end cd)) by (apply pt_lt; [done|lia]).
  assert (Hbc : ∀ k, between p i k ↔ dom_contains cd k).
  { intros k. rewrite between_at. unfold dom_contains, cd, to_element. simpl.
    split; [tauto|]. intros []. split; [lia|done]. }
  assert (Hpw : wf (promote c cd) ∧ Routed.is_node (promote c cd) ∧ Routed.my_domain (promote c cd) = cd ∧
     ∀ k m, dom_contains cd k → ans (promote c cd) k m ↔ ans c k m).
  { destruct c; cbn [promote].
    - split; [by apply empty_root_wf|]. split; [done|]. split; [done|].
      intros k m Hk. rewrite empty_root_ans, ans_nil. tauto.
    - split; [done|]. split; [done|]. split; [by apply Hdm|]. done. }
  destruct Hpw as (Hpw&Hpn&Hpd&Hpa).
  destruct (promote c cd) as [|b' p' ch'] eqn:E; [by destruct Hpn|].
  destruct (dwf_lookup _ _ _ Hd Hi) as (o&Ho&Hole).
  rewrite (nth_lookup_Some _ _ _ _ Ho).
  set (L := length (buffers b)) in *.
  assert (HgL : gc ≤ L).
  { assert (ofs_update (flushed b) i L !! i = Some L) as HL.
    { apply list_lookup_insert. by apply lookup_lt_Some in Ho. }
    pose proof (proj1 (Forall_lookup _ _) Hgc _ _ HL) as H. simpl in H. lia. }
  assert (Hsub : ∀ x, x ≤ L → subrange (buffers b) x L = drop x (buffers b)).
  { intros x Hx. unfold subrange. apply take_ge. rewrite drop_length. fold L. lia. }
  rewrite !Hsub by lia.
  set (c' := mkC (drop gc (buffers b)) (ofs_shift_left (ofs_update (flushed b) i L) gc)).
  assert (Hd' : dwf c' (length ch)).
  { destruct Hd as [Hfl Hf]. split.
    - unfold c'. cbn [flushed]. unfold ofs_shift_left, ofs_update. by rewrite fmap_length, insert_length.
    - unfold c'. cbn [flushed buffers]. unfold ofs_all_lte, ofs_shift_left. apply Forall_lookup. intros j x.
      rewrite list_lookup_fmap. intros (y&Hy&->)%fmap_Some. rewrite drop_length. fold L.
      unfold ofs_update in Hy. apply list_lookup_insert_Some in Hy as [(_&<-&_)|(_&Hy)]; [lia|].
      pose proof (proj1 (Forall_lookup _ _) Hf _ _ Hy) as H. simpl in H. fold L in H. lia. }
  assert (Hhi : ∀ k, filtered_held c' i k = []).
  { intros k. assert (flushed c' !! i = Some (L - gc)) as Hfi.
    { unfold c'. cbn [flushed]. unfold ofs_shift_left. rewrite list_lookup_fmap. unfold ofs_update.
      rewrite list_lookup_insert by (by apply lookup_lt_Some in Ho). done. }
    rewrite (held_eq _ _ _ _ Hfi). unfold c'. cbn [buffers]. rewrite drop_drop.
    replace (gc + (L - gc)) with L by lia. by rewrite (drop_ge _ L). }
  destruct (replace_child dwf filtered_held b c' p ch i c
    (extend_buffer_seq (RNode b' p' ch') (drop o (buffers b)))) as [H1 H2].
  { done. } { done. } { by apply extend_wf. } { intros _. exact Hpd. } { done. }
  { intros j k m Hj Hne Hb. destruct (dwf_lookup _ _ _ Hd Hj) as (oj&Hoj&Hojle).
    assert (gc ≤ oj) as Hg.
    { assert (ofs_update (flushed b) i L !! j = Some oj) as HL by (unfold ofs_update; by rewrite list_lookup_insert_ne).
      pose proof (proj1 (Forall_lookup _ _) Hgc _ _ HL) as H. simpl in H. lia. }
    assert (flushed c' !! j = Some (oj - gc)) as Hfj.
    { unfold c'. cbn [flushed]. unfold ofs_shift_left, ofs_update.
      rewrite list_lookup_fmap, list_lookup_insert_ne by done. by rewrite Hoj. }
    rewrite (held_eq _ _ _ _ Hfj), (held_eq _ _ _ _ Hoj). unfold c'. cbn [buffers].
    rewrite drop_drop. by replace (gc + (oj - gc)) with oj by lia. }
  { intros k m Hk%Hbc. setoid_rewrite (extend_ans b' p' ch' _ k _ Hpw).
    rewrite Hhi, (held_eq _ _ _ _ Ho). setoid_rewrite (Hpa k _ Hk). cbn. naive_solver. }
  split; [exact H1|]. split; [done|]. split; [done|exact H2].
Qed.

Lemma split3 {A} (l : list A) a b : a ≤ b → l = take a l ++ subrange l a b ++ drop b l.
Proof.
  intros H. unfold subrange. replace (drop b l) with (drop (b - a) (drop a l)).
  - by rewrite !take_drop.
  - rewrite drop_drop. f_equal. lia.
Qed.
Lemma compact_ok n a b cb :
  can_compact n a b cb →
  wf (compact n a b cb) ∧ Routed.is_node (compact n a b cb) ∧
  Routed.my_domain (compact n a b cb) = Routed.my_domain n ∧ teq filtered_held n (compact n a b cb).
Proof.
  intros (Hw&Hn&Hab&Hdom&Hval). destruct n as [|c p ch]; [by destruct Hn|]. clear Hn.
  cbn [contents_of] in *. pose proof Hw as (Hp&Hl&Hd&Hch)%wf_node. cbn [compact].
  set (c' := mkC (update_subrange (buffers c) a b cb) (ofs_adjust_compact (flushed c) a b)).
  set (L := length (buffers c)) in *.
  assert (Hta : length (take a (buffers c)) = a) by (rewrite take_length; lia).
  assert (HL' : length (update_subrange (buffers c) a b cb) = a + 1 + (L - b)).
  { unfold update_subrange. rewrite !app_length, Hta, drop_length. simpl. lia. }
  assert (Hd' : dwf c' (length ch)).
  { destruct Hd as [Hfl Hf]. split.
    - unfold c'. cbn [flushed]. unfold ofs_adjust_compact. by rewrite fmap_length.
    - unfold c'. cbn [flushed buffers]. unfold ofs_all_lte, ofs_adjust_compact. apply Forall_lookup. intros j x.
      rewrite list_lookup_fmap. intros (y&Hy&->)%fmap_Some. rewrite HL'.
      pose proof (proj1 (Forall_lookup _ _) Hf _ _ Hy) as H. simpl in H. fold L in H.
      repeat destruct (decide _); lia. }
  destruct (node_change dwf filtered_held c c' p ch ch) as [H1 H2]; [done|done|done| |].
  2: { split; [exact H1|]. split; [done|]. split; [done|exact H2]. }
  intros j x x' Hx Hx'. rewrite Hx in Hx'. injection Hx' as <-.
  destruct (Hch j x Hx) as [Hwx Hdx]. split; [done|]. split; [done|].
  intros k m Hb. apply lookup_lt_Some in Hx as Hj.
  destruct (dwf_lookup _ _ _ Hd Hj) as (o&Ho&Hole). fold L in Hole.
  assert (Hkd : Routed.key_in_domain dwf (RNode c p ch) k).
  { split; [done|]. split; [done|]. by eapply between_bounded. }
  assert (Hof : flushed_ofs (RNode c p ch) k = o).
  { unfold flushed_ofs. cbn [Routed.pivots_of contents_of]. rewrite (between_route_idx _ _ _ Hp Hb).
    by apply nth_lookup_Some. }
  assert (Hom : make_offset_map (RNode c p ch) k = o).
  { unfold make_offset_map. destruct (decide _) as [|Hnb]; [done|]. exfalso. apply Hnb. apply Hkd. }
  (* what the compacted buffer holds for k *)
  assert (Hmid : o ≤ b → ∀ m0, merge_all m0 (option_list (cb !! k)) =
                 merge_all m0 (msgs_of k (drop (o - a) (subrange (buffers c) a b)))).
  { intros Hob m0. destruct (cb !! k) as [v|] eqn:Ecb.
    - assert (buf_query cb k = query_from (subrange (buffers c) a b) k (o - a)) as Hv.
      { rewrite <-Hof. apply Hval. by rewrite Ecb. }
      rewrite merge_all_bufs. unfold query_from in Hv. rewrite <-Hv. unfold buf_query. by rewrite Ecb.
    - assert (msgs_of k (drop (o - a) (subrange (buffers c) a b)) = []) as ->; [|done].
      assert (Hnone : ∀ i y, drop (o - a) (subrange (buffers c) a b) !! i = Some y → (y : gmap N Message) !! k = None).
      { intros i y. rewrite lookup_drop. intros Hy. destruct (y !! k) eqn:Ey; [|done]. exfalso.
        assert (is_Some (cb !! k)) as [? Hs]; [|congruence].
        apply Hdom. split; [done|]. split; [by rewrite Hof|]. exists (o - a + i).
        split; [lia|]. split; [by eexists|]. unfold offsets_decrement. rewrite Hom. lia. }
      revert Hnone. generalize (drop (o - a) (subrange (buffers c) a b)). intros l Hnone.
      induction l as [|y l IH]; [done|]. simpl. rewrite (Hnone 0 y eq_refl).
      apply IH. intros i z Hz. apply (Hnone (S i) z Hz). }
  assert (Hsl : length (subrange (buffers c) a b) = b - a) by (apply subrange_length; fold L; lia).
  assert (Hheld : ∀ m0, merge_all m0 (filtered_held c' j k) = merge_all m0 (filtered_held c j k)).
  { intros m0. rewrite (held_eq _ _ _ _ Ho).
    assert (Hfj : flushed c' !! j = Some (if decide (o ≤ a) then o else if decide (o < b) then a else o - (b - a) + 1)).
    { unfold c'. cbn [flushed]. unfold ofs_adjust_compact. by rewrite list_lookup_fmap, Ho. }
    rewrite (held_eq _ _ _ _ Hfj). unfold c'. cbn [buffers]. unfold update_subrange.
    pose proof (split3 (buffers c) a b ltac:(lia)) as E3. clear Hfj.
    destruct (decide (o ≤ a)) as [Hle|Hgt].
    - rewrite drop_app_le by lia. rewrite E3 at 3. rewrite drop_app_le by lia.
      rewrite !omap_app, !merge_all_app.
      assert (msgs_of k [cb] = option_list (cb !! k)) as -> by (simpl; by destruct (cb !! k)).
      rewrite Hmid by lia. by replace (o - a) with 0 by lia.
    - destruct (decide (o < b)) as [Hlt|Hge].
      + rewrite drop_app_alt by done. rewrite E3 at 2.
        rewrite drop_app_ge by lia. rewrite Hta, drop_app_le by lia.
        rewrite !omap_app, !merge_all_app.
        assert (msgs_of k [cb] = option_list (cb !! k)) as -> by (simpl; by destruct (cb !! k)).
        rewrite Hmid by lia. done.
      + rewrite drop_app_ge by lia. rewrite Hta. rewrite drop_app_ge by (simpl; lia). cbn [length].
        rewrite drop_drop. f_equal. f_equal. f_equal. lia. }
  split; intros (m'&Ha&->); exists m'; rewrite Hheld; done.
Qed.

(** ** Steps *)
Definition inv (s : State) : Prop := wf (root s) ∧ covers_all_keys (root s).
Lemma path_covers t key depth t' :
  Routed.path_valid dwf t key depth → wf t → covers_all_keys t → wf t' → Routed.is_node t' →
  Routed.my_domain t' = Routed.my_domain t → covers_all_keys t'.
Proof.
  intros Hv Hw Hc Hw' Hn' Hd. apply (covers_domain dwf); [done|done|]. rewrite Hd.
  apply (covers_domain dwf); [done| |done].
  destruct depth; cbn [Routed.path_valid] in Hv; apply Hv.
Qed.
Lemma receipt_iff n k m :
  (∃ r, Routed.valid_for dwf q r n k ∧ Routed.receipt_result r m) ↔ wf n ∧ filtered_answers n k m.
Proof. apply receipt_iff. intros. by eapply Hq. Qed.
Lemma step_sim s s' l : inv s → next s s' l → inv s' ∧ sim_step filtered_answers s s' l.
Proof.
  intros [Hw Hc] [(r&e&k&v&res&->&He&Hv&Hr&Hd& ->)|[(puts&->&Hpw&Hst& ->)|[(_&Hm&->& ->)|[(->&_& ->)|[(->&_& ->)|
    [(key&dp&r&->&Hp&Hcs& ->)|[(key&dp&i&gc&->&Hp&Hcf& ->)|[(key&dp&a&b&cb&->&Hp&Hcc& ->)|(->&_& ->)]]]]]]]].
  - split; [done|]. eapply sim_query; [done| |exact Hd]. apply receipt_iff. by exists r.
  - split; [done|]. by apply sim_put.
  - split; [done|]. by apply sim_freeze.
  - destruct (push_memtable_ok (root s) (memtable s) Hw Hc) as (H1&H2&H3). split; [done|].
    by apply sim_flush_memtable.
  - destruct (grow_ok (root s) Hw Hc) as (H1&H2&H3). split; [done|]. apply sim_internal; [|done]. apply H3.
  - destruct (split_parent_ok _ _ Hcs) as (H1&H2&H3&H4).
    destruct (substitute_ok dwf filtered_held (root s) key dp _ Hp H1 H2 H3 H4) as (H5&H6&H7&H8).
    split; [|apply sim_internal; [apply H8|done]].
    split; [done|]. exact (path_covers _ _ _ _ Hp Hw Hc H5 H6 H7).
  - destruct (flush_ok _ _ _ Hcf) as (H1&H2&H3&H4).
    destruct (substitute_ok dwf filtered_held (root s) key dp _ Hp H1 H2 H3 H4) as (H5&H6&H7&H8).
    split; [|apply sim_internal; [apply H8|done]].
    split; [done|]. exact (path_covers _ _ _ _ Hp Hw Hc H5 H6 H7).
  - destruct (compact_ok _ _ _ _ Hcc) as (H1&H2&H3&H4).
    destruct (substitute_ok dwf filtered_held (root s) key dp _ Hp H1 H2 H3 H4) as (H5&H6&H7&H8).
    split; [|apply sim_internal; [apply H8|done]].
    split; [done|]. exact (path_covers _ _ _ _ Hp Hw Hc H5 H6 H7).
  - split; [done|]. by apply sim_internal.
Qed.
Lemma inv_init s0 img : initialize s0 img → covers_all_keys (st_value img) → inv s0.
Proof. intros [Hw ->] Hc. done. Qed.
Lemma inv_run s0 img ls s :
  initialize s0 img → covers_all_keys (st_value img) → run next s0 ls s → inv s.
Proof.
  intros Hi Hc Hr. pose proof (inv_init _ _ Hi Hc) as H0.
  induction Hr as [|sa ls1 s1 l s2 Hr IH Hn]; [done|]. exact (proj1 (step_sim _ _ _ (IH Hi H0) Hn)).
Qed.
Lemma faithful s0 img ls s :
  initialize s0 img → covers_all_keys (st_value img) → run next s0 ls s →
  ∃ m, holds filtered_answers (st_value img) m ∧
       acts_as_map filtered_answers (mkStamped m (st_seq_end img)) ls s.
Proof.
  intros Hi Hc Hr. exists (den filtered_held (st_value img)). pose proof Hi as [Hw _].
  assert (holds filtered_answers (st_value img) (den filtered_held (st_value img))) by by apply (holds_den dwf).
  split; [done|]. eapply (acts_as_map_intro filtered_answers next inv s0 img ls s); [|by apply Hi| |done|done].
  - intros s1 s2 l. apply step_sim.
  - by eapply inv_init.
Qed.
Lemma query_iff s k v :
  can_answer next s k v ↔
  wf (root s) ∧ ∃ m, filtered_answers (root s) k m ∧ Define v = merge m (mt_query (memtable s) k).
Proof.
  unfold can_answer. split.
  - intros [(r&e&k'&v'&res&[= <- <- <-]&_&Hv&Hr&Hd&_)|Hn].
    + assert (wf (root s) ∧ filtered_answers (root s) k res) as [Hw Ha] by (apply receipt_iff; by exists r).
      split; [done|]. by exists res.
    + destruct Hn as [(?&?&_)|[(_&_&?&_)|[(?&_)|[(?&_)|[(?&?&?&?&_)|[(?&?&?&?&?&_)|[(?&?&?&?&?&?&_)|(?&_)]]]]]]]; discriminate.
  - intros (Hw&m&Ha&Hd). destruct (proj2 (receipt_iff (root s) k m) (conj Hw Ha)) as (r&Hv&Hr). left. exists r.
    exists (mt_seq_end (memtable s)), k, v, m. done.
Qed.
Lemma internal_invisible s s' :
  inv s → next s s' Internal → ∀ k v, can_answer next s k v ↔ can_answer next s' k v.
Proof.
  intros Hi Hn k v. rewrite !query_iff. destruct (step_sim _ _ _ Hi Hn) as [Hi' Hs].
  destruct Hi as [Hw Hc]. destruct Hi' as [Hw' Hc'].
  set (M := λ k, merge (den filtered_held (root s) k) (mt_query (memtable s) k)).
  assert (sim filtered_answers s (AbstractMap.mkState (mkStamped M (mt_seq_end (memtable s))))) as H0.
  { split; [|done]. exists (den filtered_held (root s)). split; [by apply (holds_den dwf)|].
    intros k'. by rewrite merge_all_opt. }
  destruct (Hs _ H0) as (a'&al&Ha&He&(Hs'&_)). simpl in He. subst al.
  assert (a' = AbstractMap.mkState (mkStamped M (mt_seq_end (memtable s)))) as ->.
  { destruct Ha as [(?&?&?&?&_)|[(?&?&_)|[(?&_)|(_&->)]]]; done. }
  destruct Hs' as (base&Hb&Hk). specialize (Hk k). simpl in Hk. rewrite merge_all_opt in Hk.
  fold (mt_query (memtable s') k) in Hk. unfold M in Hk.
  pose proof (holds_den dwf filtered_held (root s) Hw Hc) as Hh.
  split.
  - intros (_&m&Hm&Hd). split; [done|]. apply Hh in Hm. subst m. exists (base k). split; [by apply Hb|congruence].
  - intros (_&m&Hm&Hd). split; [done|]. apply Hb in Hm. subst m.
    exists (den filtered_held (root s) k). split; [by apply Hh|congruence].
Qed.
Lemma one_answer s k : inv s → ∃ v, can_answer next s k v ∧ ∀ v', can_answer next s k v' → v' = v.
Proof.
  intros [Hw Hc]. pose proof (holds_den dwf filtered_held (root s) Hw Hc) as Hh.
  assert (Ha : filtered_answers (root s) k (den filtered_held (root s) k)) by by apply Hh.
  destruct (paged_is_define_merge (den filtered_held (root s) k) (mt_query (memtable s) k) (ans_define _ _ _ _ Ha)) as [v Hv].
  exists v. split.
  - apply query_iff. split; [done|]. by exists (den filtered_held (root s) k).
  - intros v' (_&m&Hm&Hd)%query_iff. apply Hh in Hm. congruence.
Qed.
