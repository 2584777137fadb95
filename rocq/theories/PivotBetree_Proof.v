(** The pivot be-tree keeps its structure and behaves as the versioned map (C16, C19). *)
From Verif Require Import Spec_Model Abs_Model Betree_Model Betree_Spec Spec_Proof Abs_Proof Route_Proof Betree_Common Routed_Proof.
From Coq Require Import ZifyBool ZifyNat ZifyN Lia.
Import Pivot.

Notation ans := (routed_answers pivot_held).
Notation RNode := Routed.Node.
Notation RNil := Routed.Nil.

Lemma Hq d n i k m : dwf d n → i < n → merge_all m (pivot_held d i k) = merge m (q d i k).
Proof. intros _ _. unfold pivot_held, q. apply merge_all_opt. Qed.
Lemma held_eq m d i k : merge_all m (pivot_held d i k) = merge m (buf_query d k).
Proof. apply merge_all_opt. Qed.
Lemma held_filter m (f : Key → bool) d i j k : f k = true →
  merge_all m (pivot_held (buf_filter f d) i k) = merge_all m (pivot_held d j k).
Proof. intros Hf. by rewrite !held_eq, buf_query_filter, Hf. Qed.
Lemma key_set_true d k : key_set d k = true ↔ dom_contains d k.
Proof. unfold key_set. by rewrite bool_decide_eq_true. Qed.

Lemma empty_root_wf d : elt_lt (dom_start d) (dom_end d) → wf (empty_root d).
Proof.
  intros H. apply wf_node. split; [by apply domain_to_pivots_wf|]. split; [done|]. split; [done|].
  intros [|i] c Hc; [|done]. injection Hc as <-. done.
Qed.
Lemma between_dom d i k : between (domain_to_pivots d) i k ↔ i = 0 ∧ dom_contains d k.
Proof.
  rewrite between_at. unfold domain_to_pivots. cbn [length]. unfold dom_contains, to_element. split.
  - intros (H&H1&H2). assert (i = 0) as -> by lia. done.
  - intros [-> [H1 H2]]. split; [lia|done].
Qed.
Lemma empty_root_ans d k m : ans (empty_root d) k m ↔ dom_contains d k ∧ m = message_empty.
Proof.
  unfold empty_root. rewrite ans_node. split.
  - intros (i&c&m'&[-> Hb]%between_dom&[= <-]& ->%ans_nil&->). split; [done|].
    by rewrite held_eq, buf_query_empty, merge_nop_r.
  - intros [Hd ->]. exists 0, RNil, message_empty. rewrite between_dom, ans_nil.
    rewrite held_eq, buf_query_empty, merge_nop_r. done.
Qed.
Lemma merge_buffer_wf b p ch new : wf (RNode b p ch) → wf (merge_buffer (RNode b p ch) new).
Proof. cbn [merge_buffer]. by rewrite !wf_node. Qed.
Lemma merge_buffer_ans b p ch new k m :
  ans (merge_buffer (RNode b p ch) new) k m ↔
  ∃ m0, ans (RNode b p ch) k m0 ∧ m = merge m0 (buf_query new k).
Proof.
  cbn [merge_buffer]. rewrite ans_node. setoid_rewrite ans_node. split.
  - intros (i&c&m'&Hb&Hc&Ha&->). rewrite held_eq, buf_query_merge, merge_assoc.
    eexists. split; [|done]. exists i, c, m'. by rewrite held_eq.
  - intros (m0&(i&c&m'&Hb&Hc&Ha&->)&->). exists i, c, m'.
    by rewrite !held_eq, buf_query_merge, merge_assoc.
Qed.
Lemma promote_ok n d k m :
  wf n → elt_lt (dom_start d) (dom_end d) → (Routed.is_node n → Routed.my_domain n = d) → dom_contains d k →
  wf (promote n d) ∧ Routed.is_node (promote n d) ∧ Routed.my_domain (promote n d) = d ∧
  (ans (promote n d) k m ↔ ans n k m).
Proof.
  intros Hw He Hd Hk. destruct n as [|b p ch]; cbn [promote].
  - split; [by apply empty_root_wf|]. split; [done|]. split; [by destruct d|].
    rewrite empty_root_ans, ans_nil. tauto.
  - split; [done|]. split; [done|]. split; [by apply Hd|]. done.
Qed.

Lemma push_memtable_ok n mt :
  wf n → covers_all_keys n →
  wf (push_memtable n mt) ∧ covers_all_keys (push_memtable n mt) ∧
  ∀ k m, ans (push_memtable n mt) k m ↔ ∃ b, ans n k b ∧ m = merge b (mt_query mt k).
Proof.
  intros Hw Hc. unfold push_memtable, mt_query. destruct n as [|b p ch].
  - split; [|split].
    + cbn [promote]. apply merge_buffer_wf. apply empty_root_wf. elt_cases; done.
    + done.
    + intros k m. cbn [promote]. unfold empty_root. rewrite merge_buffer_ans.
      setoid_rewrite (empty_root_ans total_domain). setoid_rewrite ans_nil.
      assert (dom_contains total_domain k).
      { split; unfold total_domain, min_elem, to_element; cbn [dom_start dom_end]; elt_cases; lia. }
      naive_solver.
  - cbn [promote]. split; [by apply merge_buffer_wf|]. split; [done|]. apply merge_buffer_ans.
Qed.
Lemma grow_ok n :
  wf n → covers_all_keys n →
  wf (grow n) ∧ covers_all_keys (grow n) ∧ teq pivot_held n (grow n).
Proof.
  intros Hw Hc. split; [|split].
  - apply wf_node. split. { apply domain_to_pivots_wf. elt_cases; done. }
    split; [done|]. split; [done|]. intros [|i] c Hi; [|done]. injection Hi as <-. split; [done|].
    intros Hn. exact (proj1 (covers_domain dwf n Hw Hn) Hc).
  - done.
  - intros k m. unfold grow. rewrite ans_node. split.
    + intros Ha. exists 0, n, m. rewrite between_dom, held_eq, buf_query_empty, merge_nop_r.
      split; [|done]. split; [done|].
      split; unfold total_domain, min_elem, to_element; cbn [dom_start dom_end]; elt_cases; lia.
    + intros (i&c&m'&[-> Hb]%between_dom&[= <-]&Ha&->). by rewrite held_eq, buf_query_empty, merge_nop_r.
Qed.

Lemma split_parent_ok n r :
  can_split_parent n r →
  wf (split_parent n r) ∧ Routed.is_node (split_parent n r) ∧
  Routed.my_domain (split_parent n r) = Routed.my_domain n ∧ teq pivot_held n (split_parent n r).
Proof.
  intros (Hw&Hn&Hr). destruct n as [|b p ch]; [by destruct Hn|]. clear Hn.
  pose proof Hw as (Hp&Hl&_&Hch)%wf_node.
  destruct r as [i sk|i j].
  - destruct Hr as ((_&Hi)&(Hwc&(Hnc&Hleaf)&Hcont&Hne)). cbn [Routed.children_of] in Hi.
    destruct (lookup_lt_is_Some_2 ch i Hi) as [c Hc].
    rewrite (child_at_lookup (RNode b p ch) i c Hc) in *. cbn [split_parent].
    rewrite (child_at_lookup (RNode b p ch) i c Hc).
    destruct (Hch _ _ Hc) as [_ Hdm]. specialize (Hdm Hnc).
    destruct c as [|cb cp cch]; [by destruct Hnc|]. cbn [Routed.children_of] in Hleaf. subst cch.
    pose proof Hwc as (Hcp&Hcl&_&_)%wf_node. simpl in Hcl.
    destruct cp as [|lo [|hi [|]]]; try (simpl in Hcl; lia). clear Hcl.
    unfold Routed.my_domain in Hdm, Hcont, Hne. cbn in Hdm. injection Hdm as E1 E2.
    destruct Hcont as [Hc1 Hc2]. cbn in Hc1, Hc2, Hne. unfold to_element in *.
    assert (Hlo : elt_lt lo (Elem sk)) by done.
    cbn [split_leaf].
    destruct (narrow_ok dwf pivot_held cb
        (buf_filter (key_set (mkDomain lo (Elem sk))) cb) [lo; hi] [lo; Elem sk])
      as (Hwl&Hdl&Hal); [done| |done|done| | |..].
    { by apply (domain_to_pivots_wf (mkDomain lo (Elem sk))). }
    { apply elt_lte_refl. } { by apply elt_lt_lte. }
    { intros k m H1 H2. apply held_filter. by apply key_set_true. }
    destruct (narrow_ok dwf pivot_held cb
        (buf_filter (key_set (mkDomain (Elem sk) hi)) cb) [lo; hi] [Elem sk; hi])
      as (Hwr&Hdr&Har); [done| |done|done| | |..].
    { by apply (domain_to_pivots_wf (mkDomain (Elem sk) hi)). }
    { by apply elt_lt_lte. } { apply elt_lte_refl. }
    { intros k m H1 H2. apply held_filter. by apply key_set_true. }
    cbn in Hdl, Hdr, Hal, Har. rewrite E1 in *. rewrite E2 in *.
    destruct (split_ok dwf pivot_held b b p ch i (RNode cb [pivot_at p i; pivot_at p (S i)] [RNil]) (Elem sk)
      (RNode (buf_filter (key_set (mkDomain (pivot_at p i) (Elem sk))) cb) [pivot_at p i; Elem sk] [RNil])
      (RNode (buf_filter (key_set (mkDomain (Elem sk) (pivot_at p (S i)))) cb) [Elem sk; pivot_at p (S i)] [RNil]))
      as (H1&H2&H3); try done.
  - destruct Hr as ((_&Hi)&(Hwc&(Hnc&Hix)&Hj)). cbn [Routed.children_of] in Hi.
    destruct (lookup_lt_is_Some_2 ch i Hi) as [c Hc].
    rewrite (child_at_lookup (RNode b p ch) i c Hc) in *. cbn [split_parent].
    rewrite (child_at_lookup (RNode b p ch) i c Hc).
    destruct (Hch _ _ Hc) as [_ Hdm]. specialize (Hdm Hnc).
    destruct c as [|cb cp cch]; [by destruct Hnc|]. cbn [Routed.pivots_of] in Hj.
    pose proof Hwc as (Hcp&Hcl&_&_)%wf_node. unfold num_ranges in Hj.
    unfold Routed.my_domain in Hdm. cbn [Routed.pivots_of] in Hdm. injection Hdm as E1 E2.
    rewrite pivot_last_eq in E2. replace (length cp - 1) with (length cch) in E2 by lia.
    cbn [split_index Routed.pivots_of].
    set (e := pivot_at cp j).
    assert (He1 : elt_lt (pivot_at p i) e) by (rewrite <-E1; apply pt_lt; [done|lia]).
    assert (He2 : elt_lt e (pivot_at p (S i))) by (rewrite <-E2; apply pt_lt; [done|lia]).
    unfold Routed.my_domain. cbn [dom_start dom_end Routed.pivots_of].
    rewrite pivot_last_eq. replace (length cp - 1) with (length cch) by lia.
    unfold pt_subrange.
    destruct (slice_ok dwf pivot_held cb (buf_filter (key_set (mkDomain (pivot_at cp 0) e)) cb) cp cch 0 j)
      as (Hwl&Hdl&Hal); [done|lia|done| |].
    { intros a k m Ha Hb. apply held_filter. apply key_set_true. unfold dom_contains, to_element.
      cbn [dom_start dom_end]. apply between_at in Hb as (Hb0&Hb1&Hb2). split.
      - eapply elt_lte_trans; [|exact Hb1]. apply pt_le; [done|lia].
      - eapply elt_lt_lte_trans; [exact Hb2|]. apply pt_le; [done|lia]. }
    destruct (slice_ok dwf pivot_held cb (buf_filter (key_set (mkDomain e (pivot_at cp (length cch)))) cb) cp cch j (length cch))
      as (Hwr&Hdr&Har); [done|lia|done| |].
    { intros a k m Ha Hb. apply held_filter. apply key_set_true. unfold dom_contains, to_element.
      cbn [dom_start dom_end]. apply between_at in Hb as (Hb0&Hb1&Hb2). split.
      - eapply elt_lte_trans; [|exact Hb1]. apply pt_le; [done|lia].
      - eapply elt_lt_lte_trans; [exact Hb2|]. apply pt_le; [done|lia]. }
    replace (length cch + 1) with (length cp) in * by lia.
    fold e in Hdl, Hdr, Hal, Har. rewrite E1 in Hdl, Hal. rewrite E2 in Hdr, Har.
    rewrite E1, E2 in *.
    edestruct (split_ok dwf pivot_held b b p ch i (RNode cb cp cch) e) as (H1&H2&H3);
      [done|exact Hc|exact He1|exact He2|exact Hwl|exact Hwr|done|done|exact Hdl|exact Hdr|exact Hal|exact Har|done|done|done|].
    split; [exact H1|]. split; [done|]. split; [exact H2|exact H3].
Qed.

Lemma flush_ok n i :
  can_flush n i →
  wf (flush n i) ∧ Routed.is_node (flush n i) ∧
  Routed.my_domain (flush n i) = Routed.my_domain n ∧ teq pivot_held n (flush n i).
Proof.
  intros (Hw&Hn&_&Hi). destruct n as [|b p ch]; [by destruct Hn|]. clear Hn.
  cbn [Routed.children_of] in Hi. pose proof Hw as (Hp&Hl&_&Hch)%wf_node.
  destruct (lookup_lt_is_Some_2 ch i Hi) as [c Hc]. destruct (Hch _ _ Hc) as [Hwc Hdm].
  cbn [flush]. rewrite (child_at_lookup (RNode b p ch) i c Hc).
  unfold Routed.child_domain. cbn [Routed.pivots_of]. replace (i + 1) with (S i) by lia.
  set (cd := mkDomain (pivot_at p i) (pivot_at p (S i))) in *.
  assert (Hcd : elt_lt (dom_start cd) (dom_end cd)) by (apply pt_lt; [done|lia]).
  assert (Hbc : ∀ k, between p i k ↔ dom_contains cd k).
  { intros k. rewrite between_at. unfold dom_contains, cd, to_element. simpl.
    split; [tauto|]. intros []. split; [lia|done]. }
  assert (Hpw : wf (promote c cd) ∧ Routed.is_node (promote c cd) ∧ Routed.my_domain (promote c cd) = cd).
  { destruct c; cbn [promote].
    - split; [by apply empty_root_wf|]. done.
    - split; [done|]. split; [done|]. by apply Hdm. }
  destruct Hpw as (Hpw&Hpn&Hpd).
  assert (Hpa : ∀ k m, dom_contains cd k → ans (promote c cd) k m ↔ ans c k m).
  { intros k m Hk. by apply promote_ok. }
  destruct (promote c cd) as [|b' p' ch'] eqn:E; [by destruct Hpn|].
  destruct (replace_child dwf pivot_held b (buf_filter (λ k, negb (key_set cd k)) b) p ch i c
    (merge_buffer (RNode b' p' ch') (buf_filter (key_set cd) b))) as [H1 H2].
  { done. } { done. } { by apply merge_buffer_wf. } { intros _. exact Hpd. } { done. }
  { intros j k m Hj Hne Hb. apply held_filter. apply negb_true_iff. apply not_true_iff_false.
    rewrite key_set_true, <-Hbc. intros Hb'. apply Hne. by eapply between_unique. }
  { intros k m Hk%Hbc. assert (key_set cd k = true) as Hks by by apply key_set_true.
    setoid_rewrite merge_buffer_ans. setoid_rewrite held_eq. setoid_rewrite buf_query_filter.
    rewrite Hks. cbn [negb]. setoid_rewrite merge_nop_r. setoid_rewrite (Hpa k _ Hk). naive_solver. }
  split; [exact H1|]. split; [done|]. split; [done|exact H2].
Qed.

(** ** Steps *)
Definition inv (s : State) : Prop := wf (root s) ∧ covers_all_keys (root s).
Lemma path_covers t key depth t' :
  Routed.path_valid dwf t key depth → wf t → covers_all_keys t → wf t' → Routed.is_node t' →
  Routed.my_domain t' = Routed.my_domain t → covers_all_keys t'.
Proof.
  intros Hv Hw Hc Hw' Hn' Hd. apply (covers_domain dwf); [done|done|]. rewrite Hd.
  apply (covers_domain dwf); [done| |done].
  destruct depth; cbn [Routed.path_valid] in Hv; apply Hv.
Qed.
Lemma receipt_iff n k m :
  (∃ r, Routed.valid_for dwf q r n k ∧ Routed.receipt_result r m) ↔ wf n ∧ pivot_answers n k m.
Proof. apply receipt_iff. intros. by eapply Hq. Qed.
Lemma step_sim s s' l : inv s → next s s' l → inv s' ∧ sim_step pivot_answers s s' l.
Proof.
  intros [Hw Hc] [(r&e&k&v&res&->&He&Hv&Hr&Hd& ->)|[(puts&->&Hpw&Hst& ->)|[(_&Hm&->& ->)|[(->&_& ->)|[(->&_& ->)|
    [(key&dp&r&->&Hp&Hcs& ->)|[(key&dp&i&->&Hp&Hcf& ->)|(->&_& ->)]]]]]]].
  - split; [done|]. eapply sim_query; [done| |exact Hd]. apply receipt_iff. by exists r.
  - split; [done|]. by apply sim_put.
  - split; [done|]. by apply sim_freeze.
  - destruct (push_memtable_ok (root s) (memtable s) Hw Hc) as (H1&H2&H3). split; [done|].
    by apply sim_flush_memtable.
  - destruct (grow_ok (root s) Hw Hc) as (H1&H2&H3). split; [done|]. apply sim_internal; [|done]. apply H3.
  - destruct (split_parent_ok _ _ Hcs) as (H1&H2&H3&H4).
    destruct (substitute_ok dwf pivot_held (root s) key dp _ Hp H1 H2 H3 H4) as (H5&H6&H7&H8).
    split; [|apply sim_internal; [apply H8|done]].
    split; [done|]. exact (path_covers _ _ _ _ Hp Hw Hc H5 H6 H7).
  - destruct (flush_ok _ _ Hcf) as (H1&H2&H3&H4).
    destruct (substitute_ok dwf pivot_held (root s) key dp _ Hp H1 H2 H3 H4) as (H5&H6&H7&H8).
    split; [|apply sim_internal; [apply H8|done]].
    split; [done|]. exact (path_covers _ _ _ _ Hp Hw Hc H5 H6 H7).
  - split; [done|]. by apply sim_internal.
Qed.
Lemma inv_init s0 img : initialize s0 img → covers_all_keys (st_value img) → inv s0.
Proof. intros [Hw ->] Hc. done. Qed.
Lemma inv_run s0 img ls s :
  initialize s0 img → covers_all_keys (st_value img) → run next s0 ls s → inv s.
Proof.
  intros Hi Hc Hr. pose proof (inv_init _ _ Hi Hc) as H0.
  induction Hr as [|sa ls1 s1 l s2 Hr IH Hn]; [done|]. exact (proj1 (step_sim _ _ _ (IH Hi H0) Hn)).
Qed.
Lemma faithful s0 img ls s :
  initialize s0 img → covers_all_keys (st_value img) → run next s0 ls s →
  ∃ m, holds pivot_answers (st_value img) m ∧
       acts_as_map pivot_answers (mkStamped m (st_seq_end img)) ls s.
Proof.
  intros Hi Hc Hr. exists (den pivot_held (st_value img)). pose proof Hi as [Hw _].
  assert (holds pivot_answers (st_value img) (den pivot_held (st_value img))) by by apply (holds_den dwf).
  split; [done|]. eapply (acts_as_map_intro pivot_answers next inv s0 img ls s); [|by apply Hi| |done|done].
  - intros s1 s2 l. apply step_sim.
  - by eapply inv_init.
Qed.
Lemma query_iff s k v :
  can_answer next s k v ↔
  wf (root s) ∧ ∃ m, pivot_answers (root s) k m ∧ Define v = merge m (mt_query (memtable s) k).
Proof.
  unfold can_answer. split.
  - intros [(r&e&k'&v'&res&[= <- <- <-]&_&Hv&Hr&Hd&_)|Hn].
    + assert (wf (root s) ∧ pivot_answers (root s) k res) as [Hw Ha] by (apply receipt_iff; by exists r).
      split; [done|]. by exists res.
    + destruct Hn as [(?&?&_)|[(_&_&?&_)|[(?&_)|[(?&_)|[(?&?&?&?&_)|[(?&?&?&?&_)|(?&_)]]]]]]; discriminate.
  - intros (Hw&m&Ha&Hd). destruct (proj2 (receipt_iff (root s) k m) (conj Hw Ha)) as (r&Hv&Hr). left. exists r.
    exists (mt_seq_end (memtable s)), k, v, m. done.
Qed.
Lemma internal_invisible s s' :
  inv s → next s s' Internal → ∀ k v, can_answer next s k v ↔ can_answer next s' k v.
Proof.
  intros Hi Hn k v. rewrite !query_iff. destruct (step_sim _ _ _ Hi Hn) as [Hi' Hs].
  destruct Hi as [Hw Hc]. destruct Hi' as [Hw' Hc'].
  set (M := λ k, merge (den pivot_held (root s) k) (mt_query (memtable s) k)).
  assert (sim pivot_answers s (AbstractMap.mkState (mkStamped M (mt_seq_end (memtable s))))) as H0.
  { split; [|done]. exists (den pivot_held (root s)). split; [by apply (holds_den dwf)|].
    intros k'. by rewrite merge_all_opt. }
  destruct (Hs _ H0) as (a'&al&Ha&He&(Hs'&_)). simpl in He. subst al.
  assert (a' = AbstractMap.mkState (mkStamped M (mt_seq_end (memtable s)))) as ->.
  { destruct Ha as [(?&?&?&?&_)|[(?&?&_)|[(?&_)|(_&->)]]]; done. }
  destruct Hs' as (base&Hb&Hk). specialize (Hk k). simpl in Hk. rewrite merge_all_opt in Hk.
  fold (mt_query (memtable s') k) in Hk. unfold M in Hk.
  pose proof (holds_den dwf pivot_held (root s) Hw Hc) as Hh.
  split.
  - intros (_&m&Hm&Hd). split; [done|]. apply Hh in Hm. subst m. exists (base k). split; [by apply Hb|congruence].
  - intros (_&m&Hm&Hd). split; [done|]. apply Hb in Hm. subst m.
    exists (den pivot_held (root s) k). split; [by apply Hh|congruence].
Qed.
Lemma one_answer s k : inv s → ∃ v, can_answer next s k v ∧ ∀ v', can_answer next s k v' → v' = v.
Proof.
  intros [Hw Hc]. pose proof (holds_den dwf pivot_held (root s) Hw Hc) as Hh.
  assert (Ha : pivot_answers (root s) k (den pivot_held (root s) k)) by by apply Hh.
  destruct (paged_is_define_merge (den pivot_held (root s) k) (mt_query (memtable s) k) (ans_define _ _ _ _ Ha)) as [v Hv].
  exists v. split.
  - apply query_iff. split; [done|]. by exists (den pivot_held (root s) k).
  - intros v' (_&m&Hm&Hd)%query_iff. apply Hh in Hm. congruence.
Qed.
