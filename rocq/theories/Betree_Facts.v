(** The property forms of the be-tree results, and the uncovered-image counterexample. *)
From Verif Require Import Spec_Model Abs_Model Betree_Model Betree_Spec Spec_Proof Abs_Proof Route_Proof Betree_Common Routed_Proof.
From Verif Require PagedBetree_Proof PivotBetree_Proof FilteredBetree_Proof.
From Coq Require Import ZifyBool ZifyNat ZifyN Lia.

Lemma responsible_bounded {D} dwf (t : Routed.BetreeNode D) k :
  Routed.wf dwf t → responsible t k → Routed.is_node t → bounded_key (Routed.pivots_of t) k.
Proof.
  destruct t as [|d p ch]; [by intros _ _ []|]. intros _ (lo&hi&H0&H1&H2&H3) _.
  unfold bounded_key. cbn [Routed.pivots_of].
  by rewrite pivot_last_eq, (pivot_at_Some _ _ _ H0), (pivot_at_Some _ _ _ H1).
Qed.
Lemma routed_one {D} (dwf : D → nat → Prop) (q : D → nat → Key → Message) (held : D → nat → Key → list Message) (t : Routed.BetreeNode D) k :
  (∀ d n i k m, dwf d n → i < n → merge_all m (held d i k) = merge m (q d i k)) →
  Routed.wf dwf t → responsible t k →
  ∃ m, routed_receipt dwf q t k m ∧ (∀ m', routed_receipt dwf q t k m' → m' = m) ∧
       routed_answers held t k m.
Proof.
  intros Hq Hw Hr. pose proof (den_ans dwf held t k Hw) as Ha.
  specialize (Ha (responsible_bounded dwf t k Hw Hr)).
  exists (den held t k). split; [|split; [|done]].
  - by apply (receipt_iff dwf q held Hq).
  - intros m' Hm. apply (receipt_iff dwf q held Hq) in Hm as [_ Hm]. symmetry. by apply (ans_den dwf).
Qed.
Lemma paged_one t k :
  ∃ m, paged_receipt t k m ∧ (∀ m', paged_receipt t k m' → m' = m) ∧ paged_answers t k m.
Proof.
  exists (PagedBetree_Proof.den t k).
  assert (Ha : paged_answers t k (PagedBetree_Proof.den t k)) by by apply PagedBetree_Proof.answers_den.
  split; [by apply PagedBetree_Proof.receipt_iff|]. split; [|done].
  intros m' Hm%PagedBetree_Proof.receipt_iff. symmetry. by apply PagedBetree_Proof.answers_den.
Qed.

Lemma pivot_structure s0 img ls s :
  Pivot.initialize s0 img → covers_all_keys (st_value img) → run Pivot.next s0 ls s →
  tiles (root s) (Elem 0) EMax.
Proof.
  intros Hi Hc Hr. destruct (PivotBetree_Proof.inv_run _ _ _ _ Hi Hc Hr) as [Hw Hcv].
  pose proof (wf_tiles _ _ Hw) as Ht. destruct (root s) eqn:E; [constructor|].
  rewrite (proj1 (covers_domain Pivot.dwf _ Hw ltac:(done)) Hcv) in Ht. exact Ht.
Qed.
Lemma filtered_structure s0 img ls s :
  Filtered.initialize s0 img → covers_all_keys (st_value img) → run Filtered.next s0 ls s →
  tiles (root s) (Elem 0) EMax.
Proof.
  intros Hi Hc Hr. destruct (FilteredBetree_Proof.inv_run _ _ _ _ Hi Hc Hr) as [Hw Hcv].
  pose proof (wf_tiles _ _ Hw) as Ht. destruct (root s) eqn:E; [constructor|].
  rewrite (proj1 (covers_domain Filtered.dwf _ Hw ltac:(done)) Hcv) in Ht. exact Ht.
Qed.
Lemma pivot_invisible s0 img ls s s' :
  Pivot.initialize s0 img → covers_all_keys (st_value img) → run Pivot.next s0 ls s →
  Pivot.next s s' Internal →
  ∀ k v, can_answer Pivot.next s k v ↔ can_answer Pivot.next s' k v.
Proof.
  intros Hi Hc Hr Hn. apply PivotBetree_Proof.internal_invisible; [|done].
  by eapply PivotBetree_Proof.inv_run.
Qed.
Lemma filtered_invisible s0 img ls s s' :
  Filtered.initialize s0 img → covers_all_keys (st_value img) → run Filtered.next s0 ls s →
  Filtered.next s s' Internal →
  ∀ k v, can_answer Filtered.next s k v ↔ can_answer Filtered.next s' k v.
Proof.
  intros Hi Hc Hr Hn. apply FilteredBetree_Proof.internal_invisible; [|done].
  by eapply FilteredBetree_Proof.inv_run.
Qed.
Lemma pivot_one_answer s0 img ls s k :
  Pivot.initialize s0 img → covers_all_keys (st_value img) → run Pivot.next s0 ls s →
  ∃ v, can_answer Pivot.next s k v ∧ ∀ v', can_answer Pivot.next s k v' → v' = v.
Proof. intros Hi Hc Hr. apply PivotBetree_Proof.one_answer. by eapply PivotBetree_Proof.inv_run. Qed.
Lemma filtered_one_answer s0 img ls s k :
  Filtered.initialize s0 img → covers_all_keys (st_value img) → run Filtered.next s0 ls s →
  ∃ v, can_answer Filtered.next s k v ∧ ∀ v', can_answer Filtered.next s k v' → v' = v.
Proof. intros Hi Hc Hr. apply FilteredBetree_Proof.one_answer. by eapply FilteredBetree_Proof.inv_run. Qed.

Lemma pivot_frozen s0 img ls s s' img' :
  Pivot.initialize s0 img → covers_all_keys (st_value img) → run Pivot.next s0 ls s →
  Pivot.next s s' (FreezeAs img') →
  covers_all_keys (st_value img') ∧ ∃ s0', Pivot.initialize s0' img'.
Proof.
  intros Hi Hc Hr Hn. destruct (PivotBetree_Proof.inv_run _ _ _ _ Hi Hc Hr) as [Hw Hcv].
  destruct Hn as [(r&e&k&v&res&?&_)|[(puts&?&_)|[(_&_&[= ->]&_)|[(?&_)|[(?&_)|Hn]]]]]; try done.
  - split; [done|]. eexists. by split.
  - repeat destruct Hn as [Hn|Hn]; repeat destruct Hn as [? Hn]; done.
Qed.

Lemma filtered_frozen s0 img ls s s' img' :
  Filtered.initialize s0 img → covers_all_keys (st_value img) → run Filtered.next s0 ls s →
  Filtered.next s s' (FreezeAs img') →
  covers_all_keys (st_value img') ∧ ∃ s0', Filtered.initialize s0' img'.
Proof.
  intros Hi Hc Hr Hn. destruct (FilteredBetree_Proof.inv_run _ _ _ _ Hi Hc Hr) as [Hw Hcv].
  destruct Hn as [(r&e&k&v&res&?&_)|[(puts&?&_)|[(_&_&[= ->]&_)|[(?&_)|[(?&_)|Hn]]]]]; try done.
  - split; [done|]. eexists. by split.
  - repeat destruct Hn as [Hn|Hn]; repeat destruct Hn as [? Hn]; done.
Qed.

(** ** An image whose root does not cover every key *)
Section Uncovered.
  Definition narrow_domain : Domain := mkDomain (Elem 5) (Elem 10).
  Definition narrow_img : Stamped (Routed.BetreeNode (gmap N Message)) :=
    mkStamped (Pivot.empty_root narrow_domain) 0.
  Definition J (s : BState (Routed.BetreeNode (gmap N Message))) : Prop :=
    Routed.wf Pivot.dwf (root s) → Routed.is_node (root s) ∧ Routed.my_domain (root s) = narrow_domain.
  Lemma J_step s s' l : J s → Pivot.next s s' l → J s'.
  Proof.
    intros HJ [(r&e&k&v&res&_&_&_&_&_& ->)|[(puts&_&_&_& ->)|[(_&_&_& ->)|[(->&Hw& ->)|[(->&Hw& ->)|
      [(key&dp&r&->&Hp&Hcs& ->)|[(key&dp&i&->&Hp&Hcf& ->)|(->&_& ->)]]]]]]]; try done.
    - intros _. destruct (HJ Hw) as [Hn Hd]. cbn [root]. destruct (root s); [by destruct Hn|]. done.
    - intros Hg. exfalso. destruct (HJ Hw) as [Hn Hd]. cbn [root] in Hg.
      apply wf_node in Hg as (_&_&_&Hc). destruct (Hc 0 (root s) eq_refl) as [_ Hdm].
      specialize (Hdm Hn). rewrite Hd in Hdm. discriminate.
    - intros _. destruct (PivotBetree_Proof.split_parent_ok _ _ Hcs) as (H1&H2&H3&H4).
      destruct (substitute_ok Pivot.dwf pivot_held (root s) key dp _ Hp H1 H2 H3 H4) as (H5&H6&H7&H8).
      split; [done|]. cbn [root]. rewrite H7. apply HJ. destruct dp; cbn [Routed.path_valid] in Hp; apply Hp.
    - intros _. destruct (PivotBetree_Proof.flush_ok _ _ Hcf) as (H1&H2&H3&H4).
      destruct (substitute_ok Pivot.dwf pivot_held (root s) key dp _ Hp H1 H2 H3 H4) as (H5&H6&H7&H8).
      split; [done|]. cbn [root]. rewrite H7. apply HJ. destruct dp; cbn [Routed.path_valid] in Hp; apply Hp.
  Qed.
  Lemma narrow_init : Pivot.initialize (mkBS (empty_memtable 0) (Pivot.empty_root narrow_domain)) narrow_img.
  Proof. split; [|done]. apply PivotBetree_Proof.empty_root_wf. cbn. elt_cases. lia. Qed.
  Lemma narrow_stuck ls s v :
    run Pivot.next (mkBS (empty_memtable 0) (Pivot.empty_root narrow_domain)) ls s →
    ¬ can_answer Pivot.next s 3%N v.
  Proof.
    intros Hr Hq. assert (HJ : J s).
    { eapply (run_inv _ J); [|apply J_step|exact Hr]. intros _. done. }
    apply PivotBetree_Proof.query_iff in Hq as (Hw&m&Ha&_). destruct (HJ Hw) as [Hn Hd].
    destruct (root s) as [|b p ch]; [by destruct Hn|].
    pose proof (ans_bounded Pivot.dwf pivot_held _ _ _ _ _ Hw Ha) as Hb.
    assert (dom_contains (Routed.my_domain (Routed.Node b p ch)) 3%N) as [H1 _] by done.
    rewrite Hd in H1. cbn in H1. unfold key_lte in H1. lia.
  Qed.
  Definition put_key_3 : MsgHistory := singleton_at 0 (mkKM 3%N (Define 7%N)).
  Lemma narrow_refuted :
    ∃ s0 img s1, Pivot.initialize s0 img ∧
      Pivot.next s0 s1 (Put (singleton_at 0 (mkKM 3%N (Define 7%N)))) ∧
      ∀ ls s v, run Pivot.next s1 ls s → ¬ can_answer Pivot.next s 3%N v.
  Proof.
    exists (mkBS (empty_memtable 0) (Pivot.empty_root narrow_domain)), narrow_img.
    eexists. split; [apply narrow_init|].
    assert (Hput : Pivot.next (mkBS (empty_memtable 0) (Pivot.empty_root narrow_domain))
      (mkBS (apply_puts (empty_memtable 0) put_key_3) (Pivot.empty_root narrow_domain)) (Put put_key_3)).
    { right; left. exists put_key_3. split; [done|]. split; [apply singleton_wf|]. done. }
    split; [exact Hput|]. intros ls s v Hr. eapply narrow_stuck. eapply run_cons; [exact Hput|exact Hr].
  Qed.
End Uncovered.
