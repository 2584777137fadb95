(** Proofs about the page allocators (C32). *)
From Verif Require Import Spec_Model Spec_Proof AsyncDisk_Proof AllocJournal_Model Alloc_Model Alloc_Spec.

Lemma run_split {S L} (nx : S → S → L → Prop) s tr s' n :
  run nx s tr s' → ∃ s1, run nx s (take n tr) s1 ∧ run nx s1 (drop n tr) s'.
Proof.
  induction 1 as [s|s ls s' l s'' Hr (s1 & R1 & R2) Hn].
  - exists s. rewrite take_nil, drop_nil. split; constructor.
  - destruct (decide (n ≤ length ls)).
    + exists s1. rewrite take_app_le, drop_app_le by done. split; [done|]. by econstructor.
    + exists s''. rewrite take_ge, drop_ge by (rewrite app_length; simpl; lia). split; [by econstructor|constructor].
Qed.
Lemma run_cons_inv {S L} (nx : S → S → L → Prop) s l tr s' :
  run nx s (l :: tr) s' → ∃ s1, nx s s1 l ∧ run nx s1 tr s'.
Proof.
  intros H. destruct (run_split _ _ _ _ 1 H) as (s1 & R1 & R2). cbn in R1, R2. rewrite take_0 in R1. rewrite drop_0 in R2.
  apply (run_snoc_inv nx s [] l s1) in R1 as (s2 & R0 & Hn). apply run_nil_inv in R0 as ->. eauto.
Qed.
(** The steps at two positions, and the run in between. *)
Lemma run_two {S L} (nx : S → S → L → Prop) s tr s' i j a b :
  run nx s tr s' → i < j → tr !! i = Some a → tr !! j = Some b →
  ∃ s1 s2 s3 s4, run nx s (take i tr) s1 ∧ nx s1 s2 a ∧ run nx s2 (take (j - Datatypes.S i) (drop (Datatypes.S i) tr)) s3 ∧
    run nx s (take j tr) s3 ∧ nx s3 s4 b.
Proof.
  intros Hr Hij Hi Hj. destruct (run_split _ _ _ _ i Hr) as (s1 & R1 & R2).
  rewrite (drop_S _ a) in R2 by done. apply run_cons_inv in R2 as (s2 & N1 & R2).
  destruct (run_split _ _ _ _ (j - Datatypes.S i) R2) as (s3 & R3 & R4).
  rewrite drop_drop in R4. replace (Datatypes.S i + (j - Datatypes.S i)) with j in R4 by lia.
  rewrite (drop_S _ b) in R4 by done. apply run_cons_inv in R4 as (s4 & N2 & R4).
  exists s1, s2, s3, s4. do 3 (split; [done|]). split; [|done].
  assert (Ht : take j tr = take i tr ++ a :: take (j - Datatypes.S i) (drop (Datatypes.S i) tr)).
  { rewrite <- (take_drop_middle _ _ _ Hi) at 1. rewrite take_app_ge by (rewrite take_length; lia). f_equal.
    rewrite take_length. apply lookup_lt_Some in Hi. rewrite Nat.min_l by lia.
    replace (j - i) with (Datatypes.S (j - Datatypes.S i)) by lia. done. }
  rewrite Ht. eapply run_app; [done|]. by eapply run_cons.
Qed.
Lemma between_seg {L} (tr : list L) i j P : j ≤ length tr →
  (∃ l, l ∈ take (j - S i) (drop (S i) tr) ∧ P l) ↔ between tr i j P.
Proof.
  intros Hj. split.
  - intros (l & Hl & HP). apply elem_of_list_lookup in Hl as [k Hk].
    apply lookup_take_Some in Hk as [Hk Hlt]. rewrite lookup_drop in Hk. exists (S i + k), l. split; [lia|done].
  - intros (k & l & Hk & Hl & HP). exists l. split; [|done]. apply elem_of_list_lookup. exists (k - S i).
    rewrite lookup_take by lia. rewrite lookup_drop. by replace (S i + (k - S i)) with k by lia.
Qed.

(** ** The executable allocator *)
Section exec.
  Context `{Geometry}.
  Notation nx := XAlloc.next.
  Definition xinv (tr : list XAlloc.Label) (m : XAlloc.MiniAllocator) : Prop :=
    ∀ p, XAlloc.allocs m = Some p →
      XAlloc.observed p = XAlloc.reserved p ∧ N.to_nat (XAlloc.reserved p) ≤ page_count ∧
      N.to_nat (XAlloc.pa_au p) < au_count ∧
      ∃ i, tr !! i = Some (XAlloc.Give (XAlloc.pa_au p)) ∧ XAlloc.Reset ∉ drop (S i) tr ∧
        takes (drop (S i) tr) = mkAddr (N.to_nat (XAlloc.pa_au p)) <$> seq 0 (N.to_nat (XAlloc.reserved p)).
  Lemma take_inv p a m m' : XAlloc.allocs m = Some p → XAlloc.allocate_and_observe m = Some (a, m') →
    (XAlloc.reserved p < XAlloc.u32_max)%N ∧
    a = mkAddr (N.to_nat (XAlloc.pa_au p)) (N.to_nat (XAlloc.reserved p)) ∧
    m' = XAlloc.mkMA (Some (XAlloc.mkPA (XAlloc.reserved p + 1) (XAlloc.reserved p + 1) (XAlloc.pa_au p))).
  Proof.
    unfold XAlloc.allocate_and_observe, XAlloc.reserve. intros ->.
    destruct (N.ltb_spec (XAlloc.reserved p) XAlloc.u32_max); [|done]. by intros [= <- <-].
  Qed.
  Lemma xinv_run tr m : run nx XAlloc.empty tr m → xinv tr m.
  Proof.
    intros Hr. remember XAlloc.empty as m0 eqn:E.
    induction Hr as [m|m tr m1 l m2 Hr IH Hn]; subst; [done|]. specialize (IH eq_refl).
    destruct l as [u|a|].
    - destruct Hn as (_ & Hu & ->). intros p [= <-]. cbn. split; [done|]. split; [lia|]. split; [done|].
      exists (length tr). rewrite lookup_app_r, Nat.sub_diag by lia. rewrite drop_ge by (rewrite app_length; cbn; lia).
      split; [done|]. split; [apply not_elem_of_nil|done].
    - destruct Hn as ((p & Hp & Hf & _) & Ht). destruct (take_inv _ _ _ _ Hp Ht) as (_ & -> & ->).
      destruct (IH p Hp) as (Ho & Hle & Hu & i & Hi & Hno & Htk). intros q [= <-]. cbn.
      unfold XAlloc.has_free_addr in Hf. split; [done|]. split; [lia|]. split; [done|]. exists i.
      assert (Hl := lookup_lt_Some _ _ _ Hi). rewrite lookup_app_l, drop_app_le by lia. split; [done|]. split.
      + intros [?|?%elem_of_list_singleton]%elem_of_app; done.
      + unfold takes in *. rewrite omap_app, Htk. cbn.
        replace (N.to_nat (XAlloc.reserved p + 1)) with (N.to_nat (XAlloc.reserved p) + 1) by lia.
        by rewrite seq_app, fmap_app.
    - destruct Hn as (_ & ->). done.
  Qed.
  Lemma some_none m tr m' : run nx m tr m' → is_Some (XAlloc.allocs m) → XAlloc.allocs m' = None → XAlloc.Reset ∈ tr.
  Proof.
    intros Hr Hs. induction Hr as [m|m tr m1 l m2 Hr IH Hn]; intros Hn'.
    - rewrite Hn' in Hs. by destruct Hs.
    - apply elem_of_app. destruct l as [u|a|]; [..|right; by apply elem_of_list_singleton].
      + left. apply IH; [done|]. by destruct Hn.
      + destruct Hn as ((p & Hp & _) & Ht). destruct (take_inv _ _ _ _ Hp Ht) as (_ & _ & ->). done.
  Qed.
  Lemma xalloc_fresh tr m i j a : run nx XAlloc.empty tr m → i < j →
    tr !! i = Some (XAlloc.Take a) → tr !! j = Some (XAlloc.Take a) → between tr i j (λ l, l = XAlloc.Reset).
  Proof.
    intros Hr Hij Hi Hj. assert (Hjl := lookup_lt_Some _ _ _ Hj).
    destruct (run_at _ _ _ _ _ _ Hr Hj) as (m3 & m4 & R3 & ((p & Hp & _) & Ht)).
    destruct (take_inv _ _ _ _ Hp Ht) as (_ & Ha & _).
    destruct (xinv_run _ _ R3 p Hp) as (_ & _ & _ & k & Hk & Hno & Htk).
    apply lookup_take_Some in Hk as [Hk Hkj].
    destruct (decide (k < i)) as [Hki|Hki].
    - exfalso. assert (Hin : a ∈ takes (drop (S k) (take j tr))).
      { unfold takes. apply elem_of_list_omap. exists (XAlloc.Take a). split; [|done].
        apply elem_of_list_lookup. exists (i - S k). rewrite lookup_drop. replace (S k + (i - S k)) with i by lia.
        by rewrite lookup_take. }
      rewrite Htk in Hin. apply elem_of_list_fmap in Hin as (g & Hg & Hin). apply elem_of_seq in Hin.
      rewrite Ha in Hg. injection Hg as Hg. lia.
    - assert (i ≠ k) by (intros ->; congruence).
      destruct (run_two _ _ _ _ i k _ _ Hr ltac:(lia) Hi Hk) as (s1 & s2 & s3 & s4 & _ & N1 & R & _ & N2).
      assert (Hb : between tr i k (λ l, l = XAlloc.Reset)).
      { apply between_seg; [lia|]. exists XAlloc.Reset. split; [|done].
        eapply some_none; [done| |by destruct N2]. destruct N1 as ((q & Hq & _) & Ht').
        destruct (take_inv _ _ _ _ Hq Ht') as (_ & _ & ->). by eexists. }
      destruct Hb as (x & l & Hx & Hl & HP). exists x, l. split; [lia|done].
  Qed.
  Lemma xalloc_own tr m j a : run nx XAlloc.empty tr m → tr !! j = Some (XAlloc.Take a) →
    addr_wf a ∧ ∃ i, holds_unit tr j (au a) i.
  Proof.
    intros Hr Hj. assert (Hjl := lookup_lt_Some _ _ _ Hj).
    destruct (run_at _ _ _ _ _ _ Hr Hj) as (m3 & m4 & R3 & ((p & Hp & Hf & _) & Ht)).
    destruct (take_inv _ _ _ _ Hp Ht) as (_ & -> & _). unfold XAlloc.has_free_addr in Hf.
    destruct (xinv_run _ _ R3 p Hp) as (_ & Hle & Hu & k & Hk & Hno & Htk).
    split; [split; cbn; lia|]. apply lookup_take_Some in Hk as [Hk Hkj]. exists k. split; [done|]. split; [eauto|].
    intros Hb. apply between_seg in Hb as (l & Hl & ->); [|lia]. apply Hno.
    rewrite skipn_firstn_comm. done.
  Qed.
  Lemma xalloc_available tr m i u : (N.of_nat page_count ≤ XAlloc.u32_max)%N →
    run nx XAlloc.empty tr m → holds_unit tr (length tr) u i → length (takes (drop (S i) tr)) < page_count →
    ∃ a m', nx m m' (XAlloc.Take a).
  Proof.
    intros Hpc Hr (Hi & (n & Hn & Hu) & Hno) Hlen.
    assert (Hsome : is_Some (XAlloc.allocs m)).
    { destruct (XAlloc.allocs m) eqn:Hm; [by eexists|]. exfalso. apply Hno.
      destruct (run_split _ _ _ _ (S i) Hr) as (s1 & R1 & R2). rewrite (take_S_r _ _ _ Hn) in R1.
      apply run_snoc_inv in R1 as (s0 & R0 & N0). apply (between_seg tr i (length tr)); [done|].
      exists XAlloc.Reset. split; [|done]. rewrite take_ge by (rewrite drop_length; lia).
      eapply some_none; [done| |done]. destruct N0 as (_ & _ & ->). by eexists. }
    destruct Hsome as [p Hp]. destruct (xinv_run _ _ Hr p Hp) as (Ho & Hle & _ & k & Hk & Hnok & Htk).
    assert (k = i) as ->.
    { destruct (decide (k = i)) as [|Hne]; [done|exfalso]. assert (Hkl := lookup_lt_Some _ _ _ Hk).
      assert (Hgg : ∀ x y nx0 ny, x < y → tr !! x = Some (XAlloc.Give nx0) → tr !! y = Some (XAlloc.Give ny) →
        XAlloc.Reset ∈ drop (S x) tr).
      { intros x y a b Hxy Hx Hy. destruct (run_two _ _ _ _ x y _ _ Hr Hxy Hx Hy) as (s1 & s2 & s3 & s4 & _ & N1 & R & _ & N2).
        assert (Hin : XAlloc.Reset ∈ take (y - S x) (drop (S x) tr)).
        { eapply some_none; [done| |by destruct N2]. destruct N1 as (_ & _ & ->). by eexists. }
        rewrite <- (take_drop (y - S x) (drop (S x) tr)). apply elem_of_app. by left. }
      destruct (decide (k < i)).
      - apply Hnok. by eapply Hgg.
      - apply Hno, (between_seg tr i (length tr)); [done|]. exists XAlloc.Reset. split; [|done].
        rewrite take_ge by (rewrite drop_length; lia). eapply (Hgg i k); [lia|done..]. }
    rewrite Htk, fmap_length, seq_length in Hlen.
    eexists _, _. split.
    - exists p. split; [done|]. split; [unfold XAlloc.has_free_addr; lia|]. by unfold XAlloc.no_unobserved_pages.
    - unfold XAlloc.allocate_and_observe, XAlloc.reserve. rewrite Hp.
      destruct (N.ltb_spec (XAlloc.reserved p) XAlloc.u32_max); [reflexivity|lia].
  Qed.
  (** A call whose requirements are met does not panic. *)
  Lemma xalloc_no_panic tr m p : (N.of_nat page_count ≤ XAlloc.u32_max)%N → run nx XAlloc.empty tr m →
    XAlloc.allocs m = Some p → XAlloc.has_free_addr p → is_Some (XAlloc.allocate_and_observe m).
  Proof.
    intros Hpc Hr Hp Hf. destruct (xinv_run _ _ Hr p Hp) as (_ & Hle & _). unfold XAlloc.has_free_addr in Hf.
    unfold XAlloc.allocate_and_observe, XAlloc.reserve. rewrite Hp.
    destruct (N.ltb_spec (XAlloc.reserved p) XAlloc.u32_max); [by eexists|lia].
  Qed.

  (** Every call is calls of the specification on the views. *)
  Lemma elem_of_range u n a : a ∈ XAlloc.addr_range u n ↔ au a = N.to_nat u ∧ page a < N.to_nat n.
  Proof.
    unfold XAlloc.addr_range. rewrite elem_of_list_to_set, elem_of_list_fmap. split.
    - intros (g & -> & Hg%elem_of_seq). cbn. lia.
    - intros [Hu Hg]. exists (page a). split; [destruct a; cbn in *; by subst|apply elem_of_seq; lia].
  Qed.
  Lemma range_succ u n : XAlloc.addr_range u (n + 1) = XAlloc.addr_range u n ∪ {[mkAddr (N.to_nat u) (N.to_nat n)]}.
  Proof.
    apply set_eq. intros a. rewrite elem_of_union, elem_of_singleton, !elem_of_range. split.
    - intros [Hu Hg]. destruct (decide (page a = N.to_nat n)); [right|left; lia]. destruct a; cbn in *; by subst.
    - intros [?| ->]; cbn; lia.
  Qed.
  Lemma xalloc_refines tr m m' l : run nx XAlloc.empty tr m → nx m m' l →
    run (MAlloc.next false) (XAlloc.view true m) (as_spec_calls (XAlloc.view true m) l) (XAlloc.view true m').
  Proof.
    intros Hr Hn. destruct l as [u|a|]; cbn [as_spec_calls].
    - destruct Hn as (Hm & Hu & ->). unfold XAlloc.view. rewrite Hm. cbn [XAlloc.allocs XAlloc.add_aus].
      apply run_one. cbn. unfold add_aus, XAlloc.pa_new, ma_empty. cbn. f_equal.
      + rewrite (left_id_L ∅ (∪)). unfold XAlloc.pa_view. cbn. unfold set_to_map. rewrite elements_singleton. cbn. done.
      + rewrite decide_False; [done|]. intros [_ Hx]. by apply Hx.
    - destruct Hn as ((p & Hp & Hf & Hno) & Ht). destruct (take_inv _ _ _ _ Hp Ht) as (_ & -> & ->).
      destruct (xinv_run _ _ Hr p Hp) as (Ho & Hle & Hu & _). unfold XAlloc.has_free_addr in Hf.
      unfold XAlloc.view. rewrite Hp. cbn [XAlloc.allocs].
      set (a := mkAddr (N.to_nat (XAlloc.pa_au p)) (N.to_nat (XAlloc.reserved p))).
      set (v := mkMA _ _) at 1.
      assert (Hfree : is_free_addr (XAlloc.pa_view p) a).
      { split; [split; cbn; lia|]. split; [done|]. cbn. rewrite elem_of_union, !elem_of_range. unfold a. cbn. lia. }
      assert (Hlk : allocs v !! au a = Some (XAlloc.pa_view p)) by apply lookup_singleton.
      eapply (run_cons _ _ _ (allocate v a)); [split; [by exists (XAlloc.pa_view p)|done]|].
      apply run_one. unfold allocate. rewrite Hlk. cbv zeta. split.
      + eexists. split; [apply lookup_insert|]. cbn. set_solver.
      + unfold ma_observe. cbn [allocs]. rewrite lookup_insert, insert_insert. unfold v. cbn [allocs curr].
        rewrite insert_singleton. f_equal.
        * cbn. f_equal. unfold XAlloc.pa_view, pa_observe, reserve. cbn. by rewrite range_succ, Ho.
        * assert (HA : all_pages_allocated (reserve (XAlloc.pa_view p) {[a]}) =
                       bool_decide (N.to_nat (XAlloc.reserved p + 1) = page_count)).
          { apply bool_decide_ext. unfold reserve. cbn [pa_au XAlloc.pa_view observed reserved]. rewrite Forall_seq. split.
            - intros [?|Hall]; [lia|]. destruct (decide (N.to_nat (XAlloc.reserved p + 1) = page_count)) as [|Hd]; [done|].
              specialize (Hall (N.to_nat (XAlloc.reserved p + 1)) ltac:(lia)).
              rewrite !elem_of_union, !elem_of_range, elem_of_singleton in Hall. cbn in Hall.
              destruct Hall as [[_ Hg]|[[_ Hg]|Hg]]; [lia..|]. injection Hg as Hg. lia.
            - intros Heq. right. intros g Hg. rewrite !elem_of_union, !elem_of_range, elem_of_singleton. cbn.
              destruct (decide (g = N.to_nat (XAlloc.reserved p))) as [->|]; [by right; right|]. right. left. lia. }
          rewrite HA. cbn [XAlloc.reserved XAlloc.pa_au].
          destruct (decide (N.to_nat (XAlloc.reserved p + 1) = page_count)) as [Hd|Hd].
          -- rewrite bool_decide_eq_true_2 by done. rewrite decide_False; [done|]. by intros [? _].
          -- rewrite bool_decide_eq_false_2 by done. rewrite decide_True; [done|]. split; [done|lia].
    - destruct Hn as ((p & Hp) & ->). apply run_one. cbn. split; [done|]. unfold XAlloc.view. rewrite Hp. cbn.
      unfold prune, ma_empty. cbn. rewrite dom_singleton_L. f_equal.
      + symmetry. apply map_empty. intros u. apply map_filter_lookup_None. right. intros x [<- _]%lookup_singleton_Some.
        cbn. set_solver.
      + destruct (decide (_ ∧ _)); [|done]. by rewrite decide_True by set_solver.
  Qed.
End exec.

(** ** The specification *)
Section spec.
  Context `{Geometry} (b : bool).
  Notation nx := (MAlloc.next b).
  Definition pg_used (m : MiniAllocator) (a : Address) : Prop := page_is_reserved m a.
  Lemma used_step m m' l a : nx m m' l → page_is_reserved m a →
    page_is_reserved m' a ∨ ∃ aus, l = MAlloc.Prune aus ∧ au a ∈ aus.
  Proof.
    intros Hn (p & Hp & Ha). destruct l as [aus|c|c|aus]; cbn in Hn.
    - subst. left. exists p. split; [|done]. cbn. by apply lookup_union_Some_l.
    - destruct Hn as [(q & Hq & _) ->]. left. unfold allocate. rewrite Hq. unfold page_is_reserved. cbn.
      destruct (decide (au a = au c)) as [He|].
      + rewrite He, lookup_insert. eexists. split; [done|]. cbn. rewrite He, Hq in Hp. injection Hp as ->. set_solver.
      + rewrite lookup_insert_ne by done. eauto.
    - destruct Hn as [(q & Hq & _) ->]. left. unfold ma_observe. rewrite Hq. unfold page_is_reserved. cbn.
      destruct (decide (au a = au c)) as [He|].
      + rewrite He, lookup_insert. eexists. split; [done|]. cbn. rewrite He, Hq in Hp. by injection Hp as ->.
      + rewrite lookup_insert_ne by done. eauto.
    - destruct Hn as [_ ->]. destruct (decide (au a ∈ aus)); [right; eauto|left].
      exists p. split; [|done]. cbn. apply map_filter_lookup_Some. done.
  Qed.
  Lemma used_run m tr m' a : run nx m tr m' → page_is_reserved m a →
    page_is_reserved m' a ∨ ∃ l, l ∈ tr ∧ ∃ aus, l = MAlloc.Prune aus ∧ au a ∈ aus.
  Proof.
    intros Hr Hu. induction Hr as [m|m tr m1 l m2 Hr IH Hn]; [by left|].
    destruct (IH Hu) as [Hu'|(l' & Hl & HP)]; [|right; exists l'; split; [apply elem_of_app; by left|done]].
    destruct (used_step _ _ _ _ Hn Hu') as [|HP]; [by left|right]. exists l.
    split; [apply elem_of_app; right; by apply elem_of_list_singleton|done].
  Qed.
  Lemma take_used m m' a : nx m m' (MAlloc.Take a) → page_is_reserved m' a ∧ ¬ page_is_reserved m a.
  Proof.
    intros [(p & Hp & (_ & _ & Hno)) ->]. unfold allocate. rewrite Hp. split.
    - unfold page_is_reserved. cbn. rewrite lookup_insert. eexists. split; [done|]. cbn. set_solver.
    - intros (q & Hq & Ha). rewrite Hp in Hq. injection Hq as <-. set_solver.
  Qed.
  Lemma malloc_fresh m0 tr m i j a : run nx m0 tr m → i < j →
    tr !! i = Some (MAlloc.Take a) → tr !! j = Some (MAlloc.Take a) →
    between tr i j (λ l, ∃ aus, l = MAlloc.Prune aus ∧ au a ∈ aus).
  Proof.
    intros Hr Hij Hi Hj. assert (Hjl := lookup_lt_Some _ _ _ Hj).
    destruct (run_two _ _ _ _ i j _ _ Hr Hij Hi Hj) as (s1 & s2 & s3 & s4 & _ & N1 & R & _ & N2).
    apply take_used in N1 as [N1 _], N2 as [_ N2]. apply between_seg; [lia|].
    destruct (used_run _ _ _ _ R N1) as [?|?]; [done|by eauto].
  Qed.
  (** Pages come from units given and not pruned since. *)
  Lemma unit_run m0 tr m u : allocs m0 = ∅ → run nx m0 tr m → is_Some (allocs m !! u) →
    ∃ i aus, tr !! i = Some (MAlloc.Give aus) ∧ u ∈ aus ∧
      ¬ between tr i (length tr) (λ l, ∃ X, l = MAlloc.Prune X ∧ u ∈ X).
  Proof.
    intros H0 Hr. induction Hr as [m|m tr m1 l m2 Hr IH Hn]; intros [p Hp]; [by rewrite H0 in Hp|].
    assert (Hold : is_Some (allocs m1 !! u) → (∀ X, l = MAlloc.Prune X → u ∉ X) →
      ∃ i aus, (tr ++ [l]) !! i = Some (MAlloc.Give aus) ∧ u ∈ aus ∧
      ¬ between (tr ++ [l]) i (length (tr ++ [l])) (λ l, ∃ X, l = MAlloc.Prune X ∧ u ∈ X)).
    { intros Hs Hl. destruct (IH H0 Hs) as (i & aus & Hi & Hu & Hno). exists i, aus.
      split; [by apply lookup_app_l_Some|]. split; [done|]. intros (k & l' & Hk & Hl' & X & -> & HX).
      apply lookup_snoc_Some in Hl' as [[Hlt Hl']|[-> ->]]; [|by eapply Hl].
      apply Hno. exists k, (MAlloc.Prune X). split; [lia|]. split; [done|]. eauto. }
    destruct l as [aus|c|c|aus]; cbn in Hn.
    - subst. destruct (allocs m1 !! u) as [q|] eqn:Hq; [apply Hold; [by eexists|done]|].
      exists (length tr), aus. split; [by rewrite lookup_app_r, Nat.sub_diag by lia|]. split.
      + cbn in Hp. apply lookup_union_Some_raw in Hp as [?|[_ Hp]]; [congruence|].
        apply lookup_set_to_map in Hp; [|done]. destruct Hp as (y & Hy & Hyy). by simplify_eq.
      + intros (k & l' & Hk & _). rewrite app_length in Hk. cbn in Hk. lia.
    - destruct Hn as [(q & Hq & _) ->]. apply Hold; [|done]. unfold allocate in Hp. rewrite Hq in Hp. cbn in Hp.
      destruct (decide (u = au c)) as [->|]; [by eexists|]. rewrite lookup_insert_ne in Hp by done. by eexists.
    - destruct Hn as [(q & Hq & _) ->]. apply Hold; [|done]. unfold ma_observe in Hp. rewrite Hq in Hp. cbn in Hp.
      destruct (decide (u = au c)) as [->|]; [by eexists|]. rewrite lookup_insert_ne in Hp by done. by eexists.
    - destruct Hn as [_ ->]. cbn in Hp. apply map_filter_lookup_Some in Hp as [Hp Hu]. apply Hold; [by eexists|].
      by intros X [= ->].
  Qed.
  Lemma malloc_own m0 tr m j a : allocs m0 = ∅ → run nx m0 tr m → tr !! j = Some (MAlloc.Take a) →
    addr_wf a ∧ ∃ i aus, i < j ∧ tr !! i = Some (MAlloc.Give aus) ∧ au a ∈ aus ∧
      ¬ between tr i j (λ l, ∃ X, l = MAlloc.Prune X ∧ au a ∈ X).
  Proof.
    intros H0 Hr Hj. assert (Hjl := lookup_lt_Some _ _ _ Hj).
    destruct (run_at _ _ _ _ _ _ Hr Hj) as (m3 & m4 & R3 & ((p & Hp & (Hwf & _)) & _)). split; [done|].
    destruct (unit_run _ _ _ (au a) H0 R3) as (i & aus & Hi & Hu & Hno); [by eexists|].
    apply lookup_take_Some in Hi as [Hi Hij]. exists i, aus. do 3 (split; [done|]).
    intros (k & l & Hk & Hl & HP). apply Hno. exists k, l. rewrite take_length, lookup_take by lia. split; [lia|done].
  Qed.
End spec.
Section guarded.
  Context `{Geometry}.
  Notation nx := (MAlloc.next true).
  Lemma used_forever m tr m' a : run nx m tr m' → page_is_reserved m a → page_is_reserved m' a.
  Proof.
    intros Hr Hu. induction Hr as [m|m tr m1 l m2 Hr IH Hn]; [done|].
    specialize (IH Hu). destruct (used_step _ _ _ _ _ Hn IH) as [|(aus & -> & Ha)]; [done|].
    destruct Hn as [Hg _]. destruct (Hg eq_refl _ Ha) as (p & Hp & He). destruct IH as (q & Hq & Hin).
    rewrite Hp in Hq. injection Hq as <-. unfold has_no_outstanding_refs in He. set_solver.
  Qed.
  Lemma malloc_never_twice m0 tr m i j a : run nx m0 tr m →
    tr !! i = Some (MAlloc.Take a) → tr !! j = Some (MAlloc.Take a) → i = j.
  Proof.
    intros Hr Hi Hj.
    assert (Hc : ∀ i j, i < j → tr !! i = Some (MAlloc.Take a) → tr !! j = Some (MAlloc.Take a) → False).
    { clear i j Hi Hj. intros i j Hij Hi Hj.
      destruct (run_two _ _ _ _ i j _ _ Hr Hij Hi Hj) as (s1 & s2 & s3 & s4 & _ & N1 & R & _ & N2).
      apply take_used in N1 as [N1 _], N2 as [_ N2]. apply N2. by eapply used_forever. }
    destruct (lt_eq_lt_dec i j) as [[?|?]|?]; [exfalso; eauto|done|exfalso; eauto].
  Qed.
  Lemma malloc_prunes_unused m0 tr m i j a aus : run nx m0 tr m → i < j →
    tr !! i = Some (MAlloc.Take a) → tr !! j = Some (MAlloc.Prune aus) → au a ∉ aus.
  Proof.
    intros Hr Hij Hi Hj Ha.
    destruct (run_two _ _ _ _ i j _ _ Hr Hij Hi Hj) as (s1 & s2 & s3 & s4 & _ & N1 & R & _ & [N2 _]).
    apply take_used in N1 as [N1 _]. destruct (used_forever _ _ _ _ R N1) as (q & Hq & Hin).
    destruct (N2 eq_refl _ Ha) as (p & Hp & He). rewrite Hp in Hq. injection Hq as <-.
    unfold has_no_outstanding_refs in He. set_solver.
  Qed.
End guarded.

(** ** Concrete histories *)
Definition ageo : Geometry := Build_Geometry 2 4.
(** Two pages of unit 1, a reset, and the unit again. *)
Definition xstory : list XAlloc.Label :=
  [XAlloc.Give 1; XAlloc.Take (mkAddr 1 0); XAlloc.Take (mkAddr 1 1); XAlloc.Reset; XAlloc.Give 1; XAlloc.Take (mkAddr 1 0)]%N.
Definition xend : XAlloc.MiniAllocator := XAlloc.mkMA (Some (XAlloc.mkPA 1 1 1)).
Lemma xstory_run : run (@XAlloc.next ageo) XAlloc.empty xstory xend.
Proof.
  eapply (run_cons _ _ _ (XAlloc.mkMA (Some (XAlloc.mkPA 0 0 1)))); [split; [done|]; split; [cbn; lia|done]|].
  eapply (run_cons _ _ _ (XAlloc.mkMA (Some (XAlloc.mkPA 1 1 1)))); [split; [|done]; eexists; split; [done|]; by split|].
  eapply (run_cons _ _ _ (XAlloc.mkMA (Some (XAlloc.mkPA 2 2 1)))); [split; [|done]; eexists; split; [done|]; by split|].
  eapply (run_cons _ _ _ XAlloc.empty); [split; [by eexists|done]|].
  eapply (run_cons _ _ _ (XAlloc.mkMA (Some (XAlloc.mkPA 0 0 1)))); [split; [done|]; split; [cbn; lia|done]|].
  eapply (run_cons _ _ _ xend); [split; [|done]; eexists; split; [done|]; by split|]. constructor.
Qed.
Definition mstory : list MAlloc.Label :=
  [MAlloc.Give {[1; 2]}; MAlloc.Take (mkAddr 1 0); MAlloc.Observe (mkAddr 1 0); MAlloc.Prune {[2]}; MAlloc.Take (mkAddr 1 1)].
Lemma mstory_run b : ∃ m, run (@MAlloc.next ageo b) ma_empty mstory m.
Proof.
  eexists. eapply run_cons; [reflexivity|].
  eapply run_cons; [split; [|reflexivity]|].
  { eexists. split; [vm_compute; reflexivity|]. split; [split; cbn; lia|]. split; [done|].
    apply (bool_decide_eq_true_1 _). vm_compute. reflexivity. }
  eapply run_cons; [split; [|reflexivity]|].
  { eexists. split; [vm_compute; reflexivity|]. apply (bool_decide_eq_true_1 _). vm_compute. reflexivity. }
  eapply run_cons; [split; [|reflexivity]|].
  { intros _ u ->%elem_of_singleton. eexists. split; [vm_compute; reflexivity|done]. }
  eapply run_cons; [split; [|reflexivity]|].
  { eexists. split; [vm_compute; reflexivity|]. split; [split; cbn; lia|]. split; [done|].
    apply (bool_decide_eq_true_1 _). vm_compute. reflexivity. }
  constructor.
Qed.
(** The calls of the specification that the executable story amounts to. *)
Lemma twice_run : ∃ m, run (@MAlloc.next ageo false) (@XAlloc.view ageo true XAlloc.empty)
  ([MAlloc.Give {[1]}; MAlloc.Take (mkAddr 1 0); MAlloc.Observe (mkAddr 1 0); MAlloc.Prune {[1]};
    MAlloc.Give {[1]}; MAlloc.Take (mkAddr 1 0); MAlloc.Observe (mkAddr 1 0)]) m.
Proof.
  assert (Ht : ∀ m : MiniAllocator, allocs m !! 1 = Some (pa_new 1) → @can_allocate ageo m (mkAddr 1 0)).
  { intros m Hm. exists (pa_new 1). split; [done|]. split; [split; cbn; lia|]. split; [done|]. set_solver. }
  eexists. eapply run_cons; [reflexivity|]. eapply run_cons; [split; [apply Ht; vm_compute; reflexivity|reflexivity]|].
  eapply run_cons; [split; [|reflexivity]|].
  { eexists. split; [vm_compute; reflexivity|]. apply (bool_decide_eq_true_1 _). vm_compute. reflexivity. }
  eapply run_cons; [split; [done|reflexivity]|]. eapply run_cons; [reflexivity|].
  eapply run_cons; [split; [apply Ht; vm_compute; reflexivity|reflexivity]|].
  eapply run_cons; [split; [|reflexivity]|].
  { eexists. split; [vm_compute; reflexivity|]. apply (bool_decide_eq_true_1 _). vm_compute. reflexivity. }
  constructor.
Qed.
