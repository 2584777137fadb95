(** Order, search and routing lemmas. *)
From Verif Require Import Spec_Model Abs_Model Betree_Model.
From Coq Require Import ZifyBool ZifyNat ZifyN Lia.
Local Set Default Proof Using "Type".

Lemma elt_lte_elem x y : elt_lte (Elem x) (Elem y) ↔ (x ≤ y)%N.
Proof. done. Qed.
Lemma elt_lt_elem x y : elt_lt (Elem x) (Elem y) ↔ (x < y)%N.
Proof.
  unfold elt_lt, elt_lte, key_lte. split.
  - intros [H Hn]. assert (x ≠ y) by (intros ->; done). lia.
  - intros H. split; [lia|]. intros [= ->]. lia.
Qed.
Lemma elt_lt_max a : elt_lt a EMax ↔ is_elem a.
Proof. unfold elt_lt, is_elem. simpl. tauto. Qed.
Lemma elt_lt_max_l a : ¬ elt_lt EMax a.
Proof. intros [H Hn]. destruct a; [done|exact H]. Qed.
Lemma elt_lte_max_l a : elt_lte EMax a → a = EMax.
Proof. destruct a; done. Qed.
Lemma elt_lt_lte a b : elt_lt a b → elt_lte a b.
Proof. by intros [? _]. Qed.
Lemma elt_lte_refl a : elt_lte a a.
Proof. destruct a; simpl; [done|unfold key_lte; lia]. Qed.

(** A decision procedure: turn order facts into linear arithmetic. *)
Ltac elt_cases :=
  repeat match goal with
  | H : elt_lt EMax _ |- _ => exfalso; exact (elt_lt_max_l _ H)
  | H : elt_lte EMax (Elem _) |- _ => exfalso; exact H
  | H : elt_lt (Elem _) (Elem _) |- _ => rewrite elt_lt_elem in H
  | H : elt_lte (Elem _) (Elem _) |- _ => rewrite elt_lte_elem in H
  | |- elt_lt (Elem _) (Elem _) => rewrite elt_lt_elem
  | |- elt_lte (Elem _) (Elem _) => rewrite elt_lte_elem
  | |- elt_lte _ EMax => exact I
  | |- elt_lt (Elem _) EMax => apply elt_lt_max; discriminate
  end.
Lemma elt_lte_trans a b c : elt_lte a b → elt_lte b c → elt_lte a c.
Proof. destruct a, b, c; intros; elt_cases; try lia; done. Qed.
Lemma elt_lt_lte_trans a b c : elt_lt a b → elt_lte b c → elt_lt a c.
Proof. destruct a, b, c; intros; elt_cases; try lia; done. Qed.
Lemma elt_lte_lt_trans a b c : elt_lte a b → elt_lt b c → elt_lt a c.
Proof. destruct a, b, c; intros; elt_cases; try lia; done. Qed.
Lemma elt_lt_trans a b c : elt_lt a b → elt_lt b c → elt_lt a c.
Proof. intros H1 H2. exact (elt_lt_lte_trans _ _ _ H1 (elt_lt_lte _ _ H2)). Qed.
Lemma elt_lt_irrefl a : ¬ elt_lt a a.
Proof. intros [_ H]. done. Qed.
Lemma elt_lte_not_lt a b : elt_lte a b → ¬ elt_lt b a.
Proof. intros H1 H2. exact (elt_lt_irrefl _ (elt_lte_lt_trans _ _ _ H1 H2)). Qed.
Lemma elt_not_lt_lte a b : ¬ elt_lt b a → elt_lte a b.
Proof.
  destruct a, b; intros H; elt_cases; try lia; try done.
  - exfalso. apply H. elt_cases.
  - destruct (decide (e ≤ e0)%N); [done|]. exfalso. apply H. elt_cases. lia.
Qed.
Lemma elt_lte_eq_or_lt a b : elt_lte a b → a = b ∨ elt_lt a b.
Proof. intros H. destruct (decide (a = b)); [by left|right; done]. Qed.
Lemma elt_lt_is_elem a b : elt_lt a b → is_elem a.
Proof. intros H ->. exact (elt_lt_max_l _ H). Qed.

Lemma strictly_sorted_sorted run : elts_strictly_sorted run → elts_sorted run.
Proof.
  intros H i j a b Hij Ha Hb. destruct (decide (i = j)) as [->|].
  - rewrite Ha in Hb. injection Hb as ->. apply elt_lte_refl.
  - apply elt_lt_lte. apply (H i j); auto. lia.
Qed.
Lemma keys_strictly_sorted_sorted run : keys_strictly_sorted run → keys_sorted run.
Proof.
  intros H i j a b Hij Ha Hb. destruct (decide (i = j)) as [->|].
  - rewrite Ha in Hb. injection Hb as ->. unfold key_lte; lia.
  - apply (H i j); auto. lia.
Qed.
Lemma keys_strictly_sorted_unique run i j a :
  keys_strictly_sorted run → run !! i = Some a → run !! j = Some a → i = j.
Proof.
  intros H Hi Hj. destruct (decide (i < j)) as [Hl|].
  - destruct (H i j a a Hl Hi Hj) as [_ []]. done.
  - destruct (decide (j < i)) as [Hl|]; [|lia]. destruct (H j i a a Hl Hj Hi) as [_ []]. done.
Qed.

Lemma sorted_tail {run x} : keys_sorted (x :: run) → keys_sorted run.
Proof. intros H i j a b Hij Ha Hb. apply (H (S i) (S j)); simpl; auto. lia. Qed.
Lemma elts_sorted_tail {run x} : elts_sorted (x :: run) → elts_sorted run.
Proof. intros H i j a b Hij Ha Hb. apply (H (S i) (S j)); simpl; auto. lia. Qed.

(** ** The searches *)
Lemma key_largest_lte_bound run k : (-1 ≤ key_largest_lte run k < Z.of_nat (length run))%Z.
Proof. induction run as [|x run IH]; simpl; [lia|]. destruct (decide _); lia. Qed.
Lemma key_largest_lt_bound run k : (-1 ≤ key_largest_lt run k < Z.of_nat (length run))%Z.
Proof. induction run as [|x run IH]; simpl; [lia|]. destruct (decide _); lia. Qed.
Lemma key_largest_lte_spec run k i a :
  keys_sorted run → run !! i = Some a →
  (Z.of_nat i ≤ key_largest_lte run k)%Z ↔ key_lte a k.
Proof.
  revert i. induction run as [|x run IH]; intros i Hs Hi; [done|].
  simpl. pose proof (key_largest_lte_bound run k). destruct (decide (key_lt k x)) as [Hl|Hl].
  - assert (key_lte x a) by (apply (Hs 0 i); [lia|done|done]).
    unfold key_lt, key_lte in *. split; lia.
  - unfold key_lt, key_lte in *. destruct i as [|i]; simpl in Hi.
    + injection Hi as ->. split; [|lia]. intros _.
      destruct (decide (a = k)); lia.
    + specialize (IH i (sorted_tail Hs) Hi). unfold key_lte in IH. lia.
Qed.
Lemma key_largest_lt_spec run k i a :
  keys_sorted run → run !! i = Some a →
  (Z.of_nat i ≤ key_largest_lt run k)%Z ↔ key_lt a k.
Proof.
  revert i. induction run as [|x run IH]; intros i Hs Hi; [done|].
  simpl. pose proof (key_largest_lt_bound run k). destruct (decide (key_lte k x)) as [Hl|Hl].
  - assert (key_lte x a) by (apply (Hs 0 i); [lia|done|done]).
    unfold key_lt, key_lte in *. split; [lia|]. intros [? Hn]. exfalso. apply Hn. lia.
  - unfold key_lt, key_lte in *. destruct i as [|i]; simpl in Hi.
    + injection Hi as ->. split; [|lia]. intros _. split; [lia|]. intros ->. lia.
    + specialize (IH i (sorted_tail Hs) Hi). unfold key_lte in IH. rewrite <-IH. lia.
Qed.
Lemma elt_largest_lte_bound run k : (-1 ≤ elt_largest_lte run k < Z.of_nat (length run))%Z.
Proof. induction run as [|x run IH]; simpl; [lia|]. destruct (decide _); lia. Qed.
Lemma elt_largest_lte_spec run k i a :
  elts_sorted run → run !! i = Some a →
  (Z.of_nat i ≤ elt_largest_lte run k)%Z ↔ elt_lte a k.
Proof.
  revert i. induction run as [|x run IH]; intros i Hs Hi; [done|].
  simpl. pose proof (elt_largest_lte_bound run k). destruct (decide (elt_lt k x)) as [Hl|Hl].
  - assert (elt_lte x a) as Hxa by (apply (Hs 0 i); [lia|done|done]).
    split; [lia|]. intros Hak. exfalso.
    exact (elt_lte_not_lt _ _ (elt_lte_trans _ _ _ Hxa Hak) Hl).
  - destruct i as [|i]; simpl in Hi.
    + injection Hi as ->. split; [|lia]. intros _. by apply elt_not_lt_lte.
    + specialize (IH i (elts_sorted_tail Hs) Hi). rewrite <-IH. lia.
Qed.

(** ** Routing *)
Lemma pivot_at_lookup p i : i < length p → p !! i = Some (pivot_at p i).
Proof. intros H. unfold pivot_at. destruct (nth_lookup_or_length p i EMax) as [E|E]; [done|lia]. Qed.
Lemma pivot_at_Some p i a : p !! i = Some a → pivot_at p i = a.
Proof. intros H. pose proof (lookup_lt_Some _ _ _ H). rewrite pivot_at_lookup in H by done. by injection H. Qed.
Lemma pivot_last_eq p : pivot_last p = pivot_at p (length p - 1).
Proof. done. Qed.

Definition between (p : PivotTable) (i : nat) (k : Key) : Prop :=
  ∃ lo hi, p !! i = Some lo ∧ p !! S i = Some hi ∧ elt_lte lo (Elem k) ∧ elt_lt (Elem k) hi.

Lemma pt_lt p i j : pt_wf p → i < j < length p → elt_lt (pivot_at p i) (pivot_at p j).
Proof.
  intros (_&Hs&_) Hij. apply (Hs i j); [lia|apply pivot_at_lookup; lia|apply pivot_at_lookup; lia].
Qed.
Lemma pt_le p i j : pt_wf p → i ≤ j < length p → elt_lte (pivot_at p i) (pivot_at p j).
Proof.
  intros Hp Hij. destruct (decide (i = j)) as [->|]; [apply elt_lte_refl|].
  apply elt_lt_lte, pt_lt; [done|lia].
Qed.
Lemma between_at p i k :
  between p i k ↔ S i < length p ∧ elt_lte (pivot_at p i) (Elem k) ∧ elt_lt (Elem k) (pivot_at p (S i)).
Proof.
  split.
  - intros (lo&hi&H1&H2&H3&H4). pose proof (lookup_lt_Some _ _ _ H2).
    by rewrite (pivot_at_Some _ _ _ H1), (pivot_at_Some _ _ _ H2).
  - intros (Hl&H1&H2). exists (pivot_at p i), (pivot_at p (S i)).
    rewrite !pivot_at_lookup by lia. done.
Qed.
Lemma between_unique p i j k : pt_wf p → between p i k → between p j k → i = j.
Proof.
  intros Hp (Hi&H1&H2)%between_at (Hj&H3&H4)%between_at.
  destruct (decide (i < j)).
  { exfalso. assert (elt_lte (pivot_at p (S i)) (pivot_at p j)) as H by (apply pt_le; [done|lia]).
    exact (elt_lte_not_lt _ _ (elt_lte_trans _ _ _ H H3) H2). }
  destruct (decide (j < i)); [|lia].
  exfalso. assert (elt_lte (pivot_at p (S j)) (pivot_at p i)) as H by (apply pt_le; [done|lia]).
  exact (elt_lte_not_lt _ _ (elt_lte_trans _ _ _ H H1) H4).
Qed.
Lemma between_bounded p i k : pt_wf p → between p i k → bounded_key p k.
Proof.
  intros Hp (Hi&H1&H2)%between_at. unfold bounded_key. rewrite pivot_last_eq. split.
  - apply (elt_lte_trans _ (pivot_at p i)); [apply pt_le; [done|lia]|done].
  - apply (elt_lt_lte_trans _ (pivot_at p (S i))); [done|]. apply pt_le; [done|lia].
Qed.
Lemma route_between p k : pt_wf p → bounded_key p k → (0 ≤ route p k)%Z ∧ between p (route_idx p k) k.
Proof.
  intros Hp [H0 Hl]. assert (Hn : 1 < length p) by (destruct Hp as (Hn&_); unfold num_ranges in Hn; lia).
  assert (Hs : elts_sorted p) by (apply strictly_sorted_sorted, Hp).
  assert (Hge : (0 ≤ route p k)%Z).
  { apply (elt_largest_lte_spec p (Elem k) 0 (pivot_at p 0)); [done|apply pivot_at_lookup; lia|done]. }
  pose proof (elt_largest_lte_bound p (Elem k)) as Hb.
  split; [done|]. unfold route_idx, route in *. unfold to_element in *.
  set (r := elt_largest_lte p (Elem k)) in *.
  assert (Hlt : S (Z.to_nat r) < length p).
  { destruct (decide (Z.to_nat r = length p - 1)) as [E|]; [|lia].
    exfalso. rewrite pivot_last_eq in Hl. rewrite <-E in Hl.
    assert (elt_lte (pivot_at p (Z.to_nat r)) (Elem k)) as Hx.
    { apply (elt_largest_lte_spec p (Elem k) (Z.to_nat r)); [done|apply pivot_at_lookup; lia|].
      fold r. lia. }
    exact (elt_lte_not_lt _ _ Hx Hl). }
  apply between_at. split; [done|]. split.
  - apply (elt_largest_lte_spec p (Elem k) (Z.to_nat r)); [done|apply pivot_at_lookup; lia|fold r; lia].
  - destruct (decide (elt_lt (Elem k) (pivot_at p (S (Z.to_nat r))))) as [|Hn']; [done|].
    apply elt_not_lt_lte in Hn'.
    apply (elt_largest_lte_spec p (Elem k) (S (Z.to_nat r))) in Hn'; [fold r in Hn'; lia|done|apply pivot_at_lookup; lia].
Qed.
Lemma between_route p i k : pt_wf p → between p i k → route p k = Z.of_nat i.
Proof.
  intros Hp Hb. destruct (route_between p k Hp) as [H0 Hb']; [by eapply between_bounded|].
  pose proof (between_unique _ _ _ _ Hp Hb Hb') as E. unfold route_idx in E. lia.
Qed.
Lemma between_route_idx p i k : pt_wf p → between p i k → route_idx p k = i.
Proof. intros Hp Hb. unfold route_idx. rewrite (between_route _ _ _ Hp Hb). lia. Qed.
Lemma bounded_between p k : pt_wf p → bounded_key p k ↔ ∃ i, between p i k.
Proof.
  intros Hp. split.
  - intros H. exists (route_idx p k). by apply route_between.
  - intros [i H]. by eapply between_bounded.
Qed.

(** Adjacent pivots suffice for strict sortedness. *)
Lemma adjacent_sorted p :
  (∀ i, S i < length p → elt_lt (pivot_at p i) (pivot_at p (S i))) → elts_strictly_sorted p.
Proof.
  intros H i j a b Hij Ha Hb.
  pose proof (lookup_lt_Some _ _ _ Hb) as Hl.
  rewrite <-(pivot_at_Some _ _ _ Ha), <-(pivot_at_Some _ _ _ Hb). clear Ha Hb a b.
  induction Hij as [|j Hij IH].
  - apply H. lia.
  - eapply elt_lt_trans; [apply IH; lia|]. apply H. lia.
Qed.
Lemma pt_wf_adjacent p :
  pt_wf p ↔ 1 < length p ∧ ∀ i, S i < length p → elt_lt (pivot_at p i) (pivot_at p (S i)).
Proof.
  split.
  - intros Hp. assert (1 < length p) by (destruct Hp as (Hn&_); unfold num_ranges in Hn; lia).
    split; [done|]. intros i Hi. apply pt_lt; [done|lia].
  - intros [Hl H]. split; [unfold num_ranges; lia|]. split; [by apply adjacent_sorted|].
    intros i a Hi Ha. unfold num_ranges in Hi.
    rewrite <-(pivot_at_Some _ _ _ Ha). eapply elt_lt_is_elem, H. lia.
Qed.
Lemma domain_to_pivots_wf d : elt_lt (dom_start d) (dom_end d) → pt_wf (domain_to_pivots d).
Proof.
  intros H. apply pt_wf_adjacent. simpl. split; [lia|]. intros i Hi.
  assert (i = 0) as -> by lia. done.
Qed.

(** Pivot tables after insertion, update and slicing. *)
Lemma seq_insert_length {A} (l : list A) i x : i ≤ length l → length (seq_insert l i x) = S (length l).
Proof. intros. unfold seq_insert. rewrite app_length. cbn. rewrite take_length, drop_length. lia. Qed.
Lemma seq_insert_lookup {A} (l : list A) i x j : i ≤ length l →
  seq_insert l i x !! j = if decide (j < i) then l !! j else if decide (j = i) then Some x else l !! (j - 1).
Proof.
  intros Hi. unfold seq_insert. destruct (decide (j < i)).
  - rewrite lookup_app_l by (rewrite take_length; lia). by rewrite lookup_take.
  - rewrite lookup_app_r by (rewrite take_length; lia). rewrite take_length, Nat.min_l by lia.
    destruct (decide (j = i)) as [->|].
    + by rewrite Nat.sub_diag.
    + replace (j - i) with (S (j - i - 1)) by lia. simpl. rewrite lookup_drop. f_equal. lia.
Qed.
Lemma subrange_lookup {A} (l : list A) a b j :
  subrange l a b !! j = if decide (a + j < b) then l !! (a + j) else None.
Proof.
  unfold subrange. destruct (decide _).
  - rewrite lookup_take by lia. by rewrite lookup_drop.
  - apply lookup_take_ge. lia.
Qed.
Lemma subrange_length {A} (l : list A) a b : b ≤ length l → length (subrange l a b) = b - a.
Proof. intros. unfold subrange. rewrite take_length, drop_length. lia. Qed.

Lemma largest_lte_subrange run k a b :
  keys_sorted run → a ≤ b ≤ length run →
  let out := key_largest_lte run k in
  let sub := key_largest_lte (subrange run a b) k in
  ((out < Z.of_nat a → sub = -1) ∧
   (Z.of_nat a ≤ out < Z.of_nat b → sub = out - Z.of_nat a) ∧
   (Z.of_nat b ≤ out → sub = Z.of_nat (b - a) - 1))%Z.
Proof.
  intros Hs Hab out sub.
  assert (Hss : keys_sorted (subrange run a b)).
  { intros i j x y Hij. rewrite !subrange_lookup. repeat destruct (decide _); try done.
    apply Hs. lia. }
  pose proof (key_largest_lte_bound run k) as Hb1.
  pose proof (key_largest_lte_bound (subrange run a b) k) as Hb2.
  rewrite subrange_length in Hb2 by lia.
  assert (Hp : ∀ j, j < b - a → (Z.of_nat j ≤ sub ↔ Z.of_nat (a + j) ≤ out)%Z).
  { intros j Hj. destruct (lookup_lt_is_Some_2 run (a + j)) as [x Hx]; [lia|].
    unfold sub, out. rewrite (key_largest_lte_spec _ _ j x); [|done|].
    - by rewrite (key_largest_lte_spec _ _ (a + j) x).
    - rewrite subrange_lookup. destruct (decide _); [done|lia]. }
  fold out in Hb1. fold sub in Hb2. split; [|split]; intros Ho.
  - destruct (decide (sub = -1)%Z); [done|]. specialize (Hp 0). lia.
  - assert (Z.of_nat (Z.to_nat (out - Z.of_nat a)) ≤ sub)%Z as H1 by (apply Hp; lia).
    destruct (decide (sub = out - Z.of_nat a)%Z); [done|].
    specialize (Hp (Z.to_nat (out - Z.of_nat a) + 1)). lia.
  - destruct (decide (b = a)) as [->|]; [lia|].
    assert (Z.of_nat (b - a - 1) ≤ sub)%Z as H1 by (apply Hp; lia). lia.
Qed.

(** ** The forms used by the property theorems *)
Lemma key_largest_lte_full run k : keys_sorted run →
  let out := key_largest_lte run k in
  (-1 ≤ out < Z.of_nat (length run))%Z ∧
  (∀ i a, run !! i = Some a → ((Z.of_nat i ≤ out)%Z ↔ (a ≤ k)%N)) ∧
  (k ∈ run → ∃ i, out = Z.of_nat i ∧ run !! i = Some k).
Proof.
  intros Hs out. pose proof (key_largest_lte_bound run k) as Hb. fold out in Hb.
  split; [done|]. split; [intros i a Hi; by apply key_largest_lte_spec|].
  intros [j Hj]%elem_of_list_lookup.
  assert (Z.of_nat j ≤ out)%Z as Hle by (apply (key_largest_lte_spec run k j k); [done|done|unfold key_lte; lia]).
  exists (Z.to_nat out). split; [lia|].
  destruct (lookup_lt_is_Some_2 run (Z.to_nat out)) as [a Ha]; [lia|]. rewrite Ha. f_equal.
  assert (key_lte a k) by (apply (key_largest_lte_spec run k (Z.to_nat out)); [done|done|lia]).
  assert (key_lte k a) by (apply (Hs j (Z.to_nat out)); [lia|done|done]).
  unfold key_lte in *. lia.
Qed.
Lemma key_largest_lt_full run k : keys_sorted run →
  let out := key_largest_lt run k in
  (-1 ≤ out < Z.of_nat (length run))%Z ∧
  (∀ i a, run !! i = Some a → ((Z.of_nat i ≤ out)%Z ↔ (a < k)%N)) ∧
  (k ∈ run → ∃ i, (out + 1)%Z = Z.of_nat i ∧ run !! i = Some k).
Proof.
  intros Hs out. pose proof (key_largest_lt_bound run k) as Hb. fold out in Hb.
  assert (Hlt : ∀ i a, run !! i = Some a → ((Z.of_nat i ≤ out)%Z ↔ (a < k)%N)).
  { intros i a Hi. unfold out. rewrite key_largest_lt_spec by done. unfold key_lt, key_lte.
    split; [|intros; split; [lia|intros ->; lia]].
    intros [? Hn]. destruct (decide (a = k)); [done|lia]. }
  split; [done|]. split; [done|].
  intros [j Hj]%elem_of_list_lookup.
  assert (out < Z.of_nat j)%Z as Hle.
  { destruct (decide (out < Z.of_nat j)%Z); [done|]. pose proof (proj1 (Hlt j k Hj)). lia. }
  pose proof (lookup_lt_Some _ _ _ Hj).
  exists (Z.to_nat (out + 1)). split; [lia|].
  destruct (lookup_lt_is_Some_2 run (Z.to_nat (out + 1))) as [a Ha]; [lia|]. rewrite Ha. f_equal.
  pose proof (Hlt _ _ Ha) as [H1 H2].
  assert (key_lte a k) by (apply (Hs (Z.to_nat (out + 1)) j); [lia|done|done]).
  unfold key_lte in *. lia.
Qed.
Lemma elt_largest_lte_full run e : elts_sorted run →
  let out := elt_largest_lte run e in
  (-1 ≤ out < Z.of_nat (length run))%Z ∧
  (∀ i a, run !! i = Some a → ((Z.of_nat i ≤ out)%Z ↔ elt_lte a e)).
Proof.
  intros Hs out. split; [apply elt_largest_lte_bound|]. intros i a Hi. by apply elt_largest_lte_spec.
Qed.
Lemma route_full p k : pt_wf p → bounded_key p k →
  ∃ i, route p k = Z.of_nat i ∧ between p i k ∧ ∀ j, between p j k → j = i.
Proof.
  intros Hp Hb. destruct (route_between p k Hp Hb) as [H0 Hbt]. exists (route_idx p k).
  split; [unfold route_idx; lia|]. split; [done|]. intros j Hj. by eapply between_unique.
Qed.
Lemma route_none p k : pt_wf p → (∃ i, between p i k) → bounded_key p k.
Proof. intros Hp. by apply bounded_between. Qed.
