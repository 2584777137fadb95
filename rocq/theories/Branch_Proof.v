(** Proofs about the in-memory branch (C33). *)
From Verif Require Import Spec_Model Spec_Proof Betree_Model Route_Proof Branch_Model Branch_Spec.
From Coq Require Import ZifyBool ZifyNat ZifyN Lia Sorting.Sorted.
Local Set Default Proof Using "Type".
Import PBranch.

(** ** Lists *)
Lemma key_lt_lt a b : key_lt a b ↔ (a < b)%N.
Proof. unfold key_lt, key_lte. split; [intros [??]; destruct (decide (a = b)); [done|lia]|]. intros. split; [lia|]. intros ->. lia. Qed.
Lemma sorted_strong (l : list N) : keys_strictly_sorted l ↔ StronglySorted N.lt l.
Proof.
  unfold keys_strictly_sorted. split.
  - induction l as [|x l IH]; intros H; constructor.
    + apply IH. intros i j a b Hij Hi Hj. apply (H (S i) (S j)); [lia|done|done].
    + apply stdpp.list.Forall_forall. intros y [j Hj]%elem_of_list_lookup.
      apply key_lt_lt. apply (H 0 (S j)); [lia|done|done].
  - intros H. induction H as [|x l Hs IH Hf]; [intros i j a b _ Hi; done|].
    intros [|i] [|j] a b Hij Hi Hj; simpl in *; [lia| |lia|].
    + injection Hi as ->. apply key_lt_lt. rewrite stdpp.list.Forall_forall in Hf.
      apply Hf. by apply elem_of_list_lookup_2 in Hj.
    + apply (IH i j); [lia|done|done].
Qed.
Lemma strong_lookup (l : list N) i j a b :
  StronglySorted N.lt l → i < j → l !! i = Some a → l !! j = Some b → (a < b)%N.
Proof. intros H Hij Hi Hj. apply key_lt_lt. apply sorted_strong in H. exact (H i j a b Hij Hi Hj). Qed.
Lemma strong_intro (l : list N) :
  (∀ i j a b, i < j → l !! i = Some a → l !! j = Some b → (a < b)%N) → StronglySorted N.lt l.
Proof. intros H. apply sorted_strong. intros i j a b Hij Hi Hj. apply key_lt_lt. eauto. Qed.
Lemma strong_app (l1 l2 : list N) :
  StronglySorted N.lt (l1 ++ l2) ↔
  StronglySorted N.lt l1 ∧ StronglySorted N.lt l2 ∧ ∀ x y, x ∈ l1 → y ∈ l2 → (x < y)%N.
Proof.
  induction l1 as [|a l1 IH]; simpl.
  - split; [intros H; repeat split; [constructor|done|intros x y Hx; by apply elem_of_nil in Hx]|tauto].
  - split.
    + intros H. inversion H as [|?? Hs Hf]; subst. apply IH in Hs as (H1 & H2 & H3).
      rewrite stdpp.list.Forall_forall in Hf. split; [|split; [done|]].
      * constructor; [done|]. apply stdpp.list.Forall_forall. intros x Hx. apply Hf, elem_of_app. by left.
      * intros x y [->|Hx]%elem_of_cons Hy; [apply Hf, elem_of_app; by right|by apply H3].
    + intros (H1 & H2 & H3). inversion H1 as [|?? Hs Hf]; subst. constructor.
      * apply IH. split; [done|]. split; [done|]. intros x y Hx Hy. apply H3; [by right|done].
      * rewrite stdpp.list.Forall_forall in Hf |- *. intros x [Hx|Hx]%elem_of_app; [by apply Hf|].
        apply H3; [left|done].
Qed.
Lemma strong_NoDup (l : list N) : StronglySorted N.lt l → NoDup l.
Proof.
  induction 1 as [|x l Hs IH Hf]; constructor; [|done]. rewrite stdpp.list.Forall_forall in Hf.
  intros Hx. specialize (Hf _ Hx). lia.
Qed.
Lemma seq_insert_lookup {A} (l : list A) p x j : p ≤ length l →
  seq_insert l p x !! j = if decide (j < p) then l !! j else if decide (j = p) then Some x else l !! (j - 1).
Proof.
  intros Hp. unfold seq_insert. destruct (decide (j < p)).
  - rewrite lookup_app_l by (rewrite take_length; lia). by apply lookup_take.
  - rewrite lookup_app_r by (rewrite take_length; lia). rewrite take_length_le by lia.
    destruct (decide (j = p)) as [->|]; [by rewrite Nat.sub_diag|].
    replace (j - p) with (S (j - p - 1)) by lia. simpl. rewrite lookup_drop. f_equal. lia.
Qed.
Lemma seq_insert_length {A} (l : list A) p x : p ≤ length l → length (seq_insert l p x) = S (length l).
Proof. intros. unfold seq_insert. rewrite app_length, take_length. simpl. rewrite drop_length. lia. Qed.
Lemma elem_of_seq_insert {A} (l : list A) p x y : y ∈ seq_insert l p x ↔ y = x ∨ y ∈ l.
Proof.
  unfold seq_insert. rewrite elem_of_app, elem_of_cons.
  rewrite <- (take_drop p l) at 3. rewrite elem_of_app. tauto.
Qed.
Lemma zip_take {A B} (l : list A) (k : list B) p : take p (zip l k) = zip (take p l) (take p k).
Proof. revert l k; induction p as [|p IH]; intros [|x l] [|y k]; simpl; try done. by rewrite IH. Qed.
Lemma zip_drop {A B} (l : list A) (k : list B) p : length l = length k → drop p (zip l k) = zip (drop p l) (drop p k).
Proof. revert l k; induction p as [|p IH]; intros [|x l] [|y k]; simpl; try done. intros [=]. by apply IH. Qed.
Lemma zip_app {A B} (l1 l2 : list A) (k1 k2 : list B) : length l1 = length k1 →
  zip (l1 ++ l2) (k1 ++ k2) = zip l1 k1 ++ zip l2 k2.
Proof. intros. by apply zip_with_app. Qed.
Lemma zip_fst {A B} (l : list A) (k : list B) : length l = length k → (zip l k).*1 = l.
Proof. revert k; induction l as [|x l IH]; intros [|y k]; simpl; try done. intros [=]. f_equal. by apply IH. Qed.
Lemma elem_of_zip_iff {A B} (l : list A) (k : list B) x y :
  (x, y) ∈ zip l k ↔ ∃ i, l !! i = Some x ∧ k !! i = Some y.
Proof.
  rewrite elem_of_list_lookup. split.
  - intros [i Hi]. rewrite lookup_zip_with in Hi. exists i.
    destruct (l !! i); [|done]. destruct (k !! i); [|done]. simpl in Hi. by injection Hi as -> ->.
  - intros (i & H1 & H2). exists i. by rewrite lookup_zip_with, H1, H2.
Qed.
Lemma nth_lookup_some {A} (l : list A) i d x : l !! i = Some x → nth i l d = x.
Proof. intros H. by apply nth_lookup_Some. Qed.
Lemma keys_strict_sorted l : StronglySorted N.lt l → keys_sorted l.
Proof. intros H. apply keys_strictly_sorted_sorted. by apply sorted_strong. Qed.

(** ** Bounds *)
Lemma within_none k : within None None k.
Proof. split; intros ? [=]. Qed.
(** The slot a key is routed to is the one whose bounds hold the key. *)
Lemma slot_bounds (pivots : list N) lo hi k :
  StronglySorted N.lt pivots → within lo hi k →
  let i := Z.to_nat (key_largest_lte pivots k + 1) in
  i ≤ length pivots ∧ within (lower lo pivots i) (upper hi pivots i) k.
Proof.
  intros Hs Hw i.
  destruct (key_largest_lte_full pivots k (keys_strict_sorted _ Hs)) as (Hb & Hlk & _).
  assert (Hi : i ≤ length pivots) by lia. split; [done|]. split.
  - intros l Hl. unfold lower in Hl. destruct i as [|j] eqn:Ei; [by apply (proj1 Hw)|].
    apply (Hlk j l Hl). lia.
  - intros h Hh. unfold upper in Hh. destruct (pivots !! i) as [p|] eqn:Hp; [|by apply (proj2 Hw)].
    injection Hh as ->. pose proof (Hlk i h Hp) as [_ H2]. destruct (decide (k < h)%N); [done|].
    assert (h ≤ k)%N as Hle by lia. specialize (H2 Hle). lia.
Qed.
Lemma slot_unique (pivots : list N) lo hi k i :
  StronglySorted N.lt pivots → i ≤ length pivots →
  within (lower lo pivots i) (upper hi pivots i) k →
  Z.to_nat (key_largest_lte pivots k + 1) = i.
Proof.
  intros Hs Hi [Hl Hu].
  destruct (key_largest_lte_full pivots k (keys_strict_sorted _ Hs)) as (Hb & Hlk & _).
  set (r := key_largest_lte pivots k) in *.
  assert (Z.of_nat i ≤ r + 1)%Z.
  { destruct i as [|j]; [lia|]. destruct (lookup_lt_is_Some_2 pivots j) as [p Hp]; [lia|].
    assert (Z.of_nat j ≤ r)%Z; [|lia]. apply (Hlk j p Hp). apply Hl. exact Hp. }
  assert (¬ (Z.of_nat i ≤ r)%Z); [|lia]. intros Hle.
  destruct (lookup_lt_is_Some_2 pivots i) as [p Hp]; [lia|].
  pose proof (proj1 (Hlk i p Hp) Hle). unfold upper in Hu. rewrite Hp in Hu. specialize (Hu p eq_refl). lia.
Qed.

(** ** Induction on nodes *)
Lemma node_ind' (P : Node → Prop) :
  (∀ keys msgs, P (Leaf keys msgs)) →
  (∀ pivots children, (∀ i c, children !! i = Some c → P c) → P (Index pivots children)) →
  ∀ n, P n.
Proof.
  intros HL HI. fix IH 1. intros [pivots children|keys msgs]; [|apply HL].
  apply HI. induction children as [|c cs IHc]; intros [|i] d Hd; simpl in Hd.
  - discriminate Hd.
  - discriminate Hd.
  - injection Hd as <-. apply IH.
  - exact (IHc i d Hd).
Qed.
Lemma foldr_wf_iff l : foldr (λ c rest, wf c ∧ rest) True l ↔ ∀ i c, l !! i = Some c → wf c.
Proof.
  induction l as [|x l IH]; simpl; [split; [intros _ i c [=]|done]|]. rewrite IH. split.
  - intros [H1 H2] [|i] c Hc; simpl in Hc; [by injection Hc as <-|by apply (H2 i)].
  - intros H. split; [by apply (H 0)|]. intros i c Hc. by apply (H (S i)).
Qed.
Lemma elem_all_keys pivots children k :
  k ∈ all_keys (Index pivots children) ↔
  k ∈ pivots ∨ ∃ i c, children !! i = Some c ∧ k ∈ all_keys c.
Proof.
  simpl. rewrite elem_of_union, elem_of_list_to_set, elem_of_union_list. split.
  - intros [H|(X & HX & Hk)]; [by left|]. apply elem_of_list_fmap in HX as (c & -> & [i Hi]%elem_of_list_lookup).
    right. eauto.
  - intros [H|(i & c & Hc & Hk)]; [by left|]. right. exists (all_keys c). split; [|done].
    apply elem_of_list_fmap. exists c. split; [done|]. by apply elem_of_list_lookup_2 in Hc.
Qed.

(** The keys under a node of a search tree lie between its bounds, and there is
    at least one. *)
Lemma tree_keys lo hi n k : search_tree lo hi n → k ∈ all_keys n → within lo hi k.
Proof.
  intros Ht. revert k. induction Ht as [lo hi keys msgs _ _ _ Hk|lo hi pivots children Hl Hs Hp Hc IH]; intros k.
  - simpl. rewrite elem_of_list_to_set. apply Hk.
  - rewrite elem_all_keys. intros [H|(i & c & Hi & H)]; [by apply Hp|].
    specialize (IH i c Hi k H) as [H1 H2]. pose proof (lookup_lt_Some _ _ _ Hi). split.
    + intros l ->. destruct i as [|j]; [by apply H1|].
      destruct (lookup_lt_is_Some_2 pivots j) as [p Hpj]; [lia|].
      specialize (H1 p Hpj). pose proof (proj1 (Hp p (elem_of_list_lookup_2 _ _ _ Hpj)) l eq_refl). lia.
    + intros h ->. destruct (pivots !! i) as [p|] eqn:Hpi.
      * unfold upper in H2. rewrite Hpi in H2. specialize (H2 p eq_refl).
        pose proof (proj2 (Hp p (elem_of_list_lookup_2 _ _ _ Hpi)) h eq_refl). lia.
      * apply H2. unfold upper. by rewrite Hpi.
Qed.
Lemma tree_nonempty lo hi n : search_tree lo hi n → ∃ k, k ∈ all_keys n.
Proof.
  induction 1 as [lo hi keys msgs Hne|lo hi pivots children Hl Hs Hp Hc IH].
  - destruct keys as [|k keys]; [done|]. exists k. simpl. set_solver.
  - destruct (lookup_lt_is_Some_2 children 0) as [c Hc0]; [lia|].
    destruct (IH 0 c Hc0) as [k Hk]. exists k. apply elem_all_keys. right. eauto.
Qed.
Lemma tree_range l h n : search_tree (Some l) (Some h) n → (l < h)%N.
Proof.
  intros Ht. destruct (tree_nonempty _ _ _ Ht) as [k Hk].
  destruct (tree_keys _ _ _ _ Ht Hk) as [H1 H2]. specialize (H1 l eq_refl). specialize (H2 h eq_refl). lia.
Qed.
Lemma tree_wf lo hi n : search_tree lo hi n → wf n.
Proof.
  induction 1 as [lo hi keys msgs Hne Hl Hs Hk|lo hi pivots children Hl Hs Hp Hc IH].
  - simpl. split; [destruct keys; [done|simpl; lia]|]. split; [done|]. by apply sorted_strong.
  - simpl. split; [done|]. split; [by apply sorted_strong|]. split; [by apply foldr_wf_iff|]. split.
    + intros i Hi c p key Hci Hpi Hkey. apply key_lt_lt.
      destruct (tree_keys _ _ _ _ (Hc i c Hci) Hkey) as [_ H2]. apply H2. unfold upper. by rewrite Hpi.
    + intros i Hi c p key Hci Hpi Hkey. unfold key_lte.
      destruct (tree_keys _ _ _ _ (Hc i c Hci) Hkey) as [H1 _]. apply H1. destruct i as [|j]; [lia|].
      simpl in *. by rewrite Nat.sub_0_r in Hpi.
Qed.
Lemma wf_tree n : ∀ lo hi, wf n → (∀ k, k ∈ all_keys n → within lo hi k) → search_tree lo hi n.
Proof.
  induction n as [keys msgs|pivots children IH] using node_ind'; intros lo hi Hwf Hk.
  - destruct Hwf as (H1 & H2 & H3). apply search_leaf; [intros ->; simpl in H1; lia|done|by apply sorted_strong|].
    intros k Hin. apply Hk. simpl. by apply elem_of_list_to_set.
  - destruct Hwf as (H1 & H2 & H3 & H4 & H5). rewrite foldr_wf_iff in H3.
    apply search_index; [done|by apply sorted_strong|intros k Hin; apply Hk, elem_all_keys; by left|].
    intros i c Hc. pose proof (lookup_lt_Some _ _ _ Hc). apply (IH i c Hc); [by apply (H3 i)|].
    intros k Hin. assert (Hw : within lo hi k) by (apply Hk, elem_all_keys; right; eauto). split.
    + intros l Hl. destruct i as [|j]; [by apply (proj1 Hw)|]. simpl in Hl.
      apply (H5 (S j) ltac:(lia) c l k Hc); [by rewrite Nat.sub_succ, Nat.sub_0_r|done].
    + intros h Hh. unfold upper in Hh. destruct (pivots !! i) as [p|] eqn:Hp; [|by apply (proj2 Hw)].
      injection Hh as ->. apply key_lt_lt. pose proof (lookup_lt_Some _ _ _ Hp).
      by apply (H4 i ltac:(lia) c h k).
Qed.
Lemma wf_iff n : wf n ↔ search_tree None None n.
Proof. split; [intros; apply wf_tree; [done|intros; apply within_none]|apply tree_wf]. Qed.

(** ** The pairs in a tree *)
Lemma elem_contents pivots children kv :
  kv ∈ contents (Index pivots children) ↔ ∃ i c, children !! i = Some c ∧ kv ∈ contents c.
Proof.
  simpl. rewrite elem_of_list_In, in_concat. split.
  - intros (l & Hl & Hin). apply elem_of_list_In in Hl, Hin.
    apply elem_of_list_fmap in Hl as (c & -> & [i Hi]%elem_of_list_lookup). eauto.
  - intros (i & c & Hc & Hin). exists (contents c). split; apply elem_of_list_In; [|done].
    apply elem_of_list_fmap. exists c. split; [done|]. by apply elem_of_list_lookup_2 in Hc.
Qed.
Lemma contents_keys n k m : (k, m) ∈ contents n → k ∈ all_keys n.
Proof.
  induction n as [keys msgs|pivots children IH] using node_ind'; intros H.
  - simpl in *. apply elem_of_list_to_set. apply elem_of_zip_iff in H as (i & H & _). by apply elem_of_list_lookup_2 in H.
  - apply elem_contents in H as (i & c & Hc & H). apply elem_all_keys. right. eauto.
Qed.
Lemma contents_within lo hi n k m : search_tree lo hi n → (k, m) ∈ contents n → within lo hi k.
Proof. intros Ht Hin. eapply tree_keys; [done|]. by eapply contents_keys. Qed.

(** Queries find exactly the pairs of the tree. *)
Lemma query_leaf_spec keys msgs k :
  length keys = length msgs → StronglySorted N.lt keys →
  (∀ m, (k, m) ∈ zip keys msgs → query (Leaf keys msgs) k = m) ∧
  ((∀ m, (k, m) ∉ zip keys msgs) → query (Leaf keys msgs) k = Update nop_delta).
Proof.
  intros Hl Hs. destruct (key_largest_lte_full keys k (keys_strict_sorted _ Hs)) as (Hb & Hlk & Hin).
  split.
  - intros m (i & Hi & Hm)%elem_of_zip_iff. simpl.
    destruct (Hin (elem_of_list_lookup_2 _ _ _ Hi)) as (j & Hj & Hjk).
    assert (j = i) as ->.
    { apply (keys_strictly_sorted_unique keys j i k); [by apply sorted_strong|done|done]. }
    rewrite Hj. rewrite Nat2Z.id. rewrite decide_True by (split; [lia|done]). by apply nth_lookup_some.
  - intros Hno. simpl. destruct (decide _) as [[H1 H2]|]; [|done]. exfalso.
    destruct (lookup_lt_is_Some_2 msgs (Z.to_nat (key_largest_lte keys k))) as [m Hm]; [apply lookup_lt_Some in H2; lia|].
    apply (Hno m). apply elem_of_zip_iff. eauto.
Qed.
Lemma query_spec lo hi n k :
  search_tree lo hi n → within lo hi k →
  (∀ m, (k, m) ∈ contents n → query n k = m) ∧
  ((∀ m, (k, m) ∉ contents n) → query n k = Update nop_delta).
Proof.
  intros Ht. induction Ht as [lo hi keys msgs _ Hl Hs Hk|lo hi pivots children Hl Hs Hp Hc IH]; intros Hw.
  - by apply query_leaf_spec.
  - destruct (slot_bounds pivots lo hi k Hs Hw) as [Hi Hwi].
    set (i := Z.to_nat (key_largest_lte pivots k + 1)) in *.
    destruct (lookup_lt_is_Some_2 children i) as [c Hci]; [lia|].
    assert (Hq : query (Index pivots children) k = query c k).
    { simpl. fold i. apply nth_lookup_some. change (map ?f ?l) with (f <$> l).
      by rewrite list_lookup_fmap, Hci. }
    rewrite Hq. destruct (IH i c Hci Hwi) as [IH1 IH2]. split.
    + intros m (j & d & Hd & Hin)%elem_contents.
      assert (j = i) as ->.
      { symmetry. apply (slot_unique pivots lo hi k j); [done|apply lookup_lt_Some in Hd; lia|].
        eapply contents_within; [by apply (Hc j d)|done]. }
      rewrite Hci in Hd. injection Hd as <-. by apply IH1.
    + intros Hno. apply IH2. intros m Hin. apply (Hno m). apply elem_contents. eauto.
Qed.
Lemma query_has n k m : wf n → (k, m) ∈ contents n → query n k = m.
Proof. intros H. apply wf_iff in H. apply (query_spec _ _ _ _ H (within_none k)). Qed.
Lemma query_none n k : wf n → (∀ m, (k, m) ∉ contents n) → query n k = Update nop_delta.
Proof. intros H. apply wf_iff in H. apply (query_spec _ _ _ _ H (within_none k)). Qed.

(** ** Following a path *)
Lemma child_lookup pivots children i c : children !! i = Some c → child (Index pivots children) i = c.
Proof. intros H. simpl. by apply nth_lookup_some. Qed.
(** The node a path leads to, the bounds it lies in, the pairs to its left and
    right, and what happens when it is replaced. *)
Record focus (lo hi : option N) (n : Node) (k : N) (d : nat)
    (lo' hi' : option N) (L R : list (N * Message)) : Prop := {
  f_tree : search_tree lo' hi' (target n k d);
  f_key : within lo' hi' k;
  f_contents : contents n = L ++ contents (target n k d) ++ R;
  f_left : ∀ x m y, (x, m) ∈ L → within lo' hi' y → (x < y)%N;
  f_right : ∀ x m y, (x, m) ∈ R → within lo' hi' y → (y < x)%N;
  f_subst : ∀ t', search_tree lo' hi' t' →
    search_tree lo hi (substitute n k d t') ∧ contents (substitute n k d t') = L ++ contents t' ++ R;
  f_level : ∀ h, leaves_at h n → ∃ h', h = d + h' ∧ leaves_at h' (target n k d) ∧
    ∀ t', leaves_at h' t' → leaves_at h (substitute n k d t');
  f_equiv : ∀ y, within lo hi y → path_equiv n k y d → within lo' hi' y;
  f_same : ∀ y, within lo' hi' y → valid n y d ∧ target n y d = target n k d ∧ within lo hi y;
}.
Lemma concat_insert {A B} (f : A → list B) (l : list A) i x c : l !! i = Some c →
  concat (map f (<[i := x]> l)) = concat (map f (take i l)) ++ f x ++ concat (map f (drop (S i) l)).
Proof.
  revert i. induction l as [|y l IH]; intros [|i] H; simpl in *; [done|done| |].
  - done.
  - rewrite IH by done. by rewrite app_assoc.
Qed.
Lemma focus_exists d : ∀ lo hi n k, search_tree lo hi n → within lo hi k → valid n k d →
  ∃ lo' hi' L R, focus lo hi n k d lo' hi' L R.
Proof.
  induction d as [|d IH]; intros lo hi n k Ht Hw Hv.
  - exists lo, hi, [], []. split; simpl.
    + done.
    + done.
    + by rewrite app_nil_r.
    + intros ??? H. by apply elem_of_nil in H.
    + intros ??? H. by apply elem_of_nil in H.
    + intros t' Ht'. rewrite app_nil_r. done.
    + intros h Hh. exists h. done.
    + done.
    + intros y Hy. split; [split; [by eapply tree_wf|done]|done].
  - destruct Hv as [Hwf Hv]. destruct n as [pivots children|keys msgs]; [|done].
    inversion Ht as [|lo0 hi0 p0 c0 Hl Hs Hp Hc]; subst.
    destruct (slot_bounds pivots lo hi k Hs Hw) as [Hi Hwi].
    unfold valid in Hv; fold valid in Hv.
    set (i := slot (Index pivots children) k) in *.
    change (Z.to_nat (key_largest_lte pivots k + 1)) with i in *.
    destruct (lookup_lt_is_Some_2 children i) as [c Hci]; [lia|].
    pose proof (child_lookup pivots children i c Hci) as Hch. rewrite Hch in Hv.
    destruct (IH _ _ _ _ (Hc i c Hci) Hwi Hv) as (lo' & hi' & L & R & F).
    set (LL := concat (map contents (take i children))).
    set (RR := concat (map contents (drop (S i) children))).
    assert (HLL : ∀ x m, (x, m) ∈ LL → ∃ j e, j < i ∧ children !! j = Some e ∧ (x, m) ∈ contents e).
    { intros x m Hx. change LL with (contents (Index [] (take i children))) in Hx.
      apply elem_contents in Hx as (j & e & He & Hx). exists j, e.
      apply lookup_take_Some in He as [He Hj]. done. }
    assert (HRR : ∀ x m, (x, m) ∈ RR → ∃ j e, i < j ∧ children !! j = Some e ∧ (x, m) ∈ contents e).
    { intros x m Hx. change RR with (contents (Index [] (drop (S i) children))) in Hx.
      apply elem_contents in Hx as (j & e & He & Hx). rewrite lookup_drop in He.
      exists (S i + j), e. split; [lia|done]. }
    (* a key of the focus lies below the child *)
    assert (Hsub : ∀ y, within lo' hi' y → within (lower lo pivots i) (upper hi pivots i) y).
    { intros y Hy. assert (search_tree lo' hi' (Leaf [y] [Update nop_delta])) as H1.
      { apply search_leaf; [done|done|repeat constructor|]. intros z ->%elem_of_list_singleton. done. }
      destruct (f_subst _ _ _ _ _ _ _ _ _ F _ H1) as [Hsb Hcb].
      apply (contents_within _ _ _ y (Update nop_delta) Hsb). rewrite Hcb. simpl.
      apply elem_of_app. right. left. }
    exists lo', hi', (LL ++ L), (R ++ RR). split.
    + cbn [target]. fold i. rewrite Hch. apply F.
    + apply F.
    + cbn [target]. fold i. rewrite Hch. change (contents (Index pivots children)) with (concat (map contents children)).
      assert (Hci' := Hci). rewrite <- (list_insert_id children i c Hci) at 1.
      rewrite (concat_insert contents children i c c Hci). fold LL RR.
      rewrite (f_contents _ _ _ _ _ _ _ _ _ F). by rewrite !app_assoc.
    + intros x m y [Hx|Hx]%elem_of_app Hy; [|exact (f_left _ _ _ _ _ _ _ _ _ F x m y Hx Hy)].
      apply HLL in Hx as (j & e & Hj & He & Hx). pose proof (contents_within _ _ _ _ _ (Hc j e He) Hx) as [_ Hu].
      apply Hsub in Hy as [Hlow _]. destruct i as [|i']; [lia|].
      destruct (lookup_lt_is_Some_2 pivots i') as [p Hpi]; [lia|]. specialize (Hlow p Hpi).
      destruct (lookup_lt_is_Some_2 pivots j) as [q Hqj]; [lia|]. unfold upper in Hu. rewrite Hqj in Hu.
      specialize (Hu q eq_refl). destruct (decide (j = i')) as [->|]; [assert (p = q) by congruence; lia|].
      pose proof (strong_lookup pivots j i' q p Hs ltac:(lia) Hqj Hpi). lia.
    + intros x m y [Hx|Hx]%elem_of_app Hy; [exact (f_right _ _ _ _ _ _ _ _ _ F x m y Hx Hy)|].
      apply HRR in Hx as (j & e & Hj & He & Hx). pose proof (contents_within _ _ _ _ _ (Hc j e He) Hx) as [Hlow _].
      apply Hsub in Hy as [_ Hu]. pose proof (lookup_lt_Some _ _ _ He).
      destruct (lookup_lt_is_Some_2 pivots i) as [p Hpi]; [lia|]. unfold upper in Hu. rewrite Hpi in Hu.
      specialize (Hu p eq_refl). destruct j as [|j']; [lia|].
      destruct (lookup_lt_is_Some_2 pivots j') as [q Hqj]; [lia|]. specialize (Hlow q Hqj).
      destruct (decide (j' = i)) as [->|]; [assert (p = q) by congruence; lia|].
      pose proof (strong_lookup pivots i j' p q Hs ltac:(lia) Hpi Hqj). lia.
    + intros t' Ht'. destruct (f_subst _ _ _ _ _ _ _ _ _ F t' Ht') as [HS1 HS2].
      cbn [substitute]. fold i. rewrite Hch. split.
      * constructor; [by rewrite insert_length|done|done|].
        intros j e He. destruct (decide (j = i)) as [->|].
        -- rewrite list_lookup_insert in He by lia. by injection He as <-.
        -- rewrite list_lookup_insert_ne in He by done. by apply Hc.
      * cbn [contents]. rewrite (concat_insert contents children i _ c Hci). fold LL RR. rewrite HS2. by rewrite !app_assoc.
    + intros h Hh. inversion_clear Hh as [|h0 p0 c0 Hlc].
      destruct (f_level _ _ _ _ _ _ _ _ _ F h0 (Hlc i c Hci)) as (h' & -> & Ht1 & Ht2).
      exists h'. split; [lia|]. cbn [target substitute]. fold i. rewrite Hch. split; [done|].
      intros t' Ht'. constructor. intros j e He. destruct (decide (j = i)) as [->|].
      * rewrite list_lookup_insert in He by lia. injection He as <-. by apply Ht2.
      * rewrite list_lookup_insert_ne in He by done. by apply (Hlc j).
    + intros y Hy [Hr Hpe]. fold i in Hpe. rewrite Hch in Hpe.
      apply (f_equiv _ _ _ _ _ _ _ _ _ F); [|exact Hpe]. destruct (slot_bounds pivots lo hi y Hs Hy) as [_ Hwy].
      unfold route, keys_or_pivots in Hr. rewrite <- Hr in Hwy. exact Hwy.
    + intros y Hy. destruct (f_same _ _ _ _ _ _ _ _ _ F y Hy) as (H1 & H2 & H3).
      assert (Hsl : slot (Index pivots children) y = i) by (apply (slot_unique pivots lo hi y i); [done|lia|done]).
      cbn [valid target]. rewrite Hsl. fold i. rewrite Hch. split; [done|]. split; [done|].
      destruct (tree_keys lo hi (Index pivots (<[i := Leaf [y] [Update nop_delta]]> children)) y) as [Hx1 Hx2].
      * apply search_index; [by rewrite insert_length|done|done|].
        intros j e He. destruct (decide (j = i)) as [->|].
        -- rewrite list_lookup_insert in He by lia. injection He as <-.
           apply search_leaf; [done|done|repeat constructor|]. intros z ->%elem_of_list_singleton. done.
        -- rewrite list_lookup_insert_ne in He by done. by apply Hc.
      * apply elem_all_keys. right. exists i, (Leaf [y] [Update nop_delta]).
        rewrite list_lookup_insert by lia. split; [done|]. simpl. set_solver.
      * done.
Qed.

(** ** Writing into a leaf *)
Lemma insert_leaf_spec lo hi keys msgs k m :
  search_tree lo hi (Leaf keys msgs) → within lo hi k →
  search_tree lo hi (insert_leaf (Leaf keys msgs) k m) ∧
  leaves_at 0 (insert_leaf (Leaf keys msgs) k m) ∧
  ∀ j x, (j, x) ∈ contents (insert_leaf (Leaf keys msgs) k m) ↔
         (j = k ∧ x = m) ∨ (j ≠ k ∧ (j, x) ∈ zip keys msgs).
Proof.
  intros Ht Hw. inversion Ht as [l0 h0 k0 m0 Hne Hl Hs Hk|]; subst.
  destruct (key_largest_lte_full keys k (keys_strict_sorted _ Hs)) as (Hb & Hlk & Hin).
  unfold insert_leaf, route, keys_or_pivots. set (r := key_largest_lte keys k) in *.
  destruct (decide _) as [[Hr Hrk]|Hno].
  - split; [constructor; [done|by rewrite insert_length|done|done]|]. split; [constructor|].
    intros j x. simpl contents. rewrite !elem_of_zip_iff. split.
    + intros (i & Hi & Hx). destruct (decide (i = Z.to_nat r)) as [->|Hne'].
      * rewrite list_lookup_insert in Hx by (apply lookup_lt_Some in Hrk; lia).
        left. split; congruence.
      * rewrite list_lookup_insert_ne in Hx by done. right. split; [|eauto]. intros ->.
        apply Hne'. apply (keys_strictly_sorted_unique keys i (Z.to_nat r) k); [by apply sorted_strong|done|done].
    + intros [[-> ->]|(Hjk & i & Hi & Hx)].
      * exists (Z.to_nat r). split; [done|]. apply list_lookup_insert. apply lookup_lt_Some in Hrk. lia.
      * exists i. split; [done|]. rewrite list_lookup_insert_ne; [done|]. intros <-. congruence.
  - assert (Hni : k ∉ keys).
    { intros Hi. apply Hno. destruct (Hin Hi) as (i & Hi1 & Hi2). rewrite Hi1, Nat2Z.id. split; [lia|done]. }
    set (p := Z.to_nat (r + 1)). assert (Hp : p ≤ length keys) by lia.
    split; [|split; [constructor|]].
    + constructor.
      * intros E. apply (f_equal length) in E. rewrite seq_insert_length in E by done. done.
      * rewrite !seq_insert_length by lia. by f_equal.
      * unfold seq_insert. rewrite <- (take_drop p keys) in Hs. apply strong_app in Hs as (H1 & H2 & H3).
        apply strong_app. split; [done|]. split.
        -- constructor; [done|]. apply stdpp.list.Forall_forall. intros y [i Hi]%elem_of_list_lookup.
           rewrite lookup_drop in Hi. pose proof (Hlk _ _ Hi) as [_ Hle].
           destruct (decide (k < y)%N); [done|]. assert (y ≤ k)%N as Hyk by lia. specialize (Hle Hyk). lia.
        -- intros x y Hx Hy. apply elem_of_list_lookup in Hx as [i Hi].
           apply lookup_take_Some in Hi as [Hi Hip]. pose proof (Hlk _ _ Hi) as [Hxk _].
           assert (Z.of_nat i ≤ r)%Z as Hir by lia. specialize (Hxk Hir).
           assert (x ≠ k) by (intros ->; apply Hni; by apply elem_of_list_lookup_2 in Hi).
           apply elem_of_cons in Hy as [->|Hy]; [lia|].
           apply H3; [|done]. apply elem_of_list_lookup. exists i. apply lookup_take_Some. done.
      * intros y [->|Hy]%elem_of_seq_insert; [done|by apply Hk].
    + intros j x. simpl contents.
      assert (Hz : zip (seq_insert keys p k) (seq_insert msgs p m) = seq_insert (zip keys msgs) p (k, m)).
      { unfold seq_insert. rewrite zip_app by (rewrite !take_length; lia). simpl.
        by rewrite zip_take, zip_drop. }
      rewrite Hz, elem_of_seq_insert. split.
      * intros [[= -> ->]|H]; [by left|]. right. split; [|done]. intros ->.
        apply elem_of_zip_iff in H as (i & H & _). apply Hni. by apply elem_of_list_lookup_2 in H.
      * intros [[-> ->]|[_ H]]; [by left|by right].
Qed.
Lemma append_leaf_spec lo hi keys msgs new_keys new_msgs top first :
  search_tree lo hi (Leaf keys msgs) → length new_keys = length new_msgs →
  StronglySorted N.lt new_keys → (∀ k, k ∈ new_keys → within lo hi k) →
  stdpp.list.last keys = Some top → new_keys !! 0 = Some first → (top < first)%N →
  search_tree lo hi (append_leaf (Leaf keys msgs) new_keys new_msgs) ∧
  contents (append_leaf (Leaf keys msgs) new_keys new_msgs) = zip keys msgs ++ zip new_keys new_msgs ∧
  ∀ x y, x ∈ keys → y ∈ new_keys → (x < y)%N.
Proof.
  intros Ht Hl2 Hs2 Hw2 Htop Hfirst Hlt. inversion Ht as [l0 h0 k0 m0 Hne Hl Hs Hk|]; subst.
  assert (Hxy : ∀ x y, x ∈ keys → y ∈ new_keys → (x < y)%N).
  { intros x y [i Hi]%elem_of_list_lookup [j Hj]%elem_of_list_lookup. rewrite last_lookup in Htop.
    assert (x ≤ top)%N.
    { destruct (decide (i = pred (length keys))) as [->|]; [rewrite Htop in Hi; injection Hi as ->; lia|].
      pose proof (lookup_lt_Some _ _ _ Hi). pose proof (strong_lookup keys i (pred (length keys)) x top Hs ltac:(lia) Hi Htop). lia. }
    assert (first ≤ y)%N; [|lia].
    destruct j as [|j]; [rewrite Hfirst in Hj; injection Hj as ->; lia|].
    pose proof (strong_lookup new_keys 0 (S j) first y Hs2 ltac:(lia) Hfirst Hj). lia. }
  split; [|split; [simpl; by apply zip_app|done]].
  simpl. constructor.
  - intros E. apply (f_equal length) in E. rewrite app_length in E. destruct keys; [done|done].
  - rewrite !app_length. lia.
  - apply strong_app. split; [done|]. split; [done|done].
  - intros k [Hi|Hi]%elem_of_app; auto.
Qed.


(** ** Splitting *)
Lemma split_node_spec lo hi c s :
  search_tree lo hi c → within lo hi (get_pivot s) → split_wf s c →
  search_tree lo (Some (get_pivot s)) (split_node c s).1 ∧
  search_tree (Some (get_pivot s)) hi (split_node c s).2 ∧
  contents (split_node c s).1 ++ contents (split_node c s).2 = contents c ∧
  ∀ h, leaves_at h c → leaves_at h (split_node c s).1 ∧ leaves_at h (split_node c s).2.
Proof.
  intros Ht Hw Hwf. destruct s as [pivot pi|pivot], c as [pivots children|keys msgs]; simpl in Hwf; try done.
  - (* an index node *)
    destruct Hwf as [_ Hpi]. inversion Ht as [|lo0 hi0 p0 c0 Hl Hs Hp Hc]; subst.
    pose proof (lookup_lt_Some _ _ _ Hpi) as Hlt. simpl in Hw |- *. unfold sub_index.
    assert (Hpl : ∀ i, i < pi + 1 → upper (Some pivot) (subrange pivots 0 (pi + 1 - 1)) i = upper hi pivots i).
    { intros i Hi. unfold upper. rewrite subrange_lookup. destruct (decide _).
      - simpl. destruct (pivots !! i) eqn:E; [done|]. apply lookup_ge_None in E. lia.
      - replace i with pi by lia. by rewrite Hpi. }
    split; [|split; [|split]].
    + apply search_index.
      * rewrite !subrange_length by lia. lia.
      * apply strong_intro. intros i j a b Hij. rewrite !subrange_lookup.
        repeat destruct (decide _); try done. apply (strong_lookup pivots); [done|lia].
      * intros k [i Hi]%elem_of_list_lookup. rewrite subrange_lookup in Hi. destruct (decide _); [|done].
        simpl in Hi. split.
        -- apply (Hp k). by apply elem_of_list_lookup_2 in Hi.
        -- intros h [= <-]. exact (strong_lookup pivots i pi k pivot Hs ltac:(lia) Hi Hpi).
      * intros i c Hci. rewrite subrange_lookup in Hci. destruct (decide _); [|done]. simpl in Hci.
        rewrite (Hpl i) by lia.
        assert (lower lo (subrange pivots 0 (pi + 1 - 1)) i = lower lo pivots i) as ->.
        { destruct i as [|j]; [done|]. simpl. rewrite subrange_lookup. rewrite decide_True by lia. done. }
        by apply Hc.
    + apply search_index.
      * rewrite !subrange_length by lia. lia.
      * apply strong_intro. intros i j a b Hij. rewrite !subrange_lookup.
        repeat destruct (decide _); try done. apply (strong_lookup pivots); [done|lia].
      * intros k [i Hi]%elem_of_list_lookup. rewrite subrange_lookup in Hi. destruct (decide _); [|done]. split.
        -- intros lw [= <-]. pose proof (strong_lookup pivots pi (pi + 1 + i) pivot k Hs ltac:(lia) Hpi Hi). lia.
        -- apply (Hp k). by apply elem_of_list_lookup_2 in Hi.
      * intros i c Hci. rewrite subrange_lookup in Hci. destruct (decide _); [|done].
        assert (lower (Some pivot) (subrange pivots (pi + 1) (length children - 1)) i = lower lo pivots (pi + 1 + i)) as ->.
        { destruct i as [|j]; simpl.
          - replace (pi + 1 + 0) with (S pi) by lia. simpl. by rewrite Hpi.
          - rewrite subrange_lookup. rewrite decide_True by lia.
            replace (pi + 1 + S j) with (S (pi + 1 + j)) by lia. done. }
        assert (upper hi (subrange pivots (pi + 1) (length children - 1)) i = upper hi pivots (pi + 1 + i)) as ->.
        { unfold upper. rewrite subrange_lookup. destruct (decide _); [done|].
          destruct (pivots !! (pi + 1 + i)) eqn:E; [|done]. apply lookup_lt_Some in E. lia. }
        by apply Hc.
    + unfold subrange. rewrite <- concat_app.  rewrite <- map_app. f_equal. f_equal. rewrite drop_0, Nat.sub_0_r.
      rewrite (take_ge (drop _ _)) by (rewrite drop_length; lia). apply take_drop.
    + intros h Hh. inversion Hh as [|h0 p0 c0 Hlc]; subst.
      split; constructor; intros i c Hci; rewrite subrange_lookup in Hci; destruct (decide _); try done; by eapply Hlc.
  - (* a leaf *)
    destruct Hwf as [Hl Hsp]. inversion Ht as [l0 h0 k0 m0 Hne _ Hs Hk|]; subst. simpl in Hw |- *.
    destruct (key_largest_lt_full keys pivot (keys_strict_sorted _ Hs)) as (Hb & Hlk & _).
    set (p := Z.to_nat (key_largest_lt keys pivot + 1)) in *.
    assert (Hp : 0 < p < length keys) by lia.
    assert (Hbelow : ∀ k, k ∈ take p keys → (k < pivot)%N).
    { intros k [i Hi]%elem_of_list_lookup. apply lookup_take_Some in Hi as [Hi Hip]. apply (Hlk i k Hi). lia. }
    assert (Habove : ∀ k, k ∈ drop p keys → (pivot ≤ k)%N).
    { intros k [i Hi]%elem_of_list_lookup. rewrite lookup_drop in Hi. pose proof (Hlk _ _ Hi) as [_ H2].
      destruct (decide (pivot ≤ k)%N); [done|]. assert (k < pivot)%N as Hkp by lia. specialize (H2 Hkp). lia. }
    pose proof Hs as Hs'. rewrite <- (take_drop p keys) in Hs'. apply strong_app in Hs' as (Hs1 & Hs2 & _).
    split; [|split; [|split]].
    + apply search_leaf; [|rewrite !take_length; lia|done|].
      * intros E. apply (f_equal length) in E. rewrite take_length in E. simpl in E. lia.
      * intros k Hin. split; [|intros h [= <-]; by apply Hbelow].
        apply Hk. rewrite <- (take_drop p keys). apply elem_of_app. by left.
    + apply search_leaf; [|rewrite !drop_length; lia|done|].
      * intros E. apply (f_equal length) in E. rewrite drop_length in E. simpl in E. lia.
      * intros k Hin. split; [intros l [= <-]; by apply Habove|].
        apply Hk. rewrite <- (take_drop p keys). apply elem_of_app. by right.
    + rewrite <- zip_take, <- zip_drop by done. apply take_drop.
    + intros h Hh. inversion Hh; subst. split; constructor.
Qed.
Lemma split_child_spec lo hi n s :
  search_tree lo hi n → within lo hi (get_pivot s) → can_split_child_of_index n s →
  search_tree lo hi (split_child_of_index n s) ∧
  contents (split_child_of_index n s) = contents n ∧
  ∀ h, leaves_at h n → leaves_at h (split_child_of_index n s).
Proof.
  intros Ht Hw [_ Hcan]. destruct n as [pivots children|]; [|done].
  inversion Ht as [|lo0 hi0 p0 c0 Hl Hs Hp Hc]; subst. set (pv := get_pivot s) in *.
  destruct (slot_bounds pivots lo hi pv Hs Hw) as [Hi Hwi].
  unfold split_child_of_index. set (i := slot (Index pivots children) pv) in *.
  change (Z.to_nat (key_largest_lte pivots pv + 1)) with i in *. fold pv i.
  destruct (lookup_lt_is_Some_2 children i) as [c Hci]; [lia|].
  rewrite (child_lookup pivots children i c Hci) in *.
  destruct (split_node_spec _ _ c s (Hc i c Hci) Hwi Hcan) as (HL & HR & Hcont & Hlev).
  destruct (split_node c s) as [l r]. simpl in HL, HR, Hcont, Hlev.
  assert (Hlookup : ∀ j, seq_insert (<[i := l]> children) (i + 1) r !! j =
    if decide (j < i) then children !! j else if decide (j = i) then Some l
    else if decide (j = i + 1) then Some r else children !! (j - 1)).
  { intros j. rewrite seq_insert_lookup by (rewrite insert_length; lia).
    destruct (decide (j < i + 1)).
    - destruct (decide (j < i)); [by rewrite list_lookup_insert_ne by lia|].
      rewrite decide_True by lia. replace j with i by lia. by rewrite list_lookup_insert by lia.
    - rewrite (decide_False (P := j < i)) by lia. rewrite (decide_False (P := j = i)) by lia.
      destruct (decide (j = i + 1)); [done|]. by rewrite list_lookup_insert_ne by lia. }
  assert (Hlow : ∀ q, 0 < i → pivots !! (i - 1) = Some q → (q < pv)%N).
  { intros q Hi0 Hq. destruct i as [|i']; [lia|]. simpl in HL. rewrite Nat.sub_succ, Nat.sub_0_r in Hq.
    rewrite Hq in HL. by apply tree_range in HL. }
  assert (Hup : ∀ q, pivots !! i = Some q → (pv < q)%N).
  { intros q Hq. unfold upper in HR. rewrite Hq in HR. by apply tree_range in HR. }
  split; [|split].
  - apply search_index.
    + rewrite !seq_insert_length, insert_length by (rewrite ?insert_length; lia). lia.
    + apply strong_intro. intros a b x y Hab. rewrite !seq_insert_lookup by lia.
      repeat (destruct (decide _)); try lia; intros Hx Hy.
      * exact (strong_lookup pivots a b x y Hs Hab Hx Hy).
      * injection Hy as <-. destruct (lookup_lt_is_Some_2 pivots (i - 1)) as [q Hq]; [lia|].
        assert (x ≤ q)%N.
        { destruct (decide (a = i - 1)) as [->|]; [assert (x = q) as -> by congruence; lia|].
          pose proof (strong_lookup pivots a (i - 1) x q Hs ltac:(lia) Hx Hq). lia. }
        specialize (Hlow q ltac:(lia) Hq). lia.
      * exact (strong_lookup pivots a (b - 1) x y Hs ltac:(lia) Hx Hy).
      * injection Hx as <-. destruct (lookup_lt_is_Some_2 pivots i) as [q Hq]; [apply lookup_lt_Some in Hy; lia|].
        specialize (Hup q Hq). destruct (decide (b - 1 = i)) as [E|].
        -- rewrite E in Hy. assert (y = q) as -> by congruence. lia.
        -- pose proof (strong_lookup pivots i (b - 1) q y Hs ltac:(lia) Hq Hy). lia.
      * exact (strong_lookup pivots (a - 1) (b - 1) x y Hs ltac:(lia) Hx Hy).
    + intros k [->|Hk]%elem_of_seq_insert; [done|by apply Hp].
    + intros j e He. rewrite Hlookup in He.
      destruct (decide (j < i)).
      { assert (lower lo (seq_insert pivots i pv) j = lower lo pivots j) as ->.
        { destruct j; [done|]. simpl. rewrite seq_insert_lookup by lia. by rewrite decide_True by lia. }
        assert (upper hi (seq_insert pivots i pv) j = upper hi pivots j) as ->.
        { unfold upper. rewrite seq_insert_lookup by lia. by rewrite decide_True by lia. }
        by apply Hc. }
      destruct (decide (j = i)) as [->|].
      { injection He as <-.
        assert (lower lo (seq_insert pivots i pv) i = lower lo pivots i) as ->.
        { destruct i; [done|]. simpl. rewrite seq_insert_lookup by lia. by rewrite decide_True by lia. }
        assert (upper hi (seq_insert pivots i pv) i = Some pv) as ->.
        { unfold upper. rewrite seq_insert_lookup by lia. rewrite decide_False by lia. by rewrite decide_True by lia. }
        done. }
      assert (upper hi (seq_insert pivots i pv) j = upper hi pivots (j - 1)) as ->.
      { unfold upper. rewrite seq_insert_lookup by lia. rewrite decide_False by lia. by rewrite decide_False by lia. }
      destruct (decide (j = i + 1)) as [->|].
      { injection He as <-. replace (i + 1) with (S i) by lia. simpl.
        rewrite seq_insert_lookup by lia. rewrite decide_False by lia. rewrite decide_True by lia.
        by rewrite Nat.sub_0_r. }
      assert (lower lo (seq_insert pivots i pv) j = lower lo pivots (j - 1)) as ->.
      { destruct j as [|[|j]]; [lia|lia|]. simpl. rewrite seq_insert_lookup by lia.
        rewrite decide_False by lia. rewrite decide_False by lia. simpl. by rewrite Nat.sub_0_r. }
      by apply Hc.
  - cbn [contents]. unfold seq_insert. rewrite !map_app, !concat_app. cbn [map concat].
    rewrite <- (list_insert_id children i c Hci) at 3.
    rewrite (concat_insert contents children i c c Hci).
    rewrite <- Hcont. rewrite !app_assoc. f_equal; [f_equal|].
    + replace (i + 1) with (S i) by lia. rewrite (take_S_r _ i l) by (by apply list_lookup_insert; lia).
      rewrite map_app, concat_app. cbn [map concat]. rewrite app_nil_r.
      by rewrite take_insert by lia.
    + f_equal. f_equal. replace (i + 1) with (S i) by lia. by rewrite drop_insert_gt by lia.
  - intros h Hh. inversion Hh as [|h0 p0 c0 Hlc]; subst. constructor. intros j e He.
    rewrite Hlookup in He. repeat destruct (decide _).
    + by apply (Hlc j).
    + injection He as <-. by apply Hlev, (Hlc i).
    + injection He as <-. by apply Hlev, (Hlc i).
    + by apply (Hlc (j - 1)).
Qed.

(** ** Sorted contents *)
Lemma concat_sorted (f : Node → list (N * Message)) (l : list Node) :
  (∀ i c, l !! i = Some c → StronglySorted N.lt (f c).*1) →
  (∀ i j c e x y, i < j → l !! i = Some c → l !! j = Some e → x ∈ (f c).*1 → y ∈ (f e).*1 → (x < y)%N) →
  StronglySorted N.lt (concat (map f l)).*1.
Proof.
  induction l as [|c l IH]; intros H1 H2; [constructor|]. simpl. rewrite fmap_app. apply strong_app.
  split; [by apply (H1 0)|]. split.
  - apply IH; [intros i e He; by apply (H1 (S i))|].
    intros i j e e' x y Hij He He'. apply (H2 (S i) (S j)); [lia|done|done].
  - intros x y Hx Hy. apply elem_of_list_fmap in Hy as ([y' m] & -> & Hy).
    change (concat (map f l)) with (concat (map f l)) in Hy.
    rewrite elem_of_list_In, in_concat in Hy. destruct Hy as (b & Hb & Hy).
    apply elem_of_list_In in Hb, Hy. apply elem_of_list_fmap in Hb as (e & -> & [j Hj]%elem_of_list_lookup).
    apply (H2 0 (S j) c e); [lia|done|done|done|]. apply elem_of_list_fmap. by exists (y', m).
Qed.
Lemma contents_sorted lo hi n : search_tree lo hi n → StronglySorted N.lt (contents n).*1.
Proof.
  induction 1 as [lo hi keys msgs Hne Hl Hs Hk|lo hi pivots children Hl Hs Hp Hc IH].
  - simpl. by rewrite zip_fst.
  - apply concat_sorted; [done|]. intros i j c e x y Hij Hci Hej Hx Hy.
    apply elem_of_list_fmap in Hx as ([x' m] & -> & Hx). apply elem_of_list_fmap in Hy as ([y' m'] & -> & Hy).
    pose proof (contents_within _ _ _ _ _ (Hc i c Hci) Hx) as [_ Hu].
    pose proof (contents_within _ _ _ _ _ (Hc j e Hej) Hy) as [Hlow _]. simpl.
    pose proof (lookup_lt_Some _ _ _ Hej). destruct j as [|j']; [lia|].
    destruct (lookup_lt_is_Some_2 pivots i) as [p Hpi]; [lia|].
    destruct (lookup_lt_is_Some_2 pivots j') as [q Hqj]; [lia|].
    unfold upper in Hu. rewrite Hpi in Hu. specialize (Hu p eq_refl). specialize (Hlow q Hqj).
    destruct (decide (i = j')) as [->|]; [assert (p = q) by congruence; lia|].
    pose proof (strong_lookup pivots i j' p q Hs ltac:(lia) Hpi Hqj). lia.
Qed.

(** ** One call *)
Lemma query_change n n' (ws : list (N * Message)) :
  wf n → wf n' → NoDup ws.*1 →
  (∀ j x, (j, x) ∈ contents n' ↔ (j, x) ∈ ws ∨ (j ∉ ws.*1 ∧ (j, x) ∈ contents n)) →
  ∀ k, (∀ m, (k, m) ∈ ws → query n' k = m) ∧ (k ∉ ws.*1 → query n' k = query n k).
Proof.
  intros Hn Hn' Hnd Hc k. split.
  - intros m Hin. apply query_has; [done|]. apply Hc. by left.
  - intros Hno.
    destruct (decide (k ∈ (contents n).*1)) as [Hk|Hk].
    + apply elem_of_list_fmap in Hk as ([k' m] & Hk' & Hk). simpl in Hk'. subst k'.
      rewrite (query_has n k m Hn Hk). apply query_has; [done|]. apply Hc. by right.
    + rewrite (query_none n k Hn).
      * apply query_none; [done|]. intros m [Hm|[_ Hm]]%Hc.
        -- apply Hno, elem_of_list_fmap. by exists (k, m).
        -- apply Hk, elem_of_list_fmap. by exists (k, m).
      * intros m Hm. apply Hk, elem_of_list_fmap. by exists (k, m).
Qed.
Lemma insert_step n k m d : can_insert n k d →
  wf (insert n k m d) ∧ (∀ h, leaves_at h n → leaves_at h (insert n k m d)) ∧
  ∀ j x, (j, x) ∈ contents (insert n k m d) ↔ (j, x) ∈ [(k, m)] ∨ (j ∉ [(k, m)].*1 ∧ (j, x) ∈ contents n).
Proof.
  intros (Hwf & Hv & Ht). apply wf_iff in Hwf.
  destruct (focus_exists d None None n k Hwf (within_none k) Hv) as (lo & hi & L & R & F).
  unfold insert. pose proof (f_tree _ _ _ _ _ _ _ _ _ F) as Htt.
  pose proof (f_contents _ _ _ _ _ _ _ _ _ F) as Hcc.
  pose proof (f_level _ _ _ _ _ _ _ _ _ F) as Hlev.
  destruct (target n k d) as [|keys msgs]; [done|].
  destruct (insert_leaf_spec lo hi keys msgs k m Htt (f_key _ _ _ _ _ _ _ _ _ F)) as (H1 & H2 & H3).
  destruct (f_subst _ _ _ _ _ _ _ _ _ F _ H1) as [HS1 HS2]. split; [by apply wf_iff|]. split.
  - intros h Hh. destruct (Hlev h Hh) as (h' & -> & Hl1 & Hl2). inversion Hl1; subst. by apply Hl2.
  - intros j x. rewrite HS2, Hcc, !elem_of_app, H3. simpl. rewrite !elem_of_list_singleton.
    split.
    + intros [Hx|[[[-> ->]|[Hjk Hx]]|Hx]].
      * right. split; [|tauto]. pose proof (f_left _ _ _ _ _ _ _ _ _ F j x k Hx (f_key _ _ _ _ _ _ _ _ _ F)). lia.
      * by left.
      * right. tauto.
      * right. split; [|tauto]. pose proof (f_right _ _ _ _ _ _ _ _ _ F j x k Hx (f_key _ _ _ _ _ _ _ _ _ F)). lia.
    + intros [[= -> ->]|[Hjk [Hx|[Hx|Hx]]]]; tauto.
Qed.
Lemma append_step n ks ms d : wf n → can_append n ks ms d →
  wf (append n ks ms d) ∧ (∀ h, leaves_at h n → leaves_at h (append n ks ms d)) ∧ NoDup (zip ks ms).*1 ∧
  ∀ j x, (j, x) ∈ contents (append n ks ms d) ↔
         (j, x) ∈ zip ks ms ∨ (j ∉ (zip ks ms).*1 ∧ (j, x) ∈ contents n).
Proof.
  intros Hwf Hcan. unfold can_append in Hcan. destruct ks as [|first ks]; [done|].
  set (keys := first :: ks) in *. destruct (stdpp.list.last keys) as [final|] eqn:Hlast; [|done].
  destruct Hcan as (Hv & Hl & Hs & Ht & Hpe). apply sorted_strong in Hs. apply wf_iff in Hwf.
  destruct (focus_exists d None None n first Hwf (within_none first) Hv) as (lo & hi & L & R & F).
  unfold append. change (match keys with [] => _ | f :: _ => substitute n f d (append_leaf (target n f d) keys ms) end)
    with (substitute n first d (append_leaf (target n first d) keys ms)).
  pose proof (f_tree _ _ _ _ _ _ _ _ _ F) as Htt.
  pose proof (f_contents _ _ _ _ _ _ _ _ _ F) as Hcc.
  pose proof (f_level _ _ _ _ _ _ _ _ _ F) as Hlev.
  destruct (target n first d) as [|old omsgs]; [done|]. destruct Ht as (top & Htop & Hlt%key_lt_lt).
  pose proof (f_key _ _ _ _ _ _ _ _ _ F) as Hwfirst.
  pose proof (f_equiv _ _ _ _ _ _ _ _ _ F final (within_none final) Hpe) as Hwfinal.
  assert (Hwk : ∀ k, k ∈ keys → within lo hi k).
  { intros k [i Hi]%elem_of_list_lookup. rewrite last_lookup in Hlast.
    assert (first ≤ k)%N.
    { destruct i as [|i]; [injection Hi as ->; lia|].
      pose proof (strong_lookup keys 0 (S i) first k Hs ltac:(lia) eq_refl Hi). lia. }
    assert (k ≤ final)%N.
    { destruct (decide (i = pred (length keys))) as [->|].
      - assert (k = final) as -> by congruence. lia.
      - pose proof (lookup_lt_Some _ _ _ Hi).
        pose proof (strong_lookup keys i (pred (length keys)) k final Hs ltac:(lia) Hi Hlast). lia. }
    split; [intros l E; pose proof (proj1 Hwfirst l E); lia|intros h E; pose proof (proj2 Hwfinal h E); lia]. }
  destruct (append_leaf_spec lo hi old omsgs keys ms top first Htt Hl Hs Hwk Htop eq_refl Hlt) as (H1 & H2 & H3).
  destruct (f_subst _ _ _ _ _ _ _ _ _ F _ H1) as [HS1 HS2]. split; [by apply wf_iff|]. split; [|split].
  - intros h Hh. destruct (Hlev h Hh) as (h' & -> & Hl1 & Hl2). inversion Hl1; subst. apply Hl2. constructor.
  - rewrite zip_fst by done. by apply strong_NoDup.
  - intros j x. rewrite HS2, Hcc, H2, !elem_of_app. rewrite zip_fst by done. simpl contents.
    split.
    + intros [Hx|[[Hx|Hx]|Hx]]; [| |by left|].
      * right. split; [|tauto]. intros Hj. pose proof (f_left _ _ _ _ _ _ _ _ _ F j x j Hx (Hwk j Hj)). lia.
      * right. split; [|tauto]. intros Hj. apply elem_of_zip_iff in Hx as (i & Hi & _).
        pose proof (H3 j j (elem_of_list_lookup_2 _ _ _ Hi) Hj). lia.
      * right. split; [|tauto]. intros Hj. pose proof (f_right _ _ _ _ _ _ _ _ _ F j x j Hx (Hwk j Hj)). lia.
    + tauto.
Qed.
Lemma split_step n s d : can_split n s d →
  wf (split n s d) ∧ (∀ h, leaves_at h n → leaves_at h (split n s d)) ∧ contents (split n s d) = contents n.
Proof.
  intros (Hwf & Hv & Hcan). apply wf_iff in Hwf.
  destruct (focus_exists d None None n _ Hwf (within_none _) Hv) as (lo & hi & L & R & F).
  destruct (split_child_spec lo hi _ s (f_tree _ _ _ _ _ _ _ _ _ F) (f_key _ _ _ _ _ _ _ _ _ F) Hcan) as (H1 & H2 & H3).
  destruct (f_subst _ _ _ _ _ _ _ _ _ F _ H1) as [HS1 HS2]. unfold split. split; [by apply wf_iff|]. split.
  - intros h Hh. destruct (f_level _ _ _ _ _ _ _ _ _ F h Hh) as (h' & -> & Hl1 & Hl2). apply Hl2. by apply H3.
  - rewrite HS2, H2. symmetry. apply F.
Qed.
Lemma grow_step n : wf n →
  wf (grow n) ∧ (∀ h, leaves_at h n → leaves_at (S h) (grow n)) ∧ contents (grow n) = contents n.
Proof.
  intros Hwf. apply wf_iff in Hwf. split; [|split].
  - apply wf_iff. apply search_index; [done|constructor|intros k Hk; by apply elem_of_nil in Hk|].
    intros [|i] c Hc; [|done]. injection Hc as <-. done.
  - intros h Hh. constructor. intros [|i] c Hc; [|done]. by injection Hc as <-.
  - simpl. apply app_nil_r.
Qed.

(** ** Histories *)
Lemma last_written_app ws ws' k :
  last_written (ws ++ ws') k = if decide (k ∈ ws'.*1) then last_written ws' k else last_written ws k.
Proof.
  induction ws as [|[j m] ws IH]; simpl.
  - destruct (decide _) as [|Hn]; [done|]. destruct ws' as [|[j m] ws']; [done|]. simpl in *.
    rewrite not_elem_of_cons in Hn. destruct Hn as [Hn1 Hn2].
    rewrite decide_False by done. by rewrite decide_False.
  - rewrite IH, fmap_app. destruct (decide (k ∈ ws'.*1)) as [Hk|Hk].
    + rewrite decide_True; [done|]. apply elem_of_app. by right.
    + destruct (decide (k ∈ ws.*1)) as [Hk'|Hk'].
      * rewrite decide_True; [done|]. apply elem_of_app. by left.
      * rewrite decide_False; [done|]. rewrite elem_of_app. tauto.
Qed.
Lemma last_written_in ws k m : NoDup ws.*1 → (k, m) ∈ ws → last_written ws k = m.
Proof.
  induction ws as [|[j x] ws IH]; simpl; intros Hnd Hin; [by apply elem_of_nil in Hin|].
  apply stdpp.list.NoDup_cons in Hnd as [Hj Hnd]. apply elem_of_cons in Hin as [[= -> ->]|Hin].
  - rewrite decide_False by done. by rewrite decide_True.
  - rewrite decide_True; [by apply IH|]. apply elem_of_list_fmap. by exists (k, m).
Qed.
Lemma last_written_out ws k : k ∉ ws.*1 → last_written ws k = Update nop_delta.
Proof.
  destruct ws as [|[j x] ws]; simpl; [done|]. rewrite not_elem_of_cons. intros [H1 H2].
  rewrite decide_False by done. by rewrite decide_False.
Qed.
Lemma call_step n n' l : wf n → next n n' l →
  wf n' ∧
  (∀ h, leaves_at h n → leaves_at (if is_grow l then S h else h) n') ∧
  (∀ k, query n' k = if decide (k ∈ (writes_of l).*1) then last_written (writes_of l) k else query n k) ∧
  (rearranges l → contents n' = contents n) ∧
  (∀ k m, l = Query k m → m = query n k).
Proof.
  intros Hwf Hn.
  assert (Hq : ∀ ws, wf n' → NoDup ws.*1 →
    (∀ j x, (j, x) ∈ contents n' ↔ (j, x) ∈ ws ∨ (j ∉ ws.*1 ∧ (j, x) ∈ contents n)) →
    ∀ k, query n' k = if decide (k ∈ ws.*1) then last_written ws k else query n k).
  { intros ws Hwf' Hnd Hc k. destruct (query_change n n' ws Hwf Hwf' Hnd Hc k) as [H1 H2].
    destruct (decide _) as [Hk|Hk]; [|by apply H2].
    apply elem_of_list_fmap in Hk as ([k' m] & Hk' & Hk). simpl in Hk'. subst k'.
    rewrite (last_written_in ws k m Hnd Hk). by apply H1. }
  assert (Hsame : wf n' → contents n' = contents n → ∀ k, query n' k = query n k).
  { intros Hwf' Hc k. rewrite (Hq [] Hwf' ltac:(constructor)); [done|].
    intros j x. rewrite Hc. simpl. rewrite !elem_of_nil. tauto. }
  destruct l as [k m|k m d|ks ms d| |s d]; simpl in Hn |- *.
  - destruct Hn as (_ & -> & ->). split; [done|]. split; [done|]. split; [done|]. split; [done|]. by intros ? ? [= -> ->].
  - destruct Hn as [Hcan ->]. destruct (insert_step n k m d Hcan) as (H1 & H2 & H3).
    split; [done|]. split; [done|]. split; [|split; [done|intros ? ? [=]]].
    apply (Hq [(k, m)] H1); [|done]. simpl. apply NoDup_singleton.
  - destruct Hn as [Hcan ->]. destruct (append_step n ks ms d Hwf Hcan) as (H1 & H2 & H3 & H4).
    split; [done|]. split; [done|]. split; [|split; [done|intros ? ? [=]]]. by apply Hq.
  - destruct Hn as [_ ->]. destruct (grow_step n Hwf) as (H1 & H2 & H3).
    split; [done|]. split; [done|]. split; [by apply Hsame|]. split; [done|intros ? ? [=]].
  - destruct Hn as [Hcan ->]. destruct (split_step n s d Hcan) as (H1 & H2 & H3).
    split; [done|]. split; [done|]. split; [by apply Hsame|]. split; [done|intros ? ? [=]].
Qed.
Lemma writes_snoc ls l : writes (ls ++ [l]) = writes ls ++ writes_of l.
Proof. unfold writes. rewrite map_app, concat_app. simpl. by rewrite app_nil_r. Qed.
Lemma levels_snoc ls l : levels (ls ++ [l]) = if is_grow l then S (levels ls) else levels ls.
Proof. unfold levels. rewrite filter_app, app_length. simpl. destruct (is_grow l); simpl; lia. Qed.
Lemma branch_run keys msgs ls n :
  first_leaf keys msgs → run next (Leaf keys msgs) ls n →
  wf n ∧ leaves_at (levels ls) n ∧
  (∀ k, query n k = last_written (zip keys msgs ++ writes ls) k) ∧
  answers_last (zip keys msgs) ls.
Proof.
  intros (Hne & Hl & Hs) Hr. remember (Leaf keys msgs) as n0 eqn:E.
  induction Hr as [s|s ls s1 l s2 Hr IH Hn]; subst.
  - assert (Hwf : wf (Leaf keys msgs)).
    { split; [destruct keys; [done|simpl; lia]|]. split; [done|by apply sorted_strong]. }
    split; [done|]. split; [constructor|]. split.
    + intros k. unfold writes. simpl. rewrite app_nil_r.
      destruct (query_leaf_spec keys msgs k Hl Hs) as [H1 H2].
      destruct (decide (k ∈ (zip keys msgs).*1)) as [Hk|Hk].
      * apply elem_of_list_fmap in Hk as ([k' m] & Hk' & Hk). simpl in Hk'. subst k'.
        rewrite (last_written_in _ k m); [by apply H1| |done]. rewrite zip_fst by done. by apply strong_NoDup.
      * rewrite last_written_out by done. apply H2. intros m Hm. apply Hk, elem_of_list_fmap. by exists (k, m).
    + intros before k m after E. by destruct before.
  - destruct (IH eq_refl) as (Hwf & Hlev & Hq & Ha).
    destruct (call_step s1 s2 l Hwf Hn) as (H1 & H2 & H3 & H4 & H5).
    split; [done|]. split; [rewrite levels_snoc; by apply H2|]. split.
    + intros k. rewrite H3, writes_snoc, app_assoc, last_written_app, <- Hq. done.
    + intros before k m after E. destruct (decide (after = [])) as [->|Hne'].
      * apply app_inj_tail in E as [<- ->]. rewrite (H5 k m eq_refl). apply Hq.
      * destruct (exists_last Hne') as (after' & x & ->).
        rewrite app_comm_cons, app_assoc in E. apply app_inj_tail in E as [-> ->]. by eapply Ha.
Qed.

(** ** What can always be done *)
Lemma valid_depth n : ∀ lo hi k h, search_tree lo hi n → within lo hi k → leaves_at h n → ∀ d,
  valid n k d ∧ match target n k d with Leaf _ _ => True | Index _ _ => False end ↔ d = h.
Proof.
  induction n as [keys msgs|pivots children IH] using node_ind'; intros lo hi k h Ht Hw Hh d.
  - inversion Hh; subst. split.
    + destruct d; [done|]. simpl. tauto.
    + intros ->. split; [split; [by eapply tree_wf|done]|done].
  - inversion Hh as [|h0 p0 c0 Hlc]; subst. inversion Ht as [|lo0 hi0 p0 c0 Hl Hs Hp Hc]; subst.
    destruct (slot_bounds pivots lo hi k Hs Hw) as [Hi Hwi].
    change (Z.to_nat (key_largest_lte pivots k + 1)) with (slot (Index pivots children) k) in *.
    destruct (lookup_lt_is_Some_2 children (slot (Index pivots children) k)) as [c Hci]; [lia|].
    pose proof (child_lookup pivots children _ c Hci) as Hch. split.
    + destruct d as [|d]; [simpl; tauto|]. cbn [valid target]. rewrite Hch. intros [[_ H1] H2].
      f_equal. apply (IH _ c Hci _ _ k h0 (Hc _ _ Hci) Hwi (Hlc _ _ Hci)). done.
    + intros ->. cbn [valid target]. rewrite Hch.
      destruct (proj2 (IH _ c Hci _ _ k h0 (Hc _ _ Hci) Hwi (Hlc _ _ Hci) h0) eq_refl) as [H1 H2].
      split; [|done]. split; [|done]. by eapply tree_wf.
Qed.
Lemma insert_depth n h k d : wf n → leaves_at h n → can_insert n k d ↔ d = h.
Proof.
  intros Hwf Hh. pose proof Hwf as Ht. apply wf_iff in Ht.
  pose proof (valid_depth n None None k h Ht (within_none k) Hh d) as Hd. unfold can_insert. tauto.
Qed.
Lemma target_S d : ∀ n k, target n k (S d) = child (target n k d) (slot (target n k d) k).
Proof. induction d as [|d IH]; intros n k; [done|]. exact (IH (child n (slot n k)) k). Qed.
Lemma valid_S_inv d : ∀ n k, valid n k (S d) → valid n k d ∧ ∃ ps cs, target n k d = Index ps cs.
Proof.
  induction d as [|d IH]; intros n k [Hwf Hv].
  - split; [done|]. destruct n; [|done]. simpl. eauto.
  - destruct n as [ps cs|]; [|done]. fold valid in Hv. destruct (IH _ _ Hv) as [H1 H2]. split; [split; [done|exact H1]|exact H2].
Qed.
Lemma split_possible n h k keys msgs :
  wf n → leaves_at (S h) n → target n k (S h) = Leaf keys msgs → 2 ≤ length keys →
  ∃ p, p ∈ keys ∧ can_split n (SplitAtKey p) h.
Proof.
  intros Hwf Hh Htar Hlen. pose proof Hwf as Ht. apply wf_iff in Ht.
  destruct (proj2 (valid_depth n None None k (S h) Ht (within_none k) Hh (S h)) eq_refl) as [Hv _].
  apply valid_S_inv in Hv as (Hv & pivots & children & Htp).
  destruct (focus_exists h None None n k Ht (within_none k) Hv) as (lo & hi & L & R & F).
  rewrite target_S, Htp in Htar. pose proof (f_tree _ _ _ _ _ _ _ _ _ F) as Htt. rewrite Htp in Htt.
  inversion Htt as [|lo0 hi0 p0 c0 Hl Hs Hp Hc]; subst.
  destruct (slot_bounds pivots lo hi k Hs (f_key _ _ _ _ _ _ _ _ _ F)) as [Hi Hwi].
  change (Z.to_nat (key_largest_lte pivots k + 1)) with (slot (Index pivots children) k) in *.
  set (i := slot (Index pivots children) k) in *.
  destruct (lookup_lt_is_Some_2 children i) as [c Hci]; [lia|].
  rewrite (child_lookup pivots children i c Hci) in Htar. subst c.
  pose proof (Hc i _ Hci) as Htc. inversion Htc as [l0 h0 k0 m0 Hne Hlk Hsk Hk|]; subst.
  destruct (lookup_lt_is_Some_2 keys 0) as [p0 Hp0]; [lia|].
  destruct (lookup_lt_is_Some_2 keys 1) as [p Hp1]; [lia|].
  pose proof (elem_of_list_lookup_2 _ _ _ Hp1) as Hpin. exists p. split; [done|].
  assert (Hwp : within lo hi p).
  { eapply tree_keys; [exact Htt|]. apply elem_all_keys. right. exists i. eexists. split; [exact Hci|].
    simpl. by apply elem_of_list_to_set. }
  destruct (f_same _ _ _ _ _ _ _ _ _ F p Hwp) as (Hvp & Htarp & _). split; [done|]. simpl get_pivot.
  split; [done|]. rewrite Htarp, Htp. split; [by eapply tree_wf|]. simpl get_pivot.
  assert (slot (Index pivots children) p = i) as ->.
  { apply (slot_unique pivots lo hi p i); [done|done|by apply Hk]. }
  rewrite (child_lookup pivots children i _ Hci). split; [done|].
  destruct (key_largest_lt_full keys p (keys_strict_sorted _ Hsk)) as (Hb & Hlt & _).
  assert (0 ≤ key_largest_lt keys p)%Z.
  { apply (Hlt 0 p0 Hp0). exact (strong_lookup keys 0 1 p0 p Hsk ltac:(lia) Hp0 Hp1). }
  assert (¬ (1 ≤ key_largest_lt keys p)%Z); [|lia]. intros H1. apply (Hlt 1 p Hp1) in H1. lia.
Qed.
