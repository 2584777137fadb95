(** Proofs for the tree of pages (C34). *)
From Verif Require Import Spec_Model Spec_Proof Betree_Model Route_Proof Branch_Model Branch_Spec Branch_Proof.
From Coq Require Import Sorting.Sorted Lia ZifyBool ZifyNat ZifyN.

Fixpoint height (n : PBranch.Node) : nat :=
  match n with
  | PBranch.Leaf _ _ => 0
  | PBranch.Index _ cs => S (foldr (λ c r, Nat.max (height c) r) 0 cs)
  end.
Lemma height_child pivots cs i c : cs !! i = Some c → height c < height (PBranch.Index pivots cs).
Proof.
  simpl. revert i. induction cs as [|x cs IH]; intros [|i] H; simpl in *; [done|done| |].
  - injection H as ->. lia.
  - specialize (IH i H). lia.
Qed.
Lemma list_choice {A B} (R : A → B → Prop) (l : list A) :
  (∀ i c, l !! i = Some c → ∃ n, R c n) →
  ∃ ns, length l = length ns ∧ ∀ i c n, l !! i = Some c → ns !! i = Some n → R c n.
Proof.
  induction l as [|x l IH]; intros H.
  - exists []. split; [done|]. intros i c n Hi. done.
  - destruct (H 0 x eq_refl) as [n Hn]. destruct IH as (ns & Hl & Hns); [intros i c Hi; by apply (H (S i))|].
    exists (n :: ns). split; [simpl; lia|]. intros [|i] c m H1 H2; simpl in *; [by simplify_eq|by eapply Hns].
Qed.

Section pages.
Context {T : Type}.
Implicit Types (dv : gmap Address (LBranch.Node T)) (b : LBranch.t T).
Notation reach dv := (rtc (names dv)).

(** ** Trees on disk *)
Lemma stores_det dv n : ∀ a n', stores dv a n → stores dv a n' → n = n'.
Proof.
  induction n as [keys msgs|pivots children IH] using node_ind'; intros a n' H1 H2.
  - inversion H1; subst. inversion H2; congruence.
  - inversion H1 as [|a0 p0 addrs aux c0 Hd Hl Hc]; subst.
    inversion H2 as [|a0 p0 addrs' aux' c0 Hd' Hl' Hc']; subst; [congruence|].
    rewrite Hd in Hd'. injection Hd' as <- <- <-. f_equal.
    apply list_eq_same_length with (length children); [lia|done|].
    intros i x y Hi Hx Hy. destruct (lookup_lt_is_Some_2 addrs i) as [c Hci]; [lia|].
    apply (IH i x Hx c); [by eapply Hc|by eapply Hc'].
Qed.
Lemma stores_entry dv a n : stores dv a n →
  ∃ m, dv !! a = Some m ∧ ¬ LBranch.is_aux m ∧ LBranch.keys_or_pivots m = PBranch.keys_or_pivots n.
Proof. intros H. inversion H; subst; eexists; (split; [eassumption|]); split; [intros []|done|intros []|done]. Qed.
Lemma stores_leaf_inv dv a keys msgs : stores dv a (PBranch.Leaf keys msgs) → dv !! a = Some (LBranch.Leaf keys msgs).
Proof. intros H. by inversion H. Qed.
Lemma stores_index_inv dv a pivots children : stores dv a (PBranch.Index pivots children) →
  ∃ addrs aux, dv !! a = Some (LBranch.Index pivots addrs aux) ∧ length addrs = length children ∧
    ∀ i c n, addrs !! i = Some c → children !! i = Some n → stores dv c n.
Proof. intros H. inversion H; subst. eauto. Qed.
Lemma reach_index dv a pivots addrs aux x : dv !! a = Some (LBranch.Index pivots addrs aux) →
  reach dv a x ↔ x = a ∨ ∃ j c, addrs !! j = Some c ∧ reach dv c x.
Proof.
  intros Hd. split.
  - intros H. apply rtc_inv in H as [->|(c & (p & ad & au & Hd' & Hin) & Hr)]; [by left|right].
    rewrite Hd in Hd'. injection Hd' as <- <- <-. apply elem_of_list_lookup in Hin as [j Hj]. eauto.
  - intros [->|(j & c & Hj & Hr)]; [done|]. eapply rtc_l; [|exact Hr]. exists pivots, addrs, aux.
    split; [done|]. by eapply elem_of_list_lookup_2.
Qed.
Lemma reach_leaf dv a keys msgs x : dv !! a = Some (LBranch.Leaf keys msgs) → reach dv a x ↔ x = a.
Proof.
  intros Hd. split; [|by intros ->]. intros H.
  apply rtc_inv in H as [->|(c & (p & ad & au & Hd' & Hin) & Hr)]; [done|congruence].
Qed.
Lemma stores_reach dv n : ∀ lo hi a x, stores dv a n → search_tree lo hi n → reach dv a x →
  ∃ nx lo' hi', stores dv x nx ∧ search_tree lo' hi' nx ∧ (∀ k, k ∈ PBranch.all_keys nx → k ∈ PBranch.all_keys n) ∧
    (x = a ∨ height nx < height n).
Proof.
  induction n as [keys msgs|pivots children IH] using node_ind'; intros lo hi a x Hs Ht Hr.
  - rewrite reach_leaf in Hr by (by apply stores_leaf_inv). subst. eexists _, lo, hi. split; [done|]. split; [done|]. by split; [|left].
  - pose proof Hs as Hs0. apply stores_index_inv in Hs as (addrs & aux & Hd & Hl & Hc).
    rewrite reach_index in Hr by done. destruct Hr as [->|(j & c & Hj & Hr)].
    + eexists _, lo, hi. split; [done|]. split; [done|]. by split; [|left].
    + destruct (lookup_lt_is_Some_2 children j) as [m Hm]; [rewrite <- Hl; by eapply lookup_lt_Some|].
      inversion Ht as [|lo0 hi0 p0 c0 Hl' Hs' Hp' Hc']; subst.
      destruct (IH j m Hm _ _ c x (Hc _ _ _ Hj Hm) (Hc' _ _ Hm) Hr) as (nx & lo' & hi' & H1 & H2 & H3 & H4).
      exists nx, lo', hi'. split; [done|]. split; [done|]. split.
      * intros k Hk. apply elem_all_keys. right. exists j, m. eauto.
      * right. pose proof (height_child pivots children j m Hm). destruct H4 as [->|H4]; [|lia].
        rewrite (stores_det _ _ _ _ H1 (Hc _ _ _ Hj Hm)). done.
Qed.
Lemma reach_entry dv n lo hi a x : stores dv a n → search_tree lo hi n → reach dv a x → is_Some (dv !! x).
Proof.
  intros H1 H2 H3. destruct (stores_reach _ _ _ _ _ _ H1 H2 H3) as (nx & _ & _ & H & _).
  apply stores_entry in H as (m & H & _). by eexists.
Qed.
Lemma stores_change dv dv' n : ∀ a, stores dv a n → (∀ x, reach dv a x → dv' !! x = dv !! x) → stores dv' a n.
Proof.
  induction n as [keys msgs|pivots children IH] using node_ind'; intros a Hs Hx.
  - constructor. rewrite Hx by done. by apply stores_leaf_inv.
  - apply stores_index_inv in Hs as (addrs & aux & Hd & Hl & Hc).
    apply (stores_index _ _ _ addrs aux); [by rewrite Hx|done|].
    intros i c n Hi Hn. apply (IH i n Hn c); [by eapply Hc|]. intros x Hr. apply Hx.
    apply (reach_index _ _ _ _ _ _ Hd). eauto.
Qed.
Lemma reach_change dv dv' a x : (∀ x, reach dv a x → dv' !! x = dv !! x) → reach dv' a x ↔ reach dv a x.
Proof.
  intros Hx. split; revert x; apply rtc_ind_r; try done; intros y z Hr Hyz IH.
  - eapply rtc_r; [exact IH|]. unfold names in *. by rewrite <- (Hx y IH).
  - eapply rtc_r; [exact IH|]. unfold names in *. by rewrite (Hx y Hr).
Qed.
Lemma children_apart dv a lo hi pivots children addrs aux i j ci cj x :
  search_tree lo hi (PBranch.Index pivots children) → stores dv a (PBranch.Index pivots children) →
  dv !! a = Some (LBranch.Index pivots addrs aux) →
  addrs !! i = Some ci → addrs !! j = Some cj → reach dv ci x → reach dv cj x → i = j.
Proof.
  intros Ht Hs Hd Hi Hj Hri Hrj. apply stores_index_inv in Hs as (addrs' & aux' & Hd' & Hl & Hc).
  rewrite Hd in Hd'. injection Hd' as <- <-. inversion Ht as [|lo0 hi0 p0 c0 Hl' Hs' Hp' Hc']; subst.
  pose proof (lookup_lt_Some _ _ _ Hi). pose proof (lookup_lt_Some _ _ _ Hj).
  destruct (lookup_lt_is_Some_2 children i) as [ni Hni]; [lia|].
  destruct (lookup_lt_is_Some_2 children j) as [nj Hnj]; [lia|].
  destruct (stores_reach _ _ _ _ _ _ (Hc _ _ _ Hi Hni) (Hc' _ _ Hni) Hri) as (nx & l1 & h1 & H1 & H2 & H3 & _).
  destruct (stores_reach _ _ _ _ _ _ (Hc _ _ _ Hj Hnj) (Hc' _ _ Hnj) Hrj) as (ny & l2 & h2 & H1' & H2' & H3' & _).
  pose proof (stores_det _ _ _ _ H1 H1') as <-. destruct (tree_nonempty _ _ _ H2) as [k Hk].
  pose proof (tree_keys _ _ _ k (Hc' _ _ Hni) (H3 k Hk)) as Hwi.
  pose proof (tree_keys _ _ _ k (Hc' _ _ Hnj) (H3' k Hk)) as Hwj.
  pose proof (slot_unique pivots lo hi k i Hs' ltac:(lia) Hwi).
  pose proof (slot_unique pivots lo hi k j Hs' ltac:(lia) Hwj). congruence.
Qed.
Lemma child_not_up dv a lo hi pivots children addrs aux i ci :
  search_tree lo hi (PBranch.Index pivots children) → stores dv a (PBranch.Index pivots children) →
  dv !! a = Some (LBranch.Index pivots addrs aux) → addrs !! i = Some ci → ¬ reach dv ci a.
Proof.
  intros Ht Hs Hd Hi Hr. pose proof Hs as Hs0. apply stores_index_inv in Hs as (addrs' & aux' & Hd' & Hl & Hc).
  rewrite Hd in Hd'. injection Hd' as <- <-. inversion Ht as [|lo0 hi0 p0 c0 Hl' Hs' Hp' Hc']; subst.
  pose proof (lookup_lt_Some _ _ _ Hi).
  destruct (lookup_lt_is_Some_2 children i) as [ni Hni]; [lia|].
  destruct (stores_reach _ _ _ _ _ _ (Hc _ _ _ Hi Hni) (Hc' _ _ Hni) Hr) as (nx & l1 & h1 & H1 & _ & _ & H4).
  pose proof (stores_det _ _ _ _ H1 Hs0) as ->. pose proof (height_child pivots children i ni Hni).
  destruct H4 as [->|H4]; [|lia]. pose proof (stores_det _ _ _ _ Hs0 (Hc _ _ _ Hi Hni)) as <-. lia.
Qed.

Lemma reach_dec dv n : ∀ a x, stores dv a n → reach dv a x ∨ ¬ reach dv a x.
Proof.
  induction n as [keys msgs|pivots children IH] using node_ind'; intros a x Hs.
  - rewrite (reach_leaf _ _ _ _ _ (stores_leaf_inv _ _ _ _ Hs)). destruct (decide (x = a)); tauto.
  - apply stores_index_inv in Hs as (addrs & aux & Hd & Hl & Hc). rewrite (reach_index _ _ _ _ _ _ Hd).
    destruct (decide (x = a)) as [->|Hne]; [tauto|].
    assert (Hall : ∀ m, (∃ j c, j < m ∧ addrs !! j = Some c ∧ reach dv c x) ∨ ¬ ∃ j c, j < m ∧ addrs !! j = Some c ∧ reach dv c x).
    { induction m as [|m IHm]; [right; intros (j & c & H & _); lia|].
      destruct IHm as [(j & c & Hj & H)|Hno]; [left; exists j, c; split; [lia|done]|].
      destruct (addrs !! m) as [c|] eqn:Hm.
      - destruct (lookup_lt_is_Some_2 children m) as [n Hn]; [rewrite <- Hl; by eapply lookup_lt_Some|].
        destruct (IH m n Hn c x (Hc _ _ _ Hm Hn)) as [H|H]; [left; exists m, c; split; [lia|done]|].
        right. intros (j & c' & Hj & Hc' & H'). destruct (decide (j = m)) as [->|]; [congruence|].
        apply Hno. exists j, c'. split; [lia|done].
      - right. intros (j & c' & Hj & Hc' & H'). destruct (decide (j = m)) as [->|]; [congruence|].
        apply Hno. exists j, c'. split; [lia|done]. }
    destruct (Hall (length addrs)) as [(j & c & _ & H)|Hno]; [left; right; by exists j, c|].
    right. intros [?|(j & c & Hj & H)]; [done|]. apply Hno. exists j, c. split; [by eapply lookup_lt_Some|done].
Qed.

(** ** Following a path *)
Lemma target_disk b k d : LBranch.disk (LBranch.target b k d) = LBranch.disk b.
Proof. revert b. induction d as [|d IH]; intros b; [done|]. simpl. by rewrite IH. Qed.
Lemma root_node_at dv a m : dv !! a = Some m → LBranch.root_node (LBranch.mk a dv) = m.
Proof. intros H. unfold LBranch.root_node. simpl. by rewrite H. Qed.
Lemma child_at dv a pivots addrs aux i c : dv !! a = Some (LBranch.Index pivots addrs aux) → addrs !! i = Some c →
  LBranch.child_at_idx (LBranch.mk a dv) i = LBranch.mk c dv.
Proof.
  intros H Hi. unfold LBranch.child_at_idx. rewrite (root_node_at _ _ _ H). simpl. by rewrite (nth_lookup_some _ _ _ c Hi).
Qed.
(** One step down the path of a key. *)
Lemma path_child dv a lo hi pivots children k :
  search_tree lo hi (PBranch.Index pivots children) → stores dv a (PBranch.Index pivots children) → within lo hi k →
  ∃ addrs aux i c n,
    dv !! a = Some (LBranch.Index pivots addrs aux) ∧ i = PBranch.slot (PBranch.Index pivots children) k ∧
    addrs !! i = Some c ∧ children !! i = Some n ∧ i ≤ length pivots ∧ length addrs = length children ∧
    stores dv c n ∧ search_tree (lower lo pivots i) (upper hi pivots i) n ∧
    within (lower lo pivots i) (upper hi pivots i) k ∧
    LBranch.child_at_idx (LBranch.mk a dv) i = LBranch.mk c dv ∧
    PBranch.child (PBranch.Index pivots children) i = n ∧
    (∀ j c n, addrs !! j = Some c → children !! j = Some n → stores dv c n).
Proof.
  intros Ht Hs Hw. pose proof Hs as Hs0. apply stores_index_inv in Hs as (addrs & aux & Hd & Hl & Hc).
  inversion Ht as [|lo0 hi0 p0 c0 Hl' Hs' Hp' Hc']; subst.
  destruct (slot_bounds pivots lo hi k Hs' Hw) as [Hi Hwi].
  change (Z.to_nat (key_largest_lte pivots k + 1)) with (PBranch.slot (PBranch.Index pivots children) k) in *.
  destruct (lookup_lt_is_Some_2 children (PBranch.slot (PBranch.Index pivots children) k)) as [n Hn]; [lia|].
  destruct (lookup_lt_is_Some_2 addrs (PBranch.slot (PBranch.Index pivots children) k)) as [c Hcc]; [lia|].
  exists addrs, aux, (PBranch.slot (PBranch.Index pivots children) k), c, n.
  split; [done|]. split; [done|]. split; [done|]. split; [done|]. split; [lia|]. split; [done|].
  split; [by eapply Hc|]. split; [by apply Hc'|]. split; [done|]. split; [by eapply child_at|].
  split; [by apply child_lookup|done].
Qed.
Lemma page_focus d dv : ∀ lo hi a n k, stores dv a n → search_tree lo hi n → within lo hi k → PBranch.valid n k d →
  ∃ a', LBranch.target (LBranch.mk a dv) k d = LBranch.mk a' dv ∧
  stores dv a' (PBranch.target n k d) ∧ reach dv a a' ∧
  ∀ dv' t', (∀ x, reach dv a x → ¬ reach dv a' x → dv' !! x = dv !! x) → stores dv' a' t' →
    stores dv' a (PBranch.substitute n k d t') ∧
    ∀ x, reach dv' a x ↔ (reach dv a x ∧ ¬ reach dv a' x) ∨ reach dv' a' x.
Proof.
  induction d as [|d IH]; intros lo hi a n k Hs Ht Hw Hv.
  - exists a. split; [done|]. split; [done|]. split; [done|]. intros dv' t' _ Ht'. split; [done|]. intros x. tauto.
  - destruct n as [pivots children|]; [|by destruct Hv].
    destruct (path_child dv a lo hi pivots children k Ht Hs Hw)
      as (addrs & aux & i & c & n & Hd & Hslot & Hci & Hni & Hip & Hl & Hsc & Htc & Hwc & Hchl & Hchp & Hc).
    cbn [PBranch.valid PBranch.target PBranch.substitute LBranch.target] in *. rewrite <- Hslot in *.
    assert (LBranch.slot (LBranch.root_node (LBranch.mk a dv)) k = i) as ->
      by (rewrite (root_node_at _ _ _ Hd), Hslot; done).
    rewrite Hchl, Hchp in *. destruct Hv as [_ Hv].
    destruct (IH _ _ c n k Hsc Htc Hwc Hv) as (a' & Htar & Hsa & Hra & Hsub).
    assert (Hup : ∀ x, reach dv c x → reach dv a x) by (intros x Hx; apply (reach_index _ _ _ _ _ _ Hd); eauto).
    exists a'. split; [done|]. split; [done|]. split; [by apply Hup|]. intros dv' t' Hsame Ht'.
    assert (Hna : ¬ reach dv a' a).
    { intros Hr. eapply (child_not_up dv a); [exact Ht|exact Hs|exact Hd|exact Hci|]. by etrans. }
    assert (Hda : dv' !! a = Some (LBranch.Index pivots addrs aux)) by (rewrite Hsame; done).
    destruct (Hsub dv' t') as [Hst Hre]; [intros x H1 H2; apply Hsame; auto|done|].
    assert (Hother : ∀ j cj, j ≠ i → addrs !! j = Some cj → ∀ x, reach dv cj x → ¬ reach dv a' x ∧ dv' !! x = dv !! x).
    { intros j cj Hj Hcj x Hx. assert (¬ reach dv a' x).
      { intros Hx'. apply Hj. eapply (children_apart dv a); [exact Ht|exact Hs|exact Hd|exact Hcj|exact Hci|exact Hx|by etrans]. }
      split; [done|]. apply Hsame; [|done]. apply (reach_index _ _ _ _ _ _ Hd). eauto. }
    split.
    + apply (stores_index _ _ _ addrs aux); [done|by rewrite insert_length|].
      intros j cj nj Hcj Hnj. destruct (decide (j = i)) as [->|Hj].
      * assert (cj = c) as -> by congruence. rewrite list_lookup_insert in Hnj by (by eapply lookup_lt_Some).
        injection Hnj as <-. done.
      * rewrite list_lookup_insert_ne in Hnj by done. apply (stores_change dv); [by eapply Hc|].
        intros x Hx. by apply (Hother j cj Hj Hcj).
    + intros x. rewrite (reach_index _ _ _ _ _ _ Hda). rewrite (reach_index _ _ _ _ _ _ Hd). split.
      * intros [->|(j & cj & Hcj & Hr)]; [left; by split; [left|]|].
        destruct (decide (j = i)) as [->|Hj].
        -- assert (cj = c) as -> by congruence. apply Hre in Hr as [[H1 H2]|H]; [|by right]. left. split; [|done]. right. eauto.
        -- rewrite (reach_change dv) in Hr by (intros y Hy; by apply (Hother j cj Hj Hcj)).
           left. split; [right; eauto|]. by apply (Hother j cj Hj Hcj).
      * intros [[[->|(j & cj & Hcj & Hr)] Hn]|H].
        -- by left.
        -- right. exists j, cj. split; [done|]. destruct (decide (j = i)) as [->|Hj].
           ++ assert (cj = c) as -> by congruence. apply Hre. by left.
           ++ by rewrite (reach_change dv) by (intros y Hy; by apply (Hother j cj Hj Hcj)).
        -- right. exists i, c. split; [done|]. apply Hre. by right.
Qed.
Lemma valid_iff d dv : ∀ lo hi a n k, LBranch.disk_wf dv → stores dv a n → search_tree lo hi n → within lo hi k →
  LBranch.valid (LBranch.mk a dv) k d ↔ PBranch.valid n k d.
Proof.
  induction d as [|d IH]; intros lo hi a n k Hwf Hs Ht Hw;
    (assert (LBranch.wf (LBranch.mk a dv)) as Hwfa
      by (split; [done|]; destruct (stores_entry _ _ _ Hs) as (m & H1 & H2 & _); by exists m));
    pose proof (tree_wf _ _ _ Ht).
  - cbn. tauto.
  - cbn [LBranch.valid PBranch.valid]. destruct n as [pivots children|keys msgs].
    + destruct (path_child dv a lo hi pivots children k Ht Hs Hw)
        as (addrs & aux & i & c & n & Hd & Hslot & Hci & Hni & Hip & Hl & Hsc & Htc & Hwc & Hchl & Hchp & Hc).
      rewrite (root_node_at _ _ _ Hd).
      change (LBranch.slot (LBranch.Index pivots addrs aux) k) with (PBranch.slot (PBranch.Index pivots children) k).
      rewrite <- Hslot, Hchl, Hchp. rewrite (IH _ _ c n k Hwf Hsc Htc Hwc). tauto.
    + rewrite (root_node_at _ _ _ (stores_leaf_inv _ _ _ _ Hs)). tauto.
Qed.
Lemma path_equiv_iff d dv : ∀ lo hi a n k y, stores dv a n → search_tree lo hi n → within lo hi k → PBranch.valid n k d →
  LBranch.path_equiv (LBranch.mk a dv) k y d ↔ PBranch.path_equiv n k y d.
Proof.
  induction d as [|d IH]; intros lo hi a n k y Hs Ht Hw Hv; cbn [LBranch.path_equiv PBranch.path_equiv];
    destruct (stores_entry _ _ _ Hs) as (m & Hm & _ & Hkm); rewrite (root_node_at _ _ _ Hm);
    unfold LBranch.route, PBranch.route; rewrite Hkm; [done|].
  destruct n as [pivots children|]; [|by destruct Hv].
  destruct (path_child dv a lo hi pivots children k Ht Hs Hw)
    as (addrs & aux & i & c & n & Hd & Hslot & Hci & Hni & Hip & Hl & Hsc & Htc & Hwc & Hchl & Hchp & Hc).
  rewrite Hm in Hd. injection Hd as ->.
  change (LBranch.slot (LBranch.Index pivots addrs aux) k) with (PBranch.slot (PBranch.Index pivots children) k).
  cbn [PBranch.valid] in Hv. rewrite <- Hslot, Hchl, Hchp in *. by rewrite (IH _ _ c n k y Hsc Htc Hwc (proj2 Hv)).
Qed.

(** ** The invariant of the code *)
Fixpoint rk (fuel : nat) dv (a : Address) : option nat :=
  match fuel with
  | O => None
  | S f => match dv !! a with
           | Some n => match mapM (rk f dv) (LBranch.children n) with Some l => Some (S (max_list l)) | None => None end
           | None => None
           end
  end.
Lemma mapM_mono {A B} (f g : A → option B) l r : (∀ x y, f x = Some y → g x = Some y) → mapM f l = Some r → mapM g l = Some r.
Proof.
  intros H Hm. apply mapM_Some in Hm. apply mapM_Some. eapply Forall2_impl; [exact Hm|]. done.
Qed.
Lemma rk_mono f dv : ∀ a v, rk f dv a = Some v → rk (S f) dv a = Some v.
Proof.
  induction f as [|f IH]; intros a v Hv; [done|]. cbn [rk] in Hv. change (rk (S (S f)) dv a) with
    (match dv !! a with
           | Some n => match mapM (rk (S f) dv) (LBranch.children n) with Some l => Some (S (max_list l)) | None => None end
           | None => None
           end).
  destruct (dv !! a) as [n|]; [|done]. destruct (mapM (rk f dv) (LBranch.children n)) as [l|] eqn:E; [|done].
  by rewrite (mapM_mono _ _ _ _ IH E).
Qed.
Lemma rk_le f g dv a v : f ≤ g → rk f dv a = Some v → rk g dv a = Some v.
Proof. induction 1 as [|g Hle IH]; [done|]. intros H. by apply rk_mono, IH. Qed.
Lemma rk_stores dv n : ∀ a, stores dv a n → is_Some (rk (S (height n)) dv a).
Proof.
  induction n as [keys msgs|pivots children IH] using node_ind'; intros a Hs.
  - apply stores_leaf_inv in Hs. simpl. rewrite Hs. simpl. by eexists.
  - apply stores_index_inv in Hs as (addrs & aux & Hd & Hl & Hc).
    change (is_Some (match dv !! a with
           | Some n => match mapM (rk (height (PBranch.Index pivots children)) dv) (LBranch.children n) with Some l => Some (S (max_list l)) | None => None end
           | None => None
           end)).
    rewrite Hd. cbn [LBranch.children].
    assert (is_Some (mapM (rk (height (PBranch.Index pivots children)) dv) addrs)) as [l ->]; [|by eexists].
    apply mapM_is_Some, Forall_lookup. intros i c Hi.
    destruct (lookup_lt_is_Some_2 children i) as [n Hn]; [rewrite <- Hl; by eapply lookup_lt_Some|].
    destruct (IH i n Hn c (Hc _ _ _ Hi Hn)) as [v Hv]. exists v. eapply rk_le; [|exact Hv].
    by eapply height_child.
Qed.
Lemma max_list_in v l : v ∈ l → v ≤ max_list l.
Proof. intros H. by apply max_list_elem_of_le. Qed.
Lemma stores_acyclic dv a n : stores dv a n → ∃ r, LBranch.valid_ranking (LBranch.mk a dv) r.
Proof.
  intros Hs. pose proof (rk_stores dv n a Hs) as [v Hv]. set (H := S (height n)) in *.
  exists (map_imap (λ x _, rk H dv x) dv). split; simpl.
  - intros x m rx Hx Hm i c Hc. rewrite map_lookup_imap in Hx.
    rewrite Hm in Hx. cbn [mbind option_bind] in Hx.
    destruct (mapM (rk (height n) dv) (LBranch.children m)) as [l|] eqn:E; [|done]. injection Hx as <-.
    apply mapM_Some in E. destruct (Forall2_lookup_l _ _ _ _ _ E Hc) as (rc & Hrc & Hr).
    exists rc. split; [|pose proof (max_list_in rc l (elem_of_list_lookup_2 _ _ _ Hrc)); lia].
    rewrite map_lookup_imap. pose proof (rk_mono _ _ _ _ Hr) as Hr'. fold H in Hr'.
    assert (is_Some (dv !! c)) as [mc Hmc].
    { destruct (height n); [done|]. cbn [rk] in Hr. destruct (dv !! c); [by eexists|done]. }
    unfold H in Hr'. cbn [rk] in Hr'. rewrite Hmc in Hr' |- *. exact Hr'.
  - rewrite map_lookup_imap. destruct (stores_entry _ _ _ Hs) as (m & Hm & _). unfold H in Hv. cbn [rk] in Hv.
    rewrite Hm in Hv |- *. exists v. exact Hv.
Qed.
Lemma reachable_reach dv a x : LBranch.reachable dv a x → reach dv a x.
Proof.
  intros H. induction H as [y m Hy Hm|y m i c z Hy Hc Hz IH]; [done|].
  destruct m as [ks ms|p cs aux|]; [done| |done]. simpl in Hc. apply (reach_index _ _ _ _ _ _ Hy). eauto.
Qed.
Lemma reach_reachable dv n : ∀ a x, stores dv a n → reach dv a x → LBranch.reachable dv a x.
Proof.
  induction n as [keys msgs|pivots children IH] using node_ind'; intros a x Hs Hr.
  - pose proof (stores_leaf_inv _ _ _ _ Hs) as Hd. rewrite (reach_leaf _ _ _ _ _ Hd) in Hr. subst x.
    eapply LBranch.reach_here; [exact Hd|by intros []].
  - apply stores_index_inv in Hs as (addrs & aux & Hd & Hl & Hc). rewrite (reach_index _ _ _ _ _ _ Hd) in Hr.
    destruct Hr as [->|(j & c & Hj & Hr)]; [eapply LBranch.reach_here; [exact Hd|by intros []]|].
    destruct (lookup_lt_is_Some_2 children j) as [n Hn]; [rewrite <- Hl; by eapply lookup_lt_Some|].
    eapply LBranch.reach_child; [exact Hd|exact Hj|]. eapply (IH j n Hn); [by eapply Hc|done].
Qed.
Lemma keys_iff dv n : ∀ a k, stores dv a n → LBranch.in_all_keys dv a k ↔ k ∈ PBranch.all_keys n.
Proof.
  induction n as [keys msgs|pivots children IH] using node_ind'; intros a k Hs.
  - pose proof (stores_leaf_inv _ _ _ _ Hs) as Hd. simpl. rewrite elem_of_list_to_set. split.
    + intros (x & m & Hr%reachable_reach & Hm & Hk). rewrite (reach_leaf _ _ _ _ _ Hd) in Hr. subst x.
      rewrite Hd in Hm. by injection Hm as <-.
    + intros Hk. exists a, (LBranch.Leaf keys msgs). split; [eapply LBranch.reach_here; [exact Hd|by intros []]|done].
  - pose proof Hs as Hs0. apply stores_index_inv in Hs as (addrs & aux & Hd & Hl & Hc). rewrite elem_all_keys. split.
    + intros (x & m & Hr%reachable_reach & Hm & Hk). rewrite (reach_index _ _ _ _ _ _ Hd) in Hr.
      destruct Hr as [->|(j & c & Hj & Hr)]; [rewrite Hd in Hm; injection Hm as <-; by left|right].
      destruct (lookup_lt_is_Some_2 children j) as [n Hn]; [rewrite <- Hl; by eapply lookup_lt_Some|].
      exists j, n. split; [done|]. apply (IH j n Hn c k (Hc _ _ _ Hj Hn)). exists x, m.
      split; [eapply reach_reachable; [by eapply Hc|done]|done].
    + intros [Hk|(j & n & Hn & Hk)].
      * exists a, (LBranch.Index pivots addrs aux). split; [eapply LBranch.reach_here; [exact Hd|by intros []]|done].
      * destruct (lookup_lt_is_Some_2 addrs j) as [c Hj]; [rewrite Hl; by eapply lookup_lt_Some|].
        destruct (proj2 (IH j n Hn c k (Hc _ _ _ Hj Hn)) Hk) as (x & m & Hr & Hm & Hk'). exists x, m.
        split; [|done]. eapply LBranch.reach_child; [exact Hd|exact Hj|done].
Qed.
(** What the invariant says: the pages under the root spell out a search tree. *)
Definition holds b (n : PBranch.Node) : Prop :=
  LBranch.disk_wf (LBranch.disk b) ∧ stores (LBranch.disk b) (LBranch.root b) n ∧ PBranch.wf n.
Lemma ranking_stores dv r : LBranch.disk_wf dv → LBranch.disk_valid_ranking dv r →
  ∀ x a m, r !! a = Some x → dv !! a = Some m → ¬ LBranch.is_aux m → ∃ n, stores dv a n.
Proof.
  intros [Hwf1 Hwf2] Hr x. induction (lt_wf x) as [x _ IH]. intros a m Ha Hm Hna.
  destruct m as [keys msgs|pivots cs aux|]; [by eexists; apply stores_leaf| |by destruct Hna].
  destruct (list_choice (stores dv) cs) as (ns & Hl & Hns).
  { intros i c Hi. destruct (Hr _ _ _ Ha Hm i c Hi) as (rc & Hrc & Hlt).
    destruct (Hwf2 _ _ _ _ Hm Hi) as (mc & Hmc & Hmc'). by eapply IH. }
  eexists. by eapply stores_index.
Qed.
Lemma stores_wf dv n : ∀ a, LBranch.disk_wf dv → stores dv a n →
  LBranch.keys_strictly_sorted_internal (LBranch.mk a dv) → LBranch.all_keys_in_range_internal (LBranch.mk a dv) → PBranch.wf n.
Proof.
  unfold LBranch.keys_strictly_sorted_internal, LBranch.all_keys_in_range_internal. cbn [LBranch.disk LBranch.root].
  induction n as [keys msgs|pivots children IH] using node_ind'; intros a Hwf Hs Hsort Hrange.
  - pose proof (stores_leaf_inv _ _ _ _ Hs) as Hd. destruct (proj1 Hwf _ _ Hd) as [H1 H2].
    split; [done|]. split; [done|]. apply (Hsort a _) in Hd; [done|]. eapply LBranch.reach_here; [exact Hd|by intros []].
  - apply stores_index_inv in Hs as (addrs & aux & Hd & Hl & Hc).
    assert (Hhere : LBranch.reachable dv a a) by (eapply LBranch.reach_here; [exact Hd|by intros []]).
    pose proof (proj1 Hwf _ _ Hd) as H1. simpl in H1. destruct (Hrange _ _ _ _ Hhere Hd) as [Hb1 Hb2].
    split; [congruence|]. split; [by apply (Hsort a _ Hhere Hd)|]. split; [|split].
    + apply foldr_wf_iff. intros i n Hn.
      destruct (lookup_lt_is_Some_2 addrs i) as [c Hi]; [rewrite Hl; by eapply lookup_lt_Some|].
      apply (IH i n Hn c Hwf (Hc _ _ _ Hi Hn)).
      * intros x m Hx. apply Hsort. eapply LBranch.reach_child; [exact Hd|exact Hi|done].
      * intros x p cs au Hx. apply Hrange. eapply LBranch.reach_child; [exact Hd|exact Hi|done].
    + intros i Hi n p k Hn Hp Hk.
      destruct (lookup_lt_is_Some_2 addrs i) as [c Hci]; [rewrite Hl; by eapply lookup_lt_Some|].
      eapply (Hb1 i c); [lia|done|done|]. by apply (keys_iff _ _ _ _ (Hc _ _ _ Hci Hn)).
    + intros i Hi n p k Hn Hp Hk.
      destruct (lookup_lt_is_Some_2 addrs i) as [c Hci]; [rewrite Hl; by eapply lookup_lt_Some|].
      eapply (Hb2 i c); [lia|done|done|]. by apply (keys_iff _ _ _ _ (Hc _ _ _ Hci Hn)).
Qed.
Lemma inv_iff b : LBranch.inv b ↔ ∃ n, holds b n.
Proof.
  destruct b as [a dv]. split.
  - intros (((Hwf & (m & Hm & Hna)) & (r & Hr & [x Hx])) & Hsort & Hrange). cbn in *.
    destruct (ranking_stores dv r Hwf Hr x a m Hx Hm Hna) as [n Hn]. exists n. split; [done|]. split; [done|].
    by eapply stores_wf.
  - intros (n & Hwf & Hs & Hn). cbn in *. pose proof Hn as Ht. apply wf_iff in Ht. split; [|split].
    + split; [split; [done|]|by eapply stores_acyclic].
      destruct (stores_entry _ _ _ Hs) as (m & Hm & Hna & _). by exists m.
    + intros x m Hx%reachable_reach Hm. cbn in *.
      destruct (stores_reach _ _ _ _ _ _ Hs Ht Hx) as (nx & lo & hi & H1 & H2 & _).
      destruct (stores_entry _ _ _ H1) as (m' & Hm' & _ & Hk). assert (m' = m) as -> by congruence. rewrite Hk.
      inversion H2; subst; by apply sorted_strong.
    + intros x p cs aux Hx%reachable_reach Hm. cbn in *.
      destruct (stores_reach _ _ _ _ _ _ Hs Ht Hx) as (nx & lo & hi & H1 & H2 & _).
      inversion H1 as [|? ? addrs aux' children Hd Hl Hc]; subst; [congruence|]. rewrite Hm in Hd. injection Hd as <- <- <-.
      apply tree_wf in H2. destruct H2 as (_ & _ & _ & Hb1 & Hb2). split.
      * intros i c q k Hi Hci Hq Hk. destruct (lookup_lt_is_Some_2 children i) as [n' Hn']; [rewrite <- Hl; by eapply lookup_lt_Some|].
        eapply (Hb1 i); [lia|exact Hn'|exact Hq|]. by apply (keys_iff _ _ _ _ (Hc _ _ _ Hci Hn')).
      * intros i c q k Hi Hci Hq Hk. destruct (lookup_lt_is_Some_2 children i) as [n' Hn']; [rewrite <- Hl; by eapply lookup_lt_Some|].
        eapply (Hb2 i); [lia|exact Hn'|exact Hq|]. by apply (keys_iff _ _ _ _ (Hc _ _ _ Hci Hn')).
Qed.
Lemma holds_no_cycle b n : holds b n → no_cycle b.
Proof.
  intros (_ & Hs & Hn) a Ha Hc. apply wf_iff in Hn.
  destruct (stores_reach _ _ _ _ _ _ Hs Hn Ha) as (nx & lo & hi & H1 & H2 & _).
  apply tc_rtc_l in Hc || idtac.
  assert (∃ c, names (LBranch.disk b) a c ∧ rtc (names (LBranch.disk b)) c a) as (c & (p & ad & au & Hd & Hin) & Hr).
  { inversion Hc as [|? y ? Hy Hyz]; subst; [by exists a|]. exists y. split; [done|]. by apply tc_rtc. }
  inversion H1 as [|? ? addrs aux' children Hd' Hl Hcc]; subst; [congruence|]. rewrite Hd in Hd'. injection Hd' as <- <- <-.
  apply elem_of_list_lookup in Hin as [i Hi]. by eapply child_not_up.
Qed.
Lemma tight_iff b n : holds b n → tight b ↔ LBranch.tight_disk_view b.
Proof.
  intros Hh. assert (Ha : LBranch.acyclic b) by (apply inv_iff; by exists n). destruct Hh as (_ & Hs & Hn).
  unfold tight, LBranch.tight_disk_view. split.
  - intros H _ a. rewrite H. split; [apply reachable_reach|by eapply reach_reachable].
  - intros H a. rewrite <- (H Ha a). split; [apply reachable_reach|by eapply reach_reachable].
Qed.

(** ** Queries *)
Lemma query_fuel dv r n : LBranch.disk_valid_ranking dv r → ∀ lo hi a k x f, stores dv a n → search_tree lo hi n → within lo hi k →
  r !! a = Some x → x < f → LBranch.query_internal f dv a k = PBranch.query n k.
Proof.
  intros Hr. induction n as [keys msgs|pivots children IH] using node_ind'; intros lo hi a k x f Hs Ht Hw Hx Hf;
    (destruct f as [|f]; [lia|]); cbn [LBranch.query_internal].
  - by rewrite (stores_leaf_inv _ _ _ _ Hs).
  - destruct (path_child dv a lo hi pivots children k Ht Hs Hw)
      as (addrs & aux & i & c & n & Hd & Hslot & Hci & Hni & Hip & Hl & Hsc & Htc & Hwc & Hchl & Hchp & Hc).
    rewrite Hd. cbn [PBranch.query].
    change (Z.to_nat (key_largest_lte pivots k + 1)) with (PBranch.slot (PBranch.Index pivots children) k).
    rewrite <- Hslot, (nth_lookup_some addrs i a c Hci).
    rewrite (nth_lookup_some (map (λ c, PBranch.query c k) children) i _ (PBranch.query n k)).
    2: { change (map (λ c, PBranch.query c k) children) with ((λ c, PBranch.query c k) <$> children).
         by rewrite list_lookup_fmap, Hni. }
    destruct (Hr _ _ _ Hx Hd i c Hci) as (rc & Hrc & Hlt).
    by eapply (IH i n Hni _ _ c k rc f); [..|lia].
Qed.
Lemma query_iff b n k m : holds b n → LBranch.query b k m ↔ m = PBranch.query n k.
Proof.
  intros Hh. assert (Ha : LBranch.acyclic b) by (apply inv_iff; by exists n). destruct Hh as (Hwf & Hs & Hn).
  apply wf_iff in Hn. unfold LBranch.query. split.
  - intros [(r & x & _ & [Hr _] & Hx & ->)|[H _]]; [|done].
    eapply query_fuel; [exact Hr|exact Hs|exact Hn|apply within_none|exact Hx|lia].
  - intros ->. left. pose proof Ha as [_ (r & Hr & [x Hx])]. exists r, x. split; [done|]. split; [by split; [|eexists]|].
    split; [done|]. symmetry. eapply query_fuel; [exact Hr|exact Hs|exact Hn|apply within_none|exact Hx|lia].
Qed.

(** ** Replacing a leaf *)
Lemma focus_at b n k d : holds b n → PBranch.valid n k d →
  ∃ a', LBranch.target b k d = LBranch.mk a' (LBranch.disk b) ∧
  stores (LBranch.disk b) a' (PBranch.target n k d) ∧ reach (LBranch.disk b) (LBranch.root b) a' ∧
  ∀ dv' t', (∀ x, reach (LBranch.disk b) (LBranch.root b) x → ¬ reach (LBranch.disk b) a' x → dv' !! x = LBranch.disk b !! x) →
    stores dv' a' t' →
    stores dv' (LBranch.root b) (PBranch.substitute n k d t') ∧
    ∀ x, reach dv' (LBranch.root b) x ↔ (reach (LBranch.disk b) (LBranch.root b) x ∧ ¬ reach (LBranch.disk b) a' x) ∨ reach dv' a' x.
Proof.
  intros (Hwf & Hs & Hn) Hv. apply wf_iff in Hn. destruct b as [a dv].
  exact (page_focus d dv None None a n k Hs Hn (within_none k) Hv).
Qed.
Lemma valid_at b n k d : holds b n → LBranch.valid b k d ↔ PBranch.valid n k d.
Proof.
  intros (Hwf & Hs & Hn). apply wf_iff in Hn. destruct b as [a dv].
  exact (valid_iff d dv None None a n k Hwf Hs Hn (within_none k)).
Qed.
Lemma path_equiv_at b n k y d : holds b n → PBranch.valid n k d → LBranch.path_equiv b k y d ↔ PBranch.path_equiv n k y d.
Proof.
  intros (Hwf & Hs & Hn) Hv. apply wf_iff in Hn. destruct b as [a dv].
  exact (path_equiv_iff d dv None None a n k y Hs Hn (within_none k) Hv).
Qed.
(** The kind of page a path leads to. *)
Lemma target_at b n k d : holds b n → PBranch.valid n k d →
  ∃ a' m, LBranch.target b k d = LBranch.mk a' (LBranch.disk b) ∧ LBranch.disk b !! a' = Some m ∧
    LBranch.root_node (LBranch.target b k d) = m ∧
    match PBranch.target n k d with
    | PBranch.Leaf keys msgs => m = LBranch.Leaf keys msgs
    | PBranch.Index pivots _ => ∃ addrs aux, m = LBranch.Index pivots addrs aux
    end.
Proof.
  intros Hh Hv. destruct (focus_at b n k d Hh Hv) as (a' & Ht & Hs & _).
  destruct (PBranch.target n k d).
  - apply stores_index_inv in Hs as (addrs & aux & Hd & _). exists a', (LBranch.Index pivots addrs aux).
    split; [done|]. split; [done|]. split; [by rewrite Ht, (root_node_at _ _ _ Hd)|]. by eexists _, _.
  - apply stores_leaf_inv in Hs. exists a', (LBranch.Leaf keys msgs).
    split; [done|]. split; [done|]. by rewrite Ht, (root_node_at _ _ _ Hs).
Qed.
Lemma replace_leaf b n k d a' keys msgs keys' msgs' :
  holds b n → PBranch.valid n k d → LBranch.target b k d = LBranch.mk a' (LBranch.disk b) →
  PBranch.target n k d = PBranch.Leaf keys msgs → 0 < length keys' → length keys' = length msgs' →
  PBranch.wf (PBranch.substitute n k d (PBranch.Leaf keys' msgs')) →
  let b' := LBranch.mk (LBranch.root b) (<[a' := LBranch.Leaf keys' msgs']> (LBranch.disk b)) in
  holds b' (PBranch.substitute n k d (PBranch.Leaf keys' msgs')) ∧ (tight b → tight b').
Proof.
  intros Hh Hv Ht Htp Hk Hl Hwf' b'. destruct (focus_at b n k d Hh Hv) as (a0 & Ht0 & Hs & Hr & Hsub).
  assert (a0 = a') as -> by congruence. rewrite Htp in Hs. apply stores_leaf_inv in Hs.
  set (dv := LBranch.disk b) in *. set (dv' := <[a' := LBranch.Leaf keys' msgs']> dv) in *.
  assert (Ha' : dv' !! a' = Some (LBranch.Leaf keys' msgs')) by apply lookup_insert.
  destruct (Hsub dv' (PBranch.Leaf keys' msgs')) as [Hst Hre].
  { intros x _ Hx. unfold dv'. rewrite lookup_insert_ne; [done|]. intros ->. by apply Hx. }
  { by constructor. }
  destruct Hh as ([Hw1 Hw2] & Hstn & Hn). split; [split; [split|split]|].
  - intros x m Hm. cbn [b' LBranch.disk] in Hm. unfold dv' in Hm.
    apply lookup_insert_Some in Hm as [[<- <-]|[Hne Hm]]; [done|by eapply Hw1].
  - intros x m i c Hm Hc. cbn [b' LBranch.disk] in *. unfold dv' in Hm.
    apply lookup_insert_Some in Hm as [[<- <-]|[Hne Hm]]; [done|].
    destruct (Hw2 x m i c Hm Hc) as (mc & Hmc & Hna). destruct (decide (c = a')) as [->|].
    + exists (LBranch.Leaf keys' msgs'). split; [done|by intros []].
    + exists mc. split; [|done]. unfold dv'. by rewrite lookup_insert_ne.
  - done.
  - done.
  - intros Htight x. cbn [b' LBranch.disk LBranch.root]. rewrite Hre, (reach_leaf _ _ _ _ _ Ha'), (reach_leaf _ _ _ _ _ Hs).
    specialize (Htight x). fold dv in Htight. unfold dv'. destruct (decide (x = a')) as [->|Hne].
    + rewrite lookup_insert. split; [by right|by eexists].
    + rewrite lookup_insert_ne by done. rewrite Htight. tauto.
Qed.

(** ** Insert and append *)
Lemma can_insert_iff b n k d : holds b n → LBranch.can_insert b k d ↔ PBranch.can_insert n k d.
Proof.
  intros Hh. unfold LBranch.can_insert, PBranch.can_insert. rewrite (valid_at b n k d Hh).
  pose proof Hh as (_ & _ & Hwf). split.
  - intros [Hv Hl]. destruct (target_at b n k d Hh Hv) as (a' & m & _ & _ & Hm & Hk). rewrite Hm in Hl.
    split; [done|]. split; [done|]. destruct (PBranch.target n k d); [|done]. destruct Hk as (ad & au & ->). done.
  - intros (_ & Hv & Hl). split; [done|]. destruct (target_at b n k d Hh Hv) as (a' & m & _ & _ & Hm & Hk). rewrite Hm.
    destruct (PBranch.target n k d); [done|]. by rewrite Hk in *.
Qed.
Lemma insert_pages b n k m d : holds b n → PBranch.can_insert n k d →
  holds (LBranch.insert b k m d) (PBranch.insert n k m d) ∧ (tight b → tight (LBranch.insert b k m d)).
Proof.
  intros Hh Hcan. pose proof (insert_step n k m d Hcan) as (Hwf' & _). destruct Hcan as (_ & Hv & Hl).
  destruct (target_at b n k d Hh Hv) as (a' & nd & Ht & Hd & Hm & Hk).
  unfold LBranch.insert, LBranch.insert_leaf, LBranch.substitute, PBranch.insert in *. rewrite Hm, Ht.
  cbn [LBranch.root LBranch.disk]. unfold LBranch.modify_disk.
  destruct (PBranch.target n k d) as [|keys msgs] eqn:Htp; [done|]. rewrite Hk in Hd |- *. cbn [LBranch.keys_or_pivots].
  cbn [PBranch.insert_leaf PBranch.route PBranch.keys_or_pivots] in *.
  destruct (focus_at b n k d Hh Hv) as (a0 & _ & _ & _ & _).
  unfold PBranch.route in *. cbn [PBranch.keys_or_pivots] in *.
  assert (Hwl : 0 < length keys ∧ length keys = length msgs) by exact (proj1 (proj1 Hh) _ _ Hd).
  destruct (decide _) as [Hin|Hout]; cbn [LBranch.root LBranch.disk].
  - eapply replace_leaf; [done|done|done|done|lia|rewrite insert_length; lia|done].
  - assert (length (seq_insert keys (Z.to_nat (key_largest_lte keys k + 1)) k) = S (length keys) ∧
            length (seq_insert msgs (Z.to_nat (key_largest_lte keys k + 1)) m) = S (length msgs)) as [E1 E2].
    { pose proof Hh as (_ & _ & Hn). apply wf_iff in Hn.
      destruct (focus_exists d None None n k Hn (within_none k) Hv) as (lo & hi & L & R & F).
      pose proof (f_tree _ _ _ _ _ _ _ _ _ F) as Htt. rewrite Htp in Htt. inversion Htt as [? ? ? ? Hne Hlk Hsk Hkk|]; subst.
      destruct (slot_bounds keys None None k Hsk (within_none k)) as [Hb _].
      split; apply seq_insert_length; lia. }
    eapply replace_leaf; [done|done|done|done|lia|lia|done].
Qed.
Lemma can_append_iff b n ks ms d : holds b n → LBranch.can_append b ks ms d ↔ PBranch.can_append n ks ms d.
Proof.
  intros Hh. unfold LBranch.can_append, PBranch.can_append. destruct ks as [|first ks]; [done|].
  destruct (stdpp.list.last (first :: ks)) as [final|]; [|done]. rewrite (valid_at b n first d Hh). split.
  - intros (Hv & H1 & H2 & H3 & H4). split; [done|]. split; [done|]. split; [done|].
    rewrite (path_equiv_at b n first final d Hh Hv) in H4. split; [|done].
    destruct (target_at b n first d Hh Hv) as (a' & m & _ & _ & Hm & Hk). rewrite Hm in H3.
    destruct (PBranch.target n first d); [destruct Hk as (ad & au & ->); done|by rewrite Hk in *].
  - intros (Hv & H1 & H2 & H3 & H4). split; [done|]. split; [done|]. split; [done|].
    rewrite (path_equiv_at b n first final d Hh Hv). split; [|done].
    destruct (target_at b n first d Hh Hv) as (a' & m & _ & _ & Hm & Hk). rewrite Hm.
    destruct (PBranch.target n first d); [done|by rewrite Hk in *].
Qed.
Lemma append_pages b n ks ms d : holds b n → PBranch.can_append n ks ms d →
  holds (LBranch.append b ks ms d) (PBranch.append n ks ms d) ∧ (tight b → tight (LBranch.append b ks ms d)).
Proof.
  intros Hh Hcan. pose proof Hh as (_ & _ & Hn). pose proof (append_step n ks ms d Hn Hcan) as (Hwf' & _).
  unfold PBranch.can_append in Hcan. destruct ks as [|first ks]; [done|].
  destruct (stdpp.list.last (first :: ks)) as [final|]; [|done]. destruct Hcan as (Hv & Hl & _ & Htl & _).
  destruct (target_at b n first d Hh Hv) as (a' & nd & Ht & Hd & Hm & Hk).
  unfold LBranch.append, LBranch.append_leaf, LBranch.substitute, PBranch.append in *. rewrite Hm, Ht.
  cbn [LBranch.root LBranch.disk]. unfold LBranch.modify_disk.
  destruct (PBranch.target n first d) as [|keys msgs] eqn:Htp; [done|]. rewrite Hk in Hd |- *. cbn [LBranch.keys_or_pivots PBranch.append_leaf] in *.
  assert (Hwl : 0 < length keys ∧ length keys = length msgs) by exact (proj1 (proj1 Hh) _ _ Hd).
  eapply replace_leaf; [done|done|done|done|rewrite app_length; lia|rewrite !app_length; lia|done].
Qed.

(** ** Grow *)
Lemma grow_pages b n a : holds b n → LBranch.disk b !! a = None →
  holds (LBranch.grow b a) (PBranch.grow n) ∧ (tight b → tight (LBranch.grow b a)).
Proof.
  intros ([Hw1 Hw2] & Hs & Hn) Hfresh. pose proof (grow_step n Hn) as (Hwf' & _).
  unfold LBranch.grow, LBranch.modify_disk. set (dv := LBranch.disk b) in *.
  set (dv' := <[a := LBranch.Index [] [LBranch.root b] None]> dv).
  assert (Ha : dv' !! a = Some (LBranch.Index [] [LBranch.root b] None)) by apply lookup_insert.
  assert (Hold : ∀ x, is_Some (dv !! x) → dv' !! x = dv !! x).
  { intros x [m Hm]. unfold dv'. rewrite lookup_insert_ne; [done|]. intros ->. congruence. }
  pose proof Hn as Ht. apply wf_iff in Ht.
  assert (Hsame : ∀ x, reach dv (LBranch.root b) x → dv' !! x = dv !! x) by (intros x Hx; by eapply Hold, reach_entry).
  split; [split; [split|split]|].
  - intros x m Hm. cbn [LBranch.disk] in Hm. unfold dv' in Hm.
    apply lookup_insert_Some in Hm as [[<- <-]|[Hne Hm]]; [done|by eapply Hw1].
  - intros x m i c Hm Hc. cbn [LBranch.disk] in *. unfold dv' in Hm.
    apply lookup_insert_Some in Hm as [[<- <-]|[Hne Hm]].
    + destruct i as [|i]; [|done]. injection Hc as <-. destruct (stores_entry _ _ _ Hs) as (m & Hm & Hna & _).
      exists m. split; [|done]. fold dv in Hm. rewrite Hold; [done|by eexists].
    + destruct (Hw2 x m i c Hm Hc) as (mc & Hmc & Hna). exists mc. split; [|done]. rewrite Hold; [done|by eexists].
  - cbn [LBranch.disk LBranch.root]. apply (stores_index _ _ _ [LBranch.root b] None); [done|done|].
    intros [|i] c m Hc Hm; [|done]. injection Hc as <-. injection Hm as <-. by eapply stores_change.
  - done.
  - intros Htight x. cbn [LBranch.disk LBranch.root]. rewrite (reach_index _ _ _ _ _ _ Ha).
    specialize (Htight x). fold dv in Htight. unfold dv' at 1. destruct (decide (x = a)) as [->|Hne].
    + rewrite lookup_insert. split; [by left|by eexists].
    + rewrite lookup_insert_ne by done. rewrite Htight. split.
      * intros Hx. right. exists 0, (LBranch.root b). split; [done|]. by apply (reach_change dv).
      * intros [->|([|j] & c & Hc & Hx)]; [done| |done]. injection Hc as <-. by apply (reach_change dv) in Hx.
Qed.

(** ** Split *)
(** The two halves of a page. *)
Lemma split_halves dv c n lo hi s a dv' :
  stores dv c n → search_tree lo hi n → PBranch.split_wf s n → dv !! a = None →
  (∀ x, x ≠ c → reach dv c x → dv' !! x = dv !! x) →
  let ds := LBranch.split_node (LBranch.mk c dv) s a in
  dv' !! c = ds !! c → dv' !! a = ds !! a →
  (∃ l r, ds = <[a := r]> (<[c := l]> dv) ∧ ¬ LBranch.is_aux l ∧ ¬ LBranch.is_aux r ∧ LBranch.node_wf l ∧ LBranch.node_wf r ∧
     (∀ x, x ∈ LBranch.children l ∨ x ∈ LBranch.children r → names dv c x)) ∧
  stores dv' c (PBranch.split_node n s).1 ∧ stores dv' a (PBranch.split_node n s).2 ∧
  ∀ x, reach dv' c x ∨ reach dv' a x ↔ reach dv c x ∨ x = a.
Proof.
  intros Hs Ht Hwf Ha Hsame ds Hc Haa.
  assert (Hca : c ≠ a). { intros ->. destruct (stores_entry _ _ _ Hs) as (m & Hm & _). congruence. }
  destruct n as [pivots children|keys msgs].
  - destruct s as [pv pi|]; [|done]. destruct Hwf as [Hwfn Hpi].
    pose proof Hs as Hs0. apply stores_index_inv in Hs as (addrs & aux & Hd & Hl & Hch).
    assert (Eds : ds = <[a := LBranch.sub_index pivots addrs (pi + 1) (length addrs)]>
      (<[c := LBranch.sub_index pivots addrs 0 (pi + 1)]> dv)).
    { unfold ds, LBranch.split_node. by rewrite (root_node_at _ _ _ Hd). }
    clearbody ds.
    destruct Hwfn as (Hlc & _). pose proof (lookup_lt_Some _ _ _ Hpi) as Hlt.
    assert (Hdc : dv' !! c = Some (LBranch.sub_index pivots addrs 0 (pi + 1))).
    { rewrite Hc. rewrite Eds. rewrite lookup_insert_ne by done. apply lookup_insert. }
    assert (Hda : dv' !! a = Some (LBranch.sub_index pivots addrs (pi + 1) (length addrs))).
    { rewrite Haa. rewrite Eds. apply lookup_insert. }
    unfold LBranch.sub_index in Hdc, Hda.
    assert (Hkid : ∀ j k, addrs !! j = Some k → ∀ x, reach dv k x → dv' !! x = dv !! x).
    { intros j k Hj x Hx. apply Hsame; [|by apply (reach_index _ _ _ _ _ _ Hd); eauto].
      intros ->. by eapply (child_not_up dv c). }
    assert (Hlook1 : ∀ j, subrange addrs 0 (pi + 1) !! j = if decide (j < pi + 1) then addrs !! j else None).
    { intros j. rewrite subrange_lookup. destruct (decide (j < pi + 1)); [by rewrite decide_True by lia|by rewrite decide_False by lia]. }
    assert (Hlook2 : ∀ j, subrange addrs (pi + 1) (length addrs) !! j = addrs !! (pi + 1 + j)).
    { intros j. rewrite subrange_lookup. destruct (decide _); [done|]. symmetry. apply lookup_ge_None. lia. }
    split; [|split; [|split]].
    + eexists _, _. split; [exact Eds|]. split; [by intros []|]. split; [by intros []|].
      split; [simpl; rewrite !subrange_length by lia; lia|]. split; [simpl; rewrite !subrange_length by lia; lia|].
      intros x Hx. exists pivots, addrs, aux. split; [done|]. cbn [LBranch.sub_index LBranch.children] in Hx.
      destruct Hx as [[j Hj]%elem_of_list_lookup|[j Hj]%elem_of_list_lookup].
      * rewrite Hlook1 in Hj. destruct (decide _); [by eapply elem_of_list_lookup_2|done].
      * rewrite Hlook2 in Hj. by eapply elem_of_list_lookup_2.
    + cbn [PBranch.split_node PBranch.split_index fst]. unfold PBranch.sub_index.
      eapply stores_index; [exact Hdc|rewrite !subrange_length by lia; lia|].
      intros j k m Hk Hm. rewrite subrange_lookup in Hk. rewrite subrange_lookup in Hm. destruct (decide _); [|done].
      apply (stores_change dv); [by eapply Hch|]. by eapply Hkid.
    + cbn [PBranch.split_node PBranch.split_index snd]. unfold PBranch.sub_index. rewrite <- Hl.
      eapply stores_index; [exact Hda|rewrite !subrange_length by lia; lia|].
      intros j k m Hk Hm. rewrite subrange_lookup in Hk. rewrite subrange_lookup in Hm. destruct (decide _); [|done].
      apply (stores_change dv); [by eapply Hch|]. by eapply Hkid.
    + intros x. rewrite (reach_index _ _ _ _ _ _ Hdc), (reach_index _ _ _ _ _ _ Hda), (reach_index _ _ _ _ _ _ Hd). split.
      * intros [[->|(j & k & Hj & Hx)]|[->|(j & k & Hj & Hx)]]; [tauto| |tauto|].
        -- rewrite Hlook1 in Hj. destruct (decide _); [|done]. left. right. exists j, k. split; [done|].
           apply (reach_change dv) in Hx; [done|by eapply Hkid].
        -- rewrite Hlook2 in Hj. left. right. exists (pi + 1 + j), k. split; [done|].
           apply (reach_change dv) in Hx; [done|by eapply Hkid].
      * intros [[->|(j & k & Hj & Hx)]| ->]; [tauto| |tauto].
        apply (reach_change dv dv') in Hx; [|by eapply Hkid]. destruct (decide (j < pi + 1)).
        -- left. right. exists j, k. split; [|done]. rewrite Hlook1. by rewrite decide_True.
        -- right. right. exists (j - (pi + 1)), k. split; [|done]. rewrite Hlook2.
           by replace (pi + 1 + (j - (pi + 1))) with j by lia.
  - destruct s as [|pv]; [done|]. destruct Hwf as [Hlen Hpv].
    apply stores_leaf_inv in Hs as Hd. 
    assert (Eds : ds = <[a := LBranch.Leaf (drop (Z.to_nat (key_largest_lt keys pv + 1)) keys) (drop (Z.to_nat (key_largest_lt keys pv + 1)) msgs)]>
      (<[c := LBranch.Leaf (take (Z.to_nat (key_largest_lt keys pv + 1)) keys) (take (Z.to_nat (key_largest_lt keys pv + 1)) msgs)]> dv)).
    { unfold ds, LBranch.split_node. by rewrite (root_node_at _ _ _ Hd). }
    clearbody ds.
    cbn [PBranch.split_node]. unfold PBranch.split_leaf. cbn [fst snd].
    set (p := Z.to_nat (key_largest_lt keys pv + 1)) in *.
    assert (Hdc : dv' !! c = Some (LBranch.Leaf (take p keys) (take p msgs))).
    { rewrite Hc. rewrite Eds. rewrite lookup_insert_ne by done. apply lookup_insert. }
    assert (Hda : dv' !! a = Some (LBranch.Leaf (drop p keys) (drop p msgs))).
    { rewrite Haa. rewrite Eds. apply lookup_insert. }
    split; [|split; [|split]].
    + eexists _, _. split; [exact Eds|]. split; [by intros []|]. split; [by intros []|].
      split; [simpl; rewrite !take_length; lia|]. split; [simpl; rewrite !drop_length; lia|].
      intros x [Hx|Hx]; by apply elem_of_nil in Hx.
    + by constructor.
    + by constructor.
    + intros x. by rewrite (reach_leaf _ _ _ _ _ Hdc), (reach_leaf _ _ _ _ _ Hda), (reach_leaf _ _ _ _ _ Hd).
Qed.
Lemma slot_eq pivots addrs aux children k :
  LBranch.slot (LBranch.Index (T:=T) pivots addrs aux) k = PBranch.slot (PBranch.Index pivots children) k.
Proof. done. Qed.
Lemma can_split_child_iff dv a n lo hi s new :
  LBranch.disk_wf dv → stores dv a n → search_tree lo hi n → within lo hi (get_pivot s) →
  LBranch.can_split_child_of_index (LBranch.mk a dv) s new ↔ PBranch.can_split_child_of_index n s ∧ dv !! new = None.
Proof.
  intros Hwf Hs Ht Hw. unfold LBranch.can_split_child_of_index, PBranch.can_split_child_of_index.
  destruct (stores_entry _ _ _ Hs) as (m0 & Hm0 & Hna0 & _).
  assert (Hroot : LBranch.has_root (LBranch.mk a dv)) by (by exists m0).
  assert (Hnw : LBranch.node_wf (LBranch.root_node (LBranch.mk a dv))).
  { rewrite (root_node_at _ _ _ Hm0). by eapply (proj1 Hwf). }
  pose proof (tree_wf _ _ _ Ht) as Hwfn.
  destruct n as [pivots children|keys msgs].
  2: { rewrite (root_node_at _ _ _ (stores_leaf_inv _ _ _ _ Hs)). tauto. }
  destruct (path_child dv a lo hi pivots children (get_pivot s) Ht Hs Hw)
    as (addrs & aux & i & c & n & Hd & Hslot & Hci & Hni & Hip & Hl & Hsc & Htc & Hwc & Hchl & Hchp & Hc).
  rewrite (root_node_at _ _ _ Hd) in *. rewrite (slot_eq _ _ _ children), <- Hslot, Hchl, Hchp.
  unfold LBranch.is_fresh. cbn [LBranch.disk].
  assert (Hrc : LBranch.has_root (LBranch.mk c dv)).
  { destruct (stores_entry _ _ _ Hsc) as (m & Hm & Hna & _). by exists m. }
  assert (Hsw : LBranch.split_wf s (LBranch.mk c dv) ↔ PBranch.split_wf s n); [|tauto].
  unfold LBranch.split_wf, PBranch.split_wf. pose proof (tree_wf _ _ _ Htc) as Hwfc. destruct n as [pc cc|kc mc].
  - pose proof Hsc as Hsc0. apply stores_index_inv in Hsc as (addrc & auxc & Hdc & Hlc & _).
    rewrite (root_node_at _ _ _ Hdc). destruct s; [|done]. rewrite Hlc. pose proof (proj1 Hwfc). tauto.
  - rewrite (root_node_at _ _ _ (stores_leaf_inv _ _ _ _ Hsc)). by destruct s.
Qed.
Lemma can_split_iff b n s new d : holds b n →
  LBranch.can_split b s new d ↔ PBranch.can_split n s d ∧ LBranch.disk b !! new = None.
Proof.
  intros Hh. pose proof Hh as (Hwf & Hs & Hn). unfold LBranch.can_split, PBranch.can_split.
  rewrite (valid_at b n _ d Hh).
  assert (PBranch.valid n (get_pivot s) d → LBranch.can_split_child_of_index (LBranch.target b (get_pivot s) d) s new ↔
    PBranch.can_split_child_of_index (PBranch.target n (get_pivot s) d) s ∧ LBranch.disk b !! new = None); [|tauto].
  intros Hv. destruct (focus_at b n _ d Hh Hv) as (a' & Ht & Hsa & _). rewrite Ht.
  apply wf_iff in Hn. destruct (focus_exists d None None n _ Hn (within_none _) Hv) as (lo & hi & L & R & F).
  eapply can_split_child_iff; [done|done|exact (f_tree _ _ _ _ _ _ _ _ _ F)|exact (f_key _ _ _ _ _ _ _ _ _ F)].
Qed.
Lemma split_child_pages dv a n lo hi s new :
  LBranch.disk_wf dv → stores dv a n → search_tree lo hi n → within lo hi (get_pivot s) →
  PBranch.can_split_child_of_index n s → dv !! new = None →
  let b' := LBranch.split_child_of_index (LBranch.mk a dv) s new in
  let dv' := LBranch.disk b' in
  LBranch.root b' = a ∧ stores dv' a (PBranch.split_child_of_index n s) ∧
  (∀ x, ¬ reach dv a x → x ≠ new → dv' !! x = dv !! x) ∧
  (∀ x, reach dv' a x ↔ reach dv a x ∨ x = new) ∧
  (∀ x, is_Some (dv' !! x) ↔ is_Some (dv !! x) ∨ x = new) ∧
  LBranch.disk_wf dv'.
Proof.
  intros Hwf Hs Ht Hw Hcan Hnew b' dv'. pose proof Hwf as [Hw1 Hw2].
  destruct Hcan as [Hwfn Hcan]. destruct n as [pivots children|]; [|done].
  destruct (path_child dv a lo hi pivots children (get_pivot s) Ht Hs Hw)
    as (addrs & aux & i & c & n & Hd & Hslot & Hci & Hni & Hip & Hl & Hsc & Htc & Hwc & Hchl & Hchp & Hc).
  rewrite <- Hslot, Hchp in Hcan.
  assert (Hnup : ¬ reach dv c a) by (by eapply (child_not_up dv a)).
  assert (Hac : a ≠ c) by (intros ->; by apply Hnup).
  assert (Han : a ≠ new) by (intros ->; congruence).
  assert (Hcn : c ≠ new). { intros ->. destruct (stores_entry _ _ _ Hsc) as (m & Hm & _). congruence. }
  set (ds := LBranch.split_node (LBranch.mk c dv) s new).
  set (nr := LBranch.Index (T:=T) (seq_insert pivots i (get_pivot s)) (seq_insert addrs (i + 1) new) None).
  assert (Edv : dv' = <[a := nr]> (ds ∪ dv)).
  { unfold dv', b', LBranch.split_child_of_index. rewrite (root_node_at _ _ _ Hd), (slot_eq _ _ _ children), <- Hslot, Hchl.
    done. }
  assert (Hsplit : ∃ l r, ds = <[new := r]> (<[c := l]> dv)).
  { unfold ds, LBranch.split_node. destruct n as [pc cc|kc mc]; destruct s; try done.
    - pose proof Hsc as Hsc0. apply stores_index_inv in Hsc as (addrc & auxc & Hdc & Hlc & _).
      rewrite (root_node_at _ _ _ Hdc). by eexists _, _.
    - rewrite (root_node_at _ _ _ (stores_leaf_inv _ _ _ _ Hsc)). by eexists _, _. }
  destruct Hsplit as (l & r & Eds).
  assert (Eun : ds ∪ dv = ds).
  { apply map_eq. intros x. rewrite Eds. destruct (decide (x = new)) as [->|H1].
    - rewrite (lookup_union_Some_l _ _ _ r); [by rewrite lookup_insert|apply lookup_insert].
    - rewrite lookup_insert_ne by done. destruct (decide (x = c)) as [->|H2].
      + rewrite lookup_insert. apply lookup_union_Some_l. rewrite lookup_insert_ne by done. apply lookup_insert.
      + rewrite lookup_insert_ne by done. destruct (dv !! x) eqn:E.
        * apply lookup_union_Some_l. by rewrite !lookup_insert_ne.
        * apply lookup_union_None. split; [by rewrite !lookup_insert_ne|done]. }
  rewrite Eun in Edv.
  assert (Hda : dv' !! a = Some nr) by (rewrite Edv; apply lookup_insert).
  assert (Hoth : ∀ x, x ≠ a → x ≠ c → x ≠ new → dv' !! x = dv !! x).
  { intros x H1 H2 H3. rewrite Edv, Eds. by rewrite !lookup_insert_ne. }
  assert (Hent : ∀ x, reach dv a x → x ≠ new).
  { intros x Hx ->. destruct (reach_entry _ _ _ _ _ _ Hs Ht Hx). congruence. }
  assert (Hup : ∀ j cj x, addrs !! j = Some cj → reach dv cj x → reach dv a x).
  { intros j cj x Hj Hx. apply (reach_index _ _ _ _ _ _ Hd). eauto. }
  destruct (split_halves dv c n _ _ s new dv' Hsc Htc Hcan Hnew) as ((l' & r' & Eds' & Hl1 & Hr1 & Hl2 & Hr2 & Hkids) & Hst1 & Hst2 & Hre).
  { intros x H1 H2. apply Hoth; [intros ->; done|done|]. apply Hent. by eapply Hup. }
  { fold ds. rewrite Edv. by rewrite lookup_insert_ne. }
  { fold ds. rewrite Edv. by rewrite lookup_insert_ne. }
  fold ds in Eds'.
  assert (l' = l ∧ r' = r) as [-> ->].
  { rewrite Eds in Eds'. split.
    - assert (H : (<[new:=r]> (<[c:=l]> dv)) !! c = (<[new:=r']> (<[c:=l']> dv)) !! c) by (by rewrite Eds').
      rewrite !(lookup_insert_ne _ new c) in H by done. rewrite !lookup_insert in H. congruence.
    - assert (H : (<[new:=r]> (<[c:=l]> dv)) !! new = (<[new:=r']> (<[c:=l']> dv)) !! new) by (by rewrite Eds').
      rewrite !lookup_insert in H. congruence. }
  assert (Hdc : dv' !! c = Some l).
  { rewrite Edv, Eds. rewrite lookup_insert_ne, lookup_insert_ne by done. apply lookup_insert. }
  assert (Hdn : dv' !! new = Some r).
  { rewrite Edv, Eds. rewrite lookup_insert_ne by done. apply lookup_insert. }
  assert (Hsib : ∀ j cj, j ≠ i → addrs !! j = Some cj → ∀ x, reach dv cj x → dv' !! x = dv !! x).
  { intros j cj Hj Hcj x Hx. apply Hoth.
    - intros ->. by eapply (child_not_up dv a) in Hx.
    - intros ->. apply Hj. eapply (children_apart dv a); [exact Ht|exact Hs|exact Hd|exact Hcj|exact Hci|exact Hx|done].
    - apply Hent. by eapply Hup. }
  assert (Hla : length addrs = S (length pivots)) by exact (Hw1 _ _ Hd).
  assert (Hlook : ∀ j, seq_insert addrs (i + 1) new !! j =
    if decide (j < i + 1) then addrs !! j else if decide (j = i + 1) then Some new else addrs !! (j - 1)).
  { intros j. apply seq_insert_lookup. lia. }
  split; [done|]. split; [|split; [|split; [|split]]].
  - unfold PBranch.split_child_of_index. rewrite <- Hslot, Hchp.
    destruct (PBranch.split_node n s) as [ln rn]. cbn [fst snd] in *.
    apply (stores_index _ _ _ (seq_insert addrs (i + 1) new) None); [exact Hda|rewrite !seq_insert_length; rewrite ?insert_length; lia|].
    intros j cj nj Hcj Hnj. rewrite Hlook in Hcj. rewrite seq_insert_lookup in Hnj by (rewrite insert_length; lia).
    destruct (decide (j < i + 1)).
    + destruct (decide (j = i)) as [->|].
      * rewrite list_lookup_insert in Hnj by lia. injection Hnj as <-. assert (cj = c) as -> by congruence. done.
      * rewrite list_lookup_insert_ne in Hnj by done. apply (stores_change dv); [by eapply Hc|]. by eapply Hsib.
    + destruct (decide (j = i + 1)).
      * injection Hcj as <-. injection Hnj as <-. done.
      * rewrite list_lookup_insert_ne in Hnj by lia. apply (stores_change dv); [by eapply Hc|]. eapply (Hsib (j - 1)); [lia|done].
  - intros x Hx Hxn. apply Hoth; [intros ->; by apply Hx|intros ->; apply Hx; by eapply Hup|done].
  - intros x. rewrite (reach_index _ _ _ _ _ _ Hda). rewrite (reach_index dv a _ _ _ _ Hd). split.
    + intros [->|(j & cj & Hj & Hx)]; [tauto|]. rewrite Hlook in Hj. destruct (decide (j < i + 1)).
      * destruct (decide (j = i)) as [->|].
        -- assert (cj = c) as -> by congruence. destruct (proj1 (Hre x) (or_introl Hx)) as [H| ->]; [left; right; eauto|by right].
        -- left. right. exists j, cj. split; [done|]. apply (reach_change dv) in Hx; [done|by eapply Hsib].
      * destruct (decide (j = i + 1)).
        -- injection Hj as <-. destruct (proj1 (Hre x) (or_intror Hx)) as [H| ->]; [left; right; eauto|by right].
        -- left. right. exists (j - 1), cj. split; [done|]. apply (reach_change dv) in Hx; [done|].
           eapply (Hsib (j - 1)); [lia|done].
    + assert (Hcx : reach dv' c x ∨ reach dv' new x → x = a ∨ ∃ j cj, seq_insert addrs (i + 1) new !! j = Some cj ∧ reach dv' cj x).
      { intros [H|H]; right; [exists i, c|exists (i + 1), new]; (split; [rewrite Hlook|done]).
        - by rewrite decide_True by lia.
        - rewrite decide_False by lia. by rewrite decide_True. }
      intros [[->|(j & cj & Hj & Hx)]| ->]; [by left| |].
      * destruct (decide (j = i)) as [->|Hne].
        -- assert (cj = c) as -> by congruence. apply Hcx. apply Hre. by left.
        -- right. exists (if decide (j < i) then j else S j), cj. split.
           ++ rewrite Hlook. destruct (decide (j < i)).
              ** by rewrite decide_True by lia.
              ** rewrite decide_False by lia. rewrite decide_False by lia. by replace (S j - 1) with j by lia.
           ++ apply (reach_change dv); [by eapply Hsib|done].
      * apply Hcx. apply Hre. by right.
  - intros x. destruct (decide (x = a)) as [->|H1]; [rewrite Hda, Hd; split; [intros _; left; by eexists|intros _; by eexists]|].
    destruct (decide (x = c)) as [->|H2].
    { rewrite Hdc. destruct (stores_entry _ _ _ Hsc) as (m & -> & _). split; [intros _; left; by eexists|intros _; by eexists]. }
    destruct (decide (x = new)) as [->|H3]; [rewrite Hdn; split; [by right|by eexists]|].
    rewrite Hoth by done. tauto.
  - assert (Hkeep : ∀ x m, dv !! x = Some m → ¬ LBranch.is_aux m → ∃ m', dv' !! x = Some m' ∧ ¬ LBranch.is_aux m').
    { intros x m Hm Hna. destruct (decide (x = a)) as [->|H1]; [exists nr; split; [done|by intros []]|].
      destruct (decide (x = c)) as [->|H2]; [by exists l|].
      destruct (decide (x = new)) as [->|H3]; [congruence|]. exists m. by rewrite Hoth. }
    split.
    + intros x m Hm. destruct (decide (x = a)) as [->|H1].
      { assert (m = nr) as -> by congruence. simpl. rewrite !seq_insert_length by lia. lia. }
      destruct (decide (x = c)) as [->|H2]; [assert (m = l) as -> by congruence; done|].
      destruct (decide (x = new)) as [->|H3]; [assert (m = r) as -> by congruence; done|].
      rewrite Hoth in Hm by done. by eapply Hw1.
    + assert (Hnamed : ∀ x y, names dv x y → ∃ m', dv' !! y = Some m' ∧ ¬ LBranch.is_aux m').
      { intros x y (p & ad & au & Hx & [j Hj]%elem_of_list_lookup).
        destruct (Hw2 x _ j y Hx Hj) as (my & Hmy & Hna). by eapply Hkeep. }
      intros x m j y Hm Hy. destruct (decide (x = a)) as [->|H1].
      { assert (m = nr) as -> by congruence. cbn [LBranch.children nr] in Hy. apply elem_of_list_lookup_2 in Hy.
        apply elem_of_seq_insert in Hy as [->|Hy]; [by exists r|]. apply (Hnamed a). by exists pivots, addrs, aux. }
      destruct (decide (x = c)) as [->|H2].
      { assert (m = l) as -> by congruence. apply (Hnamed c). apply Hkids. left. by eapply elem_of_list_lookup_2. }
      destruct (decide (x = new)) as [->|H3].
      { assert (m = r) as -> by congruence. apply (Hnamed c). apply Hkids. right. by eapply elem_of_list_lookup_2. }
      rewrite Hoth in Hm by done. destruct (Hw2 x m j y Hm Hy) as (my & Hmy & Hna). by eapply Hkeep.
Qed.
Lemma split_pages b n s new d : holds b n → PBranch.can_split n s d → LBranch.disk b !! new = None →
  holds (LBranch.split b s new d) (PBranch.split n s d) ∧ (tight b → tight (LBranch.split b s new d)).
Proof.
  intros Hh Hcan Hnew. pose proof (split_step n s d Hcan) as (Hwf' & _). destruct Hcan as (_ & Hv & Hcan).
  destruct (focus_at b n _ d Hh Hv) as (a' & Ht & Hsa & Hra & Hsub). pose proof Hh as (Hwf & Hs & Hn).
  unfold LBranch.split, LBranch.substitute, PBranch.split in *. rewrite Ht. pose proof Hn as Htn. apply wf_iff in Htn.
  destruct (focus_exists d None None n _ Htn (within_none _) Hv) as (lo & hi & L & R & F).
  destruct (split_child_pages _ a' _ lo hi s new Hwf Hsa (f_tree _ _ _ _ _ _ _ _ _ F) (f_key _ _ _ _ _ _ _ _ _ F) Hcan Hnew)
    as (_ & Hst & Hout & Hre & Hdom & Hwfd).
  set (dv' := LBranch.disk (LBranch.split_child_of_index (LBranch.mk a' (LBranch.disk b)) s new)) in *.
  assert (Hent : ∀ x, reach (LBranch.disk b) (LBranch.root b) x → x ≠ new).
  { intros x Hx ->. destruct (reach_entry _ _ _ _ _ _ Hs Htn Hx). congruence. }
  destruct (Hsub dv' (PBranch.split_child_of_index (PBranch.target n (get_pivot s) d) s)) as [Hst' Hre']; [intros x H1 H2; apply Hout; [done|by apply Hent]|exact Hst|].
  split; [split; [done|split; done]|]. intros Htight x. cbn [LBranch.disk LBranch.root].
  rewrite Hre', Hdom, Hre. rewrite (Htight x). split.
  - intros [Hx| ->]; [|tauto]. destruct (decide (x = new)) as [->|]; [tauto|].
    destruct (reach_dec _ _ a' x Hsa) as [H|H]; tauto.
  - intros [[H1 H2]|[H| ->]]; [tauto| |tauto]. left. by etrans.
Qed.

(** ** Calls *)
Lemma pages_step b b' n l : holds b n → LBranch.next b b' l →
  ∃ n', PBranch.next n n' (erase l) ∧ holds b' n' ∧ (tight b → tight b').
Proof.
  intros Hh Hn. pose proof Hh as (Hwf & Hs & Hwn). destruct l as [k m|k m d|ks ms d|a|s a d]; simpl in Hn.
  - destruct Hn as [Hq ->]. exists n. split; [|done]. split; [done|]. split; [by apply (query_iff b)|done].
  - destruct Hn as [Hcan ->]. apply (can_insert_iff b n k d Hh) in Hcan. exists (PBranch.insert n k m d).
    split; [done|]. by apply insert_pages.
  - destruct Hn as [Hcan ->]. apply (can_append_iff b n ks ms d Hh) in Hcan. exists (PBranch.append n ks ms d).
    split; [done|]. by apply append_pages.
  - destruct Hn as [[_ Hf] ->]. exists (PBranch.grow n). split; [done|]. by apply grow_pages.
  - destruct Hn as [Hcan ->]. apply (can_split_iff b n s a d Hh) in Hcan as [Hcan Hf]. exists (PBranch.split n s d).
    split; [done|]. by apply split_pages.
Qed.
Lemma pages_enabled b n l : holds b n →
  (∃ b', LBranch.next b b' l) ↔ (∃ n', PBranch.next n n' (erase l)) ∧ ∀ a, takes l = Some a → LBranch.disk b !! a = None.
Proof.
  intros Hh. pose proof Hh as (Hwf & Hs & Hwn). split.
  - intros [b' Hn]. split; [destruct (pages_step b b' n l Hh Hn) as (n' & H & _); by exists n'|].
    intros a Ha. destruct l; simpl in *; try done; injection Ha as <-.
    + by destruct Hn as [[_ Hf] _].
    + destruct Hn as [Hcan _]. by apply (can_split_iff b n s a0 depth Hh) in Hcan as [_ Hf].
  - intros [[n' Hn] Hf]. destruct l as [k m|k m d|ks ms d|a|s a d]; simpl in *.
    + exists b. split; [|done]. apply (query_iff b n); tauto.
    + eexists. split; [|done]. apply (can_insert_iff b n); tauto.
    + eexists. split; [|done]. apply (can_append_iff b n); tauto.
    + eexists. split; [|done]. split; [|by apply Hf]. split; [done|].
      destruct (stores_entry _ _ _ Hs) as (m & Hm & Hna & _). by exists m.
    + eexists. split; [|done]. apply (can_split_iff b n); [done|]. split; [tauto|by apply Hf].
Qed.
Lemma pages_run b b' n ls : holds b n → run LBranch.next b ls b' →
  ∃ n', run PBranch.next n (map erase ls) n' ∧ holds b' n' ∧ (tight b → tight b').
Proof.
  intros Hh Hr. induction Hr as [s|s ls s1 l s2 Hr IH Hn].
  - exists n. split; [constructor|done].
  - destruct (IH Hh) as (n1 & Hr1 & Hh1 & Ht1). destruct (pages_step s1 s2 n1 l Hh1 Hn) as (n2 & Hn2 & Hh2 & Ht2).
    exists n2. split; [rewrite map_app; by eapply run_snoc|]. split; [done|auto].
Qed.
Lemma holds_det b n n' : holds b n → stores (LBranch.disk b) (LBranch.root b) n' → n' = n.
Proof. intros (_ & Hs & _) Hs'. by eapply stores_det. Qed.
Lemma first_page_holds a keys msgs : first_leaf keys msgs →
  holds (LBranch.mk a {[a := LBranch.Leaf keys msgs]}) (PBranch.Leaf keys msgs) ∧
  tight (LBranch.mk a {[a := LBranch.Leaf (T:=T) keys msgs]}).
Proof.
  intros (Hne & Hl & Hs).
  assert (Hd : ({[a := LBranch.Leaf keys msgs]} : gmap Address (LBranch.Node T)) !! a = Some (LBranch.Leaf keys msgs)) by apply lookup_singleton.
  assert (0 < length keys) by (destruct keys; [done|simpl; lia]). split; [split; [split|split]|].
  - intros x m Hm. cbn [LBranch.disk] in Hm. apply lookup_singleton_Some in Hm as [<- <-]. done.
  - intros x m i c Hm Hc. cbn [LBranch.disk] in Hm. apply lookup_singleton_Some in Hm as [<- <-]. done.
  - by constructor.
  - split; [done|]. split; [done|]. by apply sorted_strong.
  - intros x. cbn [LBranch.disk LBranch.root]. rewrite (reach_leaf _ _ _ _ _ Hd). split.
    + intros [m Hm]. by apply lookup_singleton_Some in Hm as [-> _].
    + intros ->. by eexists.
Qed.
End pages.
