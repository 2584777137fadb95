(** The tree of addresses a disk unfolds to, the references in it, and how the
    operations of the linked be-tree change them (C37). *)
From Verif Require Import Spec_Model Abs_Model Betree_Model LinkedBetree_Model LikesBetree_Model LikesBetree_Spec.
From Coq Require Import ZifyBool ZifyNat ZifyN Lia.

(** ** Counting things *)
Section Exactly.
  Context {X : Type}.
  Implicit Types P Q : X → Prop.
  Lemma exactly_iff P Q k : (∀ x, P x ↔ Q x) → exactly P k → exactly Q k.
  Proof. intros H (L&?&HL&?). exists L. split; [done|]. split; [|done]. intros x. by rewrite HL. Qed.
  Lemma exactly_none P : (∀ x, ¬ P x) → exactly P 0.
  Proof.
    intros H. exists []. split; [constructor|]. split; [|done]. intros x. rewrite elem_of_nil. split; [done|apply H].
  Qed.
  Lemma exactly_or P Q k m : (∀ x, P x → ¬ Q x) → exactly P k → exactly Q m → exactly (λ x, P x ∨ Q x) (k + m).
  Proof.
    intros Hd (L&Hn&HL&<-) (M&Hm&HM&<-). exists (L ++ M). split; [|split].
    - apply NoDup_app. split; [done|]. split; [|done]. intros x ?%HL ?%HM. by eapply Hd.
    - intros x. by rewrite elem_of_app, HL, HM.
    - apply app_length.
  Qed.
  Lemma exactly_zero P k : exactly P k → (k = 0 ↔ ∀ x, ¬ P x).
  Proof.
    intros (L&_&HL&<-). split.
    - intros E%nil_length_inv x Hx%HL. subst. by apply elem_of_nil in Hx.
    - intros H. destruct L as [|x L]; [done|]. exfalso. apply (H x), HL. left.
  Qed.
End Exactly.
Lemma exactly_map {X Y} (f : X → Y) `{!Inj (=) (=) f} (P : X → Prop) (Q : Y → Prop) k :
  (∀ y, Q y ↔ ∃ x, y = f x ∧ P x) → exactly P k → exactly Q k.
Proof.
  intros HQ (L&Hn&HL&<-). exists (f <$> L). split; [by apply NoDup_fmap_2|]. split; [|by rewrite fmap_length].
  intros y. rewrite elem_of_list_fmap, HQ. by setoid_rewrite HL.
Qed.
Lemma exactly_indexed {Y} (P : nat → Y → Prop) (ks : list nat) :
  (∀ i k, ks !! i = Some k → exactly (P i) k) → (∀ i y, P i y → i < length ks) →
  exactly (λ iy : nat * Y, P iy.1 iy.2) (sum_list ks).
Proof.
  revert P. induction ks as [|k ks IH]; intros P Hk Hlt.
  { apply exactly_none. intros [i y] Hy. specialize (Hlt i y Hy). simpl in Hlt. lia. }
  cbn [sum_list sum_list_with]. change (sum_list_with id ks) with (sum_list ks).
  eapply (exactly_iff (λ iy : nat * Y, (∃ y, iy = (0, y) ∧ P 0 y) ∨ (∃ jy : nat * Y, iy = (S jy.1, jy.2) ∧ P (S jy.1) jy.2))).
  { intros [i y]. simpl. split.
    - intros [(?&[= -> ->]&?)|([j z]&[= -> ->]&?)]; done.
    - intros H. destruct i as [|i]; [left; by exists y|right; by exists (i, y)]. }
  apply exactly_or.
  - intros iy (y&->&_) (jy&?&_). done.
  - eapply (exactly_map (λ y : Y, (0, y)) (P 0)); [done|]. by apply Hk.
  - assert (Inj (=) (=) (λ jy : nat * Y, (S jy.1, jy.2))).
    { intros [i y] [j z]. simpl. by intros [= -> ->]. }
    eapply (exactly_map (λ jy : nat * Y, (S jy.1, jy.2)) (λ jy, P (S jy.1) jy.2)); [done|].
    apply (IH (λ i, P (S i))).
    + intros i k' Hi. by apply Hk.
    + intros i y Hy. specialize (Hlt _ _ Hy). simpl in Hlt. lia.
Qed.

(** ** Counting in a multiset *)
Section Cnt.
  Context `{Countable A} (P : A → Prop) `{∀ x, Decision (P x)}.
  Implicit Types m : gmultiset A.
  Definition cnt m : nat := length (filter P (elements m)).
  Lemma cnt_disj_union m m' : cnt (m ⊎ m') = cnt m + cnt m'.
  Proof. unfold cnt. rewrite gmultiset_elements_disj_union, stdpp.list.filter_app, app_length. done. Qed.
  Lemma cnt_empty : cnt ∅ = 0.
  Proof. unfold cnt. by rewrite gmultiset_elements_empty. Qed.
  Lemma cnt_singleton x : cnt {[+ x +]} = if decide (P x) then 1 else 0.
  Proof. unfold cnt. rewrite gmultiset_elements_singleton, filter_cons, filter_nil. by case_decide. Qed.
  Lemma cnt_list (l : list A) : cnt (list_to_set_disj l) = length (filter P l).
  Proof.
    induction l as [|x l IH]; [apply cnt_empty|]. rewrite list_to_set_disj_cons, cnt_disj_union, cnt_singleton, IH, filter_cons.
    by case_decide.
  Qed.
End Cnt.
Lemma cnt_eq `{Countable A} (x : A) m : cnt (λ y, y = x) m = multiplicity x m.
Proof.
  induction m as [|y m IH] using gmultiset_ind; [by rewrite cnt_empty, multiplicity_empty|].
  rewrite cnt_disj_union, IH, cnt_singleton, multiplicity_disj_union, multiplicity_singleton'.
  repeat case_decide; congruence.
Qed.
Lemma to_au_disj X Y : to_au_likes (X ⊎ Y) = to_au_likes X ⊎ to_au_likes Y.
Proof.
  unfold to_au_likes. rewrite <-list_to_set_disj_app, <-fmap_app.
  apply list_to_set_disj_perm. f_equiv. apply gmultiset_elements_disj_union.
Qed.
Lemma to_au_empty : to_au_likes ∅ = ∅.
Proof. unfold to_au_likes. by rewrite gmultiset_elements_empty. Qed.
Lemma to_au_singleton a : to_au_likes {[+ a +]} = {[+ au a +]}.
Proof. unfold to_au_likes. rewrite gmultiset_elements_singleton. cbn [fmap list_fmap].
  rewrite list_to_set_disj_cons, list_to_set_disj_nil. multiset_solver. Qed.
Lemma to_au_cnt u X : multiplicity u (to_au_likes X) = cnt (λ a, au a = u) X.
Proof.
  induction X as [|y m IH] using gmultiset_ind; [by rewrite to_au_empty, cnt_empty, multiplicity_empty|].
  rewrite to_au_disj, cnt_disj_union, multiplicity_disj_union, IH, to_au_singleton, cnt_singleton, multiplicity_singleton'.
  repeat case_decide; congruence.
Qed.
Lemma to_au_elem u X : u ∈ to_au_likes X ↔ ∃ a, a ∈ X ∧ au a = u.
Proof.
  unfold to_au_likes. rewrite elem_of_list_to_set_disj, elem_of_list_fmap. setoid_rewrite gmultiset_elem_of_elements. naive_solver.
Qed.
Lemma elem_mdom `{Countable A} (x : A) m : x ∈ mdom m ↔ x ∈ m.
Proof. unfold mdom. by rewrite elem_of_list_to_set, gmultiset_elem_of_elements. Qed.
Lemma sub_add `{Countable A} (R D N : gmultiset A) : (R ⊎ D) ∖ D ⊎ N = R ⊎ N.
Proof. multiset_solver. Qed.

(** ** Address trees *)
Inductive atree := ANil | ANode (a : Address) (n : LNode.t) (cs : list atree).
Lemma atree_rec' (P : atree → Prop) : P ANil → (∀ a n cs, Forall P cs → P (ANode a n cs)) → ∀ t, P t.
Proof.
  intros H0 H1. fix IH 1. intros [|a n cs]; [exact H0|]. apply H1. induction cs; constructor; [apply IH|assumption].
Qed.
Implicit Types (dv : gmap Address LNode.t) (p : option Address) (t : atree) (a b : Address) (own : Address → LNode.t → list Address).
Inductive unf dv : option Address → atree → Prop :=
  | unf_nil : unf dv None ANil
  | unf_node a n cs : dv !! a = Some n → Forall2 (unf dv) (LNode.children n) cs → unf dv (Some a) (ANode a n cs).
Lemma unf_Some dv a n t : dv !! a = Some n → unf dv (Some a) t → ∃ cs, t = ANode a n cs ∧ Forall2 (unf dv) (LNode.children n) cs.
Proof. intros Hn H. inversion H as [|? m cs Hm Hc]; subst. rewrite Hn in Hm. injection Hm as <-. eauto. Qed.
Lemma unf_None dv t : unf dv None t → t = ANil.
Proof. by inversion 1. Qed.
Lemma unf_fun dv p t t' : unf dv p t → unf dv p t' → t = t'.
Proof.
  revert p t'. induction t as [|a n cs IH] using atree_rec'; intros p t' H; inversion H as [|? ? ? Hn Hc]; subst; intros H'.
  - by apply unf_None in H'.
  - destruct (unf_Some _ _ _ _ Hn H') as (cs'&->&Hc'). f_equal. clear -IH Hc' Hc.
    revert cs' Hc'. induction Hc; inversion_clear 1; [done|]. inversion_clear IH. f_equal; eauto.
Qed.
Lemma unf_mono dv dv' p t : dv ⊆ dv' → unf dv p t → unf dv' p t.
Proof.
  intros Hs. revert p. induction t as [|a n cs IH] using atree_rec'; intros p H; inversion H as [|? ? ? Hn Hc]; subst; constructor.
  - by eapply lookup_weaken.
  - clear -IH Hc Hs. induction Hc; [constructor|]. inversion_clear IH. constructor; eauto.
Qed.
Lemma unf_mono_all dv dv' ps cs : dv ⊆ dv' → Forall2 (unf dv) ps cs → Forall2 (unf dv') ps cs.
Proof. intros Hs H. eapply Forall2_impl; [exact H|]. intros ??. by apply unf_mono. Qed.
(** A smaller disk on which no pointer dangles unfolds to the same tree. *)
Lemma unf_shrink dv dv' p t : dv' ⊆ dv → nd_wf dv' → nd_nondangling dv' p → unf dv p t → unf dv' p t.
Proof.
  intros Hs Hw. revert p. induction t as [|a n cs IH] using atree_rec'; intros p Hp H; inversion H as [|? ? ? Hn0 Hc]; subst; constructor.
  - destruct (Hp a eq_refl) as [m Hm]. rewrite Hm. pose proof (lookup_weaken _ _ _ _ Hm Hs). congruence.
  - assert (Hn : dv' !! a = Some n).
    { destruct (Hp a eq_refl) as [m Hm]. rewrite Hm. pose proof (lookup_weaken _ _ _ _ Hm Hs). congruence. }
    destruct (proj2 Hw _ _ Hn) as [Hd _]. clear -IH Hc Hd.
    assert (Hall : Forall (nd_nondangling dv') (LNode.children n)).
    { apply stdpp.list.Forall_forall. intros q [i Hq]%elem_of_list_lookup. by eapply Hd. }
    clear Hd. induction Hc; [constructor|]. inversion_clear IH. inversion_clear Hall. constructor; eauto.
Qed.
Lemma unf_in dv p t a n : unf dv p t → p = Some a → dv !! a = Some n → ∃ cs, t = ANode a n cs ∧ Forall2 (unf dv) (LNode.children n) cs.
Proof. intros H -> Hn. by eapply unf_Some. Qed.

(** ** The references in a tree *)
Fixpoint refs own t : gmultiset Address :=
  match t with
  | ANil => ∅
  | ANode a n cs => to_likes (own a n) ⊎ foldr (λ c acc, refs own c ⊎ acc) ∅ cs
  end.
Notation refs_all own cs := (foldr (λ c acc, refs own c ⊎ acc) ∅ cs).
Definition onode (a : Address) (n : LNode.t) : list Address := [a].
Definition obufs (a : Address) (n : LNode.t) : list Address := LNode.buffers n.
Notation nodes := (refs onode).
Notation bufs := (refs obufs).
Lemma refs_split own cs i c : cs !! i = Some c →
  ∃ R, refs_all own cs = R ⊎ refs own c ∧ ∀ c', refs_all own (<[i := c']> cs) = R ⊎ refs own c'.
Proof.
  revert i. induction cs as [|x cs IH]; intros [|i] Hi; try done.
  - injection Hi as ->. exists (refs_all own cs). split; [|intros c']; cbn [foldr insert list_insert]; multiset_solver.
  - destruct (IH i Hi) as (R&E&E'). exists (refs own x ⊎ R). cbn [foldr insert list_insert]. split; [|intros c'].
    + rewrite E. multiset_solver.
    + change (list_insert i c' cs) with (<[i := c']> cs). rewrite E'. multiset_solver.
Qed.
Lemma refs_app own cs cs' : refs_all own (cs ++ cs') = refs_all own cs ⊎ refs_all own cs'.
Proof. induction cs as [|c cs IH]; cbn [app foldr]; [multiset_solver|]. rewrite IH. multiset_solver. Qed.

(** A local reference: position [j] of the list [own] at the end of a way. *)
Definition oref own dv p (isj : list nat * nat) (x : Address) : Prop :=
  ∃ a n, leads dv p isj.1 a ∧ dv !! a = Some n ∧ own a n !! isj.2 = Some x.
Lemma oref_none own dv isj x : ¬ oref own dv None isj x.
Proof. intros (a&n&H&_). inversion H. Qed.
Lemma oref_node own dv a n isj x : dv !! a = Some n →
  oref own dv (Some a) isj x ↔
  (isj.1 = [] ∧ own a n !! isj.2 = Some x) ∨
  (∃ i is q, isj.1 = i :: is ∧ LNode.children n !! i = Some q ∧ oref own dv q (is, isj.2) x).
Proof.
  intros Hn. destruct isj as [is j]. cbn [fst snd]. split.
  - intros (b&m&Hl&Hm&Hx). cbn [fst snd] in *. inversion Hl as [? n' Hn'|? n' i q is' ? Hn' Hq Hl']; subst.
    + left. split; [done|]. rewrite Hn in Hm. by injection Hm as <-.
    + right. rewrite Hn in Hn'. injection Hn' as <-. exists i, is', q. split; [done|]. split; [done|]. by exists b, m.
  - intros [[-> Hx]|(i&is'&q&->&Hq&(b&m&Hl&Hm&Hx))].
    + exists a, n. split; [by econstructor|]. done.
    + exists b, m. split; [by econstructor|]. done.
Qed.
(** There are as many references to pages of a class as the tree counts. *)
Lemma refs_exactly own (P : Address → Prop) `{!∀ x, Decision (P x)} dv p t :
  unf dv p t → exactly (λ isj, ∃ x, oref own dv p isj x ∧ P x) (cnt P (refs own t)).
Proof.
  revert p. induction t as [|a n cs IH] using atree_rec'; intros p Hu; inversion Hu as [|? ? ? Hn Hc]; subst.
  { cbn [refs]. rewrite cnt_empty. apply exactly_none. intros isj (x&Hx&_). by eapply oref_none. }
  cbn [refs]. rewrite cnt_disj_union. unfold to_likes at 1. rewrite cnt_list.
  eapply (exactly_iff (λ isj, (∃ j, isj = ([], j) ∧ ∃ x, own a n !! j = Some x ∧ P x) ∨
            (∃ iy : nat * (list nat * nat), isj = (iy.1 :: iy.2.1, iy.2.2) ∧
               ∃ q x, LNode.children n !! iy.1 = Some q ∧ oref own dv q iy.2 x ∧ P x))).
  { intros [is j]. setoid_rewrite (oref_node own dv a n _ _ Hn). cbn [fst snd]. split.
    - intros [(j'&[= -> ->]&x&Hx&HP)|((i&is'&j')&[= -> ->]&q&x&Hq&Ho&HP)].
      + exists x. split; [by left|done].
      + exists x. split; [|done]. right. cbn [fst snd] in *. by exists i, is', q.
    - intros (x&[[-> Hx]|(i&is'&q&->&Hq&Ho)]&HP).
      + left. exists j. eauto.
      + right. exists (i, (is', j)). cbn [fst snd]. eauto 10. }
  apply exactly_or.
  - intros isj (j&->&_) (iy&?&_). done.
  - eapply (exactly_map (λ j : nat, (([] : list nat), j)) (λ j, ∃ x, own a n !! j = Some x ∧ P x)).
    { intros y. done. }
    clear. induction (own a n) as [|x l IHl].
    + apply exactly_none. by intros j (x&?&_).
    + rewrite filter_cons. case_decide as HP; cbn [length].
      * eapply (exactly_iff (λ j, j = 0 ∨ ∃ k, j = S k ∧ ∃ y, l !! k = Some y ∧ P y)).
        { intros [|j]; simpl; split; [eauto|eauto|intros [|(k&[= <-]&?)]; done|intros Hz; right; eauto]. }
        apply (exactly_or _ _ 1).
        -- intros j -> (k&?&_). done.
        -- exists [0]. split; [apply NoDup_singleton|]. split; [|done]. intros j. by rewrite elem_of_list_singleton.
        -- by eapply (exactly_map S); [|exact IHl].
      * eapply (exactly_map S); [|exact IHl]. intros [|j]; simpl; split.
        -- intros (y&[= ->]&?). done.
        -- by intros (k&?&_).
        -- intros Hz. exists j. done.
        -- by intros (k&[= <-]&?).
  - assert (Hinj : Inj (=) (=) (λ iy : nat * (list nat * nat), (iy.1 :: iy.2.1, iy.2.2))).
    { intros (i&is&j) (i'&is'&j'). simpl. by intros [= -> -> ->]. }
    eapply (exactly_map (λ iy : nat * (list nat * nat), (iy.1 :: iy.2.1, iy.2.2))
      (λ iy, ∃ q x, LNode.children n !! iy.1 = Some q ∧ oref own dv q iy.2 x ∧ P x)); [done|].
    assert (Es : cnt P (refs_all own cs) = sum_list ((λ c, cnt P (refs own c)) <$> cs)).
    { clear. induction cs as [|c cs IHc]; cbn [foldr fmap list_fmap]; [apply cnt_empty|].
      rewrite cnt_disj_union, IHc. done. }
    rewrite Es. clear Es. apply (exactly_indexed (λ i y, ∃ q x, LNode.children n !! i = Some q ∧ oref own dv q y x ∧ P x)).
    + intros i k Hk. rewrite list_lookup_fmap in Hk. destruct (cs !! i) as [c|] eqn:Hci; [|done]. injection Hk as <-.
      destruct (Forall2_lookup_r _ _ _ _ _ Hc Hci) as (q&Hq&Hqc).
      rewrite stdpp.list.Forall_forall in IH. specialize (IH c (elem_of_list_lookup_2 _ _ _ Hci) q Hqc).
      eapply exactly_iff; [|exact IH]. intros y. split.
      * intros (x&?&?). eauto.
      * intros (q'&x&Hq'&?&?). rewrite Hq in Hq'. injection Hq' as <-. eauto.
    + intros i y (q&x&Hq&_). rewrite fmap_length. apply lookup_lt_Some in Hq. apply Forall2_length in Hc. lia.
Qed.
Lemma refs_elem own dv p t x : unf dv p t → x ∈ refs own t ↔ ∃ isj, oref own dv p isj x.
Proof.
  intros Hu. pose proof (exactly_zero _ _ (refs_exactly own (λ y, y = x) dv p t Hu)) as [H1 H2].
  rewrite cnt_eq in *. rewrite elem_of_multiplicity. split.
    destruct (refs_exactly own (λ y, y = x) dv p t Hu) as (L&_&HL&Hlen). rewrite cnt_eq in Hlen.
    destruct L as [|isj L]; [simpl in Hlen; lia|]. destruct (proj1 (HL isj)) as (y&Hy&->); [left|]. eauto.
  - intros (isj&Hx). destruct (decide (multiplicity x (refs own t) = 0)) as [E|]; [|lia].
    exfalso. apply (H1 E isj). eauto.
Qed.
