From Coq Require Import NArith Lia ZifyBool ZifyNat ZifyN.
From Coq Require Import Strings.Byte.
From Verif Require Import Marshal_Model Marshal_Spec Marshal_Proof.
From stdpp Require Import prelude list numbers.

(** ** Loops *)
Lemma upto_lookup n i : upto n !! i = if decide (N.of_nat i < n)%N then Some (N.of_nat i) else None.
Proof.
  unfold upto. rewrite list_lookup_fmap. destruct (decide _).
  - rewrite lookup_seq_lt by lia. cbn [fmap option_fmap option_map]. f_equal.
  - rewrite lookup_seq_ge by lia. done.
Qed.
Lemma upto_length n : length (upto n) = N.to_nat n.
Proof. unfold upto. by rewrite fmap_length, seq_length. Qed.

Section mapM.
  Context {V : Type}.
  Lemma mapM_upto_Some (g : N → option V) vs :
    (∀ i v, vs !! i = Some v → g (N.of_nat i) = Some v) → mapM g (upto (blen vs)) = Some vs.
  Proof.
    intros H. apply mapM_Some_2. apply Forall2_same_length_lookup_2.
    - rewrite upto_length. unfold blen. lia.
    - intros i x y Hx Hy. rewrite upto_lookup in Hx. destruct (decide _); [|done].
      injection Hx as <-. by apply H.
  Qed.
  Lemma mapM_upto_inv (g : N → option V) n vs :
    mapM g (upto n) = Some vs → blen vs = n ∧ ∀ i v, vs !! i = Some v → g (N.of_nat i) = Some v.
  Proof.
    intros H%mapM_Some. pose proof (Forall2_length _ _ _ H) as HL. rewrite upto_length in HL.
    split; [unfold blen; lia|]. intros i v Hv.
    destruct (Forall2_lookup_r _ _ _ _ _ H Hv) as (x&Hx&Hg).
    rewrite upto_lookup in Hx. destruct (decide _); [|done]. by injection Hx as <-.
  Qed.
  Lemma mapM_upto_None (g : N → option V) n (i : N) :
    (i < n)%N → g i = None → mapM g (upto n) = None.
  Proof.
    intros Hi Hg. destruct (mapM g (upto n)) as [vs|] eqn:E; [|done].
    apply mapM_upto_inv in E as [HL H].
    destruct (lookup_lt_is_Some_2 vs (N.to_nat i)) as [v Hv]; [unfold blen in HL; lia|].
    specialize (H _ _ Hv). rewrite N2Nat.id in H. congruence.
  Qed.
  Lemma mapM_upto_ext (g h : N → option V) n :
    (∀ i, (i < n)%N → g i = h i) → mapM g (upto n) = mapM h (upto n).
  Proof.
    intros Hgh. destruct (mapM h (upto n)) as [vs|] eqn:E.
    - apply mapM_upto_inv in E as [<- H]. apply mapM_upto_Some. intros i v Hv.
      rewrite Hgh; [by apply H|]. apply lookup_lt_Some in Hv. unfold blen. lia.
    - apply mapM_None in E. apply stdpp.list.Exists_exists in E as (i&Hi&Hn).
      apply elem_of_list_lookup in Hi as (k&Hk). rewrite upto_lookup in Hk.
      destruct (decide _); [|done]. injection Hk as <-.
      apply mapM_upto_None with (N.of_nat k); [done|]. by rewrite Hgh.
  Qed.
  Lemma parse_loop_ok (get : N → option (option V)) (g : N → option V) n : ∀ i acc,
    (∀ j, (i ≤ j)%N → (j < i + N.of_nat n)%N → get j = Some (g j)) →
    parse_loop get n i acc = Some ((app acc) <$> mapM g (N.of_nat <$> seq (N.to_nat i) n)).
  Proof.
    induction n as [|n IH]; intros i acc H; cbn [parse_loop seq].
    - cbn. by rewrite app_nil_r.
    - rewrite H by lia. cbn [mbind option_bind]. cbn [fmap list_fmap]. cbn [mapM].
      rewrite N2Nat.id. destruct (g i) as [v|]; [|done].
      rewrite IH by (intros; apply H; lia).
      replace (N.to_nat (i + 1)) with (S (N.to_nat i)) by lia.
      cbn [mbind option_bind]. destruct (mapM g _) as [l|]; [|done].
      cbn. by rewrite <- app_assoc.
  Qed.
  Lemma parse_loop_upto (get : N → option (option V)) (g : N → option V) n :
    (∀ j, (j < n)%N → get j = Some (g j)) →
    parse_loop get (N.to_nat n) 0 [] = Some (mapM g (upto n)).
  Proof.
    intros H. rewrite (parse_loop_ok get g) by (intros; apply H; lia).
    unfold upto. change (N.to_nat 0) with 0. by destruct (mapM g _).
  Qed.
End mapM.

Lemma default_parsable_ok {V} (try : Slice → bytes → option (option V)) s d r :
  try s d = Some r → default_parsable try s d = Some (bool_decide (is_Some r)).
Proof.
  intros E. unfold default_parsable. rewrite E. cbn. by destruct r.
Qed.
Lemma default_parse_ok {V} (try : Slice → bytes → option (option V)) s d v :
  try s d = Some (Some v) → default_parse try s d = Some v.
Proof. intros E. unfold default_parse. by rewrite E. Qed.

Lemma div_bound (i L u : N) : (0 < u)%N → (i < L / u)%N → (i * u + u ≤ L)%N.
Proof.
  intros Hu Hi. pose proof (N.mul_div_le L u). assert (u * (i + 1) ≤ u * (L / u))%N by (apply N.mul_le_mono_l; lia). lia.
Qed.
Lemma div_bound_iff (i L u : N) : (0 < u)%N → (i * u ≤ L)%N ↔ (i ≤ L / u)%N.
Proof.
  intros Hu. split; intros.
  - apply N.div_le_lower_bound; lia.
  - pose proof (N.mul_div_le L u). assert (u * i ≤ u * (L / u))%N by (apply N.mul_le_mono_l; lia). lia.
Qed.
Lemma idx_disjoint (i j u : N) : (i ≠ j)%N → (i * u + u ≤ j * u ∨ j * u + u ≤ i * u)%N.
Proof. intros. destruct (N.lt_total i j) as [|[|]]; [left|done|right]; nia. Qed.

(** ** Sequences that fill their slice *)
Section useq.
  Context {V : Type} (f : Uniform V).
  Context (Hf : honours_uniform f) (Hv : valid (ufmt f)).
  Let H : honours (ufmt f) := hu_format f Hf Hv.
  Let Hpos := hu_positive f Hf.

  Lemma u_exec_length s d : fits s d → USeq.exec_length f s = Some (USeq.length f (sl_i s d)).
  Proof.
    intros Hs. unfold USeq.exec_length. rewrite (sl_len_ok _ _ Hs). cbn [mbind option_bind].
    rewrite udiv_ok by done. unfold USeq.length. by rewrite (fits_blen _ _ Hs).
  Qed.
  Lemma u_index s d i : fits s d → (i < USeq.length f (sl_i s d))%N →
    (sl_start s + (i * usz f + usz f) ≤ sl_end s)%N.
  Proof.
    intros Hs Hi. unfold USeq.length in Hi. rewrite (fits_blen _ _ Hs) in Hi.
    apply div_bound in Hi; [|done]. destruct Hs. lia.
  Qed.
  Lemma u_exec_get s d i : fits s d → (i < USeq.length f (sl_i s d))%N →
    USeq.exec_get f s i = Some (mkSlice (sl_start s + i * usz f) (sl_start s + (i * usz f + usz f))) ∧
    fits (mkSlice (sl_start s + i * usz f) (sl_start s + (i * usz f + usz f))) d ∧
    sl_i (mkSlice (sl_start s + i * usz f) (sl_start s + (i * usz f + usz f))) d
      = USeq.get_data f (sl_i s d) i.
  Proof.
    intros Hs Hi. pose proof (u_index _ _ _ Hs Hi). pose proof (fits_usize _ _ Hs).
    destruct (fits_subslice s d (i * usz f) (i * usz f + usz f) Hs) as [F1 F2]; [lia|done|].
    split; [|done]. unfold USeq.exec_get. rewrite umul_ok by lia. cbn [mbind option_bind].
    rewrite uadd_ok by lia. cbn [mbind option_bind]. rewrite (subslice_ok s d); [done|done|lia|lia].
  Qed.
  Lemma u_try_get_elt s d i : fits s d →
    USeq.try_get_elt f s d i =
    Some (if USeq.gettable f (sl_i s d) i then USeq.get_elt f (sl_i s d) i else None).
  Proof.
    intros Hs. unfold USeq.try_get_elt, USeq.try_get. rewrite (u_exec_length s d Hs).
    cbn [mbind option_bind]. unfold USeq.gettable. destruct (_ <? _)%N eqn:E; [|done].
    apply N.ltb_lt in E. destruct (u_exec_get s d i Hs E) as (G1&G2&G3).
    rewrite G1. cbn [mbind option_bind]. rewrite (ho_try _ H) by done. by rewrite G3.
  Qed.
  Lemma u_exec_get_elt s d i v : fits s d → USeq.gettable f (sl_i s d) i = true →
    USeq.get_elt f (sl_i s d) i = Some v → USeq.exec_get_elt f s d i = Some v.
  Proof.
    intros Hs E%N.ltb_lt Hg. destruct (u_exec_get s d i Hs E) as (G1&G2&G3).
    unfold USeq.exec_get_elt. rewrite G1. cbn [mbind option_bind].
    apply (ho_parse _ H); [done|]. by rewrite G3.
  Qed.
  Lemma u_length_usize s d : fits s d → (USeq.length f (sl_i s d) ≤ usize_max)%N ∧
    (usz f * USeq.length f (sl_i s d) ≤ isize_max)%N.
  Proof.
    intros Hs. unfold USeq.length. rewrite (fits_blen _ _ Hs). pose proof isize_usize.
    pose proof (N.mul_div_le (sl_end s - sl_start s) (usz f)). destruct Hs as (?&?&?).
    assert ((sl_end s - sl_start s) / usz f ≤ sl_end s - sl_start s)%N.
    { destruct (N.eq_dec (sl_end s - sl_start s) 0) as [->|]; [by rewrite N.div_0_l by lia|].
      apply N.div_le_upper_bound; nia. }
    lia.
  Qed.
  Lemma u_try_parse s d : fits s d → USeq.try_parse f s d = Some (USeq.spec_parse f (sl_i s d)).
  Proof.
    intros Hs. unfold USeq.try_parse. rewrite (u_exec_length s d Hs). cbn [mbind option_bind].
    destruct (u_length_usize _ _ Hs) as [HL HM].
    rewrite capacity_ok.
    2:{ etrans; [|exact HM]. apply N.mul_le_mono_r. apply (hu_memory f Hf). }
    cbn [mbind option_bind]. unfold USeq.spec_parse.
    destruct (_ <=? _)%N eqn:E; [|apply N.leb_gt in E; lia].
    apply parse_loop_upto. intros j _. by apply u_try_get_elt.
  Qed.

  Lemma u_set s d i v : fits s d → (i < USeq.length f (sl_i s d))%N →
    marshallable (ufmt f) v → spec_size (ufmt f) v = usz f →
    ∃ d', USeq.exec_set f s d i v = Some d' ∧
      changed_only_in d d' (sl_start s + i * usz f) (sl_start s + (i * usz f + usz f)) ∧
      USeq.get_elt f (sl_i s d') i = Some v.
  Proof.
    intros Hs Hi Hm Hsz. pose proof (u_index _ _ _ Hs Hi). pose proof (fits_usize _ _ Hs).
    unfold USeq.exec_set. rewrite umul_ok by lia. cbn [mbind option_bind].
    rewrite uadd_ok by lia. cbn [mbind option_bind].
    destruct (ho_marshall _ H v d (sl_start s + i * usz f)%N Hm) as (d'&E&Hc&Hp).
    { destruct Hs as (?&?&?). lia. } { by destruct Hs as (?&?&?). }
    rewrite E, Hsz in *. cbn [mbind option_bind fst]. exists d'. split; [done|].
    assert (Hc' : changed_only_in d d' (sl_start s + i * usz f) (sl_start s + (i * usz f + usz f))).
    { eapply changed_weaken; [exact Hc|lia..]. }
    split; [done|]. unfold USeq.get_elt, USeq.get_data, sl_i. rewrite sub_sub by lia.
    by replace (sl_start s + (i * usz f + usz f))%N with (sl_start s + i * usz f + usz f)%N by lia.
  Qed.
  Lemma u_other s d d' i j : fits s d → (i < USeq.length f (sl_i s d))%N → (i ≠ j)%N →
    changed_only_in d d' (sl_start s + i * usz f) (sl_start s + (i * usz f + usz f)) →
    USeq.gettable f (sl_i s d') j = USeq.gettable f (sl_i s d) j ∧
    USeq.get_elt f (sl_i s d') j = USeq.get_elt f (sl_i s d) j.
  Proof.
    intros Hs Hi Hij Hc. pose proof (u_index _ _ _ Hs Hi) as Hb.
    apply changed_sl in Hc; [|done..]. split.
    - unfold USeq.gettable, USeq.length. by rewrite (changed_len _ _ _ _ Hc).
    - unfold USeq.get_elt, USeq.get_data. f_equal. eapply changed_sub; [exact Hc|].
      pose proof (idx_disjoint i j (usz f) Hij). lia.
  Qed.

  Lemma u_marshall_loop vs : ∀ d p,
    Forall (λ v, marshallable (ufmt f) v ∧ spec_size (ufmt f) v = usz f) vs →
    (p + blen vs * usz f ≤ blen d)%N → (blen d ≤ isize_max)%N →
    ∃ d', USeq.marshall_loop f vs d p = Some (d', (p + blen vs * usz f)%N) ∧
      changed_only_in d d' p (p + blen vs * usz f) ∧
      ∀ i v, vs !! i = Some v →
        spec_parse (ufmt f) (sub d' (p + N.of_nat i * usz f) (p + N.of_nat i * usz f + usz f)) = Some v.
  Proof.
    induction vs as [|v vs IH]; intros d p Hall Hp Hd; cbn [USeq.marshall_loop].
    - exists d. unfold blen at 1 2. cbn [length]. rewrite N.mul_0_l, N.add_0_r.
      split; [done|]. split; [apply changed_refl|done].
    - apply stdpp.list.Forall_cons in Hall as [[Hm Hsz] Hall].
      assert (blen (v :: vs) = 1 + blen vs)%N as Hbl by (unfold blen; cbn [length]; lia).
      rewrite Hbl in *.
      destruct (ho_marshall _ H v d p Hm) as (d1&E&Hc&Hr); [lia|done|].
      rewrite E, Hsz in *. cbn [mbind option_bind fst snd].
      pose proof (changed_len _ _ _ _ Hc) as HL.
      destruct (IH d1 (p + usz f)%N Hall) as (d2&E2&Hc2&Hr2); [lia|lia|].
      exists d2. rewrite E2. split; [do 2 f_equal; lia|]. split.
      { eapply changed_trans; [exact Hc|exact Hc2|lia..]. }
      intros [|i] w; cbn [lookup list_lookup].
      + intros [= <-]. change (N.of_nat 0) with 0%N. rewrite N.mul_0_l, N.add_0_r.
        rewrite <- Hr. f_equal. eapply changed_sub; [exact Hc2|lia].
      + intros Hw%Hr2. rewrite <- Hw. f_equal. f_equal; lia.
  Qed.
  Lemma useq_honours : honours (USeq.format f).
  Proof.
    split; cbn [USeq.format marshallable exec_size spec_size try_parse spec_parse exec_parsable exec_parse exec_marshall].
    - intros vs [_ Hsz]. split; [by apply umul_ok|done].
    - apply u_try_parse.
    - intros s d Hs. apply default_parsable_ok. by apply u_try_parse.
    - intros s d vs Hs E. apply default_parse_ok. rewrite u_try_parse by done. by rewrite E.
    - intros vs d p [Hall Hsz] Hp Hd.
      destruct (u_marshall_loop vs d p Hall Hp Hd) as (d'&E&Hc&Hr).
      exists d'. split_and!; [done..|].
      pose proof (changed_len _ _ _ _ Hc) as HL.
      assert (USeq.length f (sub d' p (p + blen vs * usz f)) = blen vs) as HLen.
      { unfold USeq.length. rewrite sub_blen by lia.
        replace (p + blen vs * usz f - p)%N with (blen vs * usz f)%N by lia.
        apply N.div_mul. lia. }
      unfold USeq.spec_parse. rewrite HLen.
      destruct (_ <=? _)%N eqn:E'; [|apply N.leb_gt in E'; nia].
      apply mapM_upto_Some. intros i v Hv'. pose proof (lookup_lt_Some _ _ _ Hv') as Hi.
      unfold USeq.gettable. rewrite HLen. destruct (_ <? _)%N eqn:E2; [|apply N.ltb_ge in E2; unfold blen in E2; lia].
      unfold USeq.get_elt, USeq.get_data. rewrite sub_sub.
      + rewrite N.add_assoc. by apply Hr.
      + apply N.ltb_lt in E2. nia.
  Qed.
End useq.
