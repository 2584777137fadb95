From Coq Require Import NArith Lia ZifyBool ZifyNat ZifyN.
From Coq Require Import Strings.Byte.
From Verif Require Import Marshal_Model Marshal_Spec Marshal_Proof MarshalSeq_Proof.
From stdpp Require Import prelude list numbers.

Section rseq.
  Context {V : Type} (f : RSeq.Fmt V).
  Context (Hf : honours_uniform (RSeq.eltf f)) (Hval : RSeq.seq_valid f).
  Notation L := (isz (RSeq.lent f)).
  Notation u := (usz (RSeq.eltf f)).
  Notation T := (RSeq.total_size f).
  Notation M := (RSeq.spec_max_length f).
  Let H : honours (ufmt (RSeq.eltf f)) := hu_format _ Hf (proj1 Hval).
  Let Hpos := hu_positive _ Hf.

  Lemma r_max : RSeq.max_length f = M.
  Proof. apply Hval. Qed.
  Lemma r_lenT : (L ≤ T)%N.
  Proof. apply Hval. Qed.
  Lemma r_index i : (i < M)%N → (L + (i * u + u) ≤ T)%N.
  Proof.
    intros Hi. unfold RSeq.spec_max_length in Hi. apply div_bound in Hi; [|done].
    pose proof r_lenT. lia.
  Qed.
  Lemma r_max_bytes : (L + M * u ≤ T)%N.
  Proof.
    pose proof r_lenT. pose proof (proj2 (div_bound_iff M (T - L) u Hpos)) as B.
    unfold RSeq.spec_max_length in *. lia.
  Qed.
  Lemma r_lengthable s d : fits s d → RSeq.lengthable f (sl_i s d) = true →
    (sl_start s + T ≤ sl_end s)%N.
  Proof.
    unfold RSeq.lengthable. intros Hs. rewrite (fits_blen _ _ Hs). destruct Hs as (?&?&?). lia.
  Qed.
  Lemma r_length_sub d : RSeq.length f d = from_le (sub d 0 L).
  Proof. unfold RSeq.length. by rewrite sub_sub by lia. Qed.
  Lemma r_length_max d : RSeq.lengthable f d = true → (RSeq.length f d ≤ imax (RSeq.lent f))%N.
  Proof.
    intros Hl. unfold RSeq.lengthable in Hl. pose proof r_lenT. rewrite r_length_sub.
    apply from_le_max. rewrite sub_length by lia. unfold isz. lia.
  Qed.
  Lemma r_try_length s d : fits s d →
    RSeq.try_length f s d =
    Some (if RSeq.lengthable f (sl_i s d) then Some (RSeq.length f (sl_i s d)) else None).
  Proof.
    intros Hs. unfold RSeq.try_length. rewrite (sl_len_ok _ _ Hs). cbn [mbind option_bind].
    destruct (RSeq.lengthable f (sl_i s d)) eqn:E.
    - pose proof (r_lengthable _ _ Hs E) as HT. pose proof r_lenT.
      destruct (_ <? _)%N eqn:E2; [apply N.ltb_lt in E2; lia|].
      rewrite (subslice_ok s d 0 L Hs) by lia. cbn [mbind option_bind].
      destruct (fits_subslice s d 0 L Hs) as [F1 F2]; [lia..|].
      rewrite (ho_parse _ (int_honours (RSeq.lent f)) _ _ (RSeq.length f (sl_i s d)) F1); [done|].
      rewrite F2. cbn [int_format spec_parse]. rewrite sub_blen by (rewrite (fits_blen _ _ Hs); lia).
      destruct (_ <=? _)%N eqn:E3; [done|apply N.leb_gt in E3; lia].
    - unfold RSeq.lengthable in E. rewrite (fits_blen _ _ Hs) in E.
      destruct (_ <? _)%N eqn:E2; [done|apply N.ltb_ge in E2; lia].
  Qed.
  Lemma r_exec_length s d : fits s d → RSeq.lengthable f (sl_i s d) = true →
    RSeq.exec_length f s d = Some (RSeq.length f (sl_i s d)).
  Proof. intros Hs E. unfold RSeq.exec_length. rewrite r_try_length by done. by rewrite E. Qed.
  Lemma r_exec_lengthable s d : fits s d →
    RSeq.exec_lengthable f s d = Some (RSeq.lengthable f (sl_i s d)).
  Proof.
    intros Hs. unfold RSeq.exec_lengthable. rewrite r_try_length by done. cbn. by destruct (RSeq.lengthable _ _).
  Qed.
  Lemma r_exec_get s d i : fits s d → RSeq.lengthable f (sl_i s d) = true → (i < M)%N →
    RSeq.exec_get f s i = Some (mkSlice (sl_start s + (L + i * u)) (sl_start s + (L + i * u + u))) ∧
    fits (mkSlice (sl_start s + (L + i * u)) (sl_start s + (L + i * u + u))) d ∧
    sl_i (mkSlice (sl_start s + (L + i * u)) (sl_start s + (L + i * u + u))) d
      = RSeq.get_data f (sl_i s d) i.
  Proof.
    intros Hs E Hi. pose proof (r_lengthable _ _ Hs E). pose proof (r_index _ Hi).
    pose proof (fits_usize _ _ Hs).
    destruct (fits_subslice s d (L + i * u) (L + i * u + u) Hs) as [F1 F2]; [lia..|].
    split; [|done]. unfold RSeq.exec_get. rewrite umul_ok by lia. cbn [mbind option_bind].
    rewrite uadd_ok by lia. cbn [mbind option_bind]. rewrite uadd_ok by lia. cbn [mbind option_bind].
    apply (subslice_ok s d); [done|lia..].
  Qed.
  Lemma r_try_get_elt s d i : fits s d →
    RSeq.try_get_elt f s d i =
    Some (if RSeq.gettable f (sl_i s d) i then RSeq.get_elt f (sl_i s d) i else None).
  Proof.
    intros Hs. unfold RSeq.try_get_elt, RSeq.try_get. rewrite (r_try_length s d Hs).
    cbn [mbind option_bind]. unfold RSeq.gettable. rewrite r_max.
    destruct (RSeq.lengthable f (sl_i s d)) eqn:E; [|done]. cbn [andb].
    destruct (_ <? _)%N eqn:E2; [|done]. apply N.ltb_lt in E2.
    destruct (r_exec_get s d i Hs E E2) as (G1&G2&G3).
    rewrite G1. cbn [mbind option_bind]. rewrite (ho_try _ H) by done. by rewrite G3.
  Qed.
  Lemma r_gettable d i : RSeq.gettable f d i = true ↔ RSeq.lengthable f d = true ∧ (i < M)%N.
  Proof. unfold RSeq.gettable. rewrite andb_true_iff, N.ltb_lt. done. Qed.
  Lemma r_exec_get_elt s d i v : fits s d → RSeq.gettable f (sl_i s d) i = true →
    RSeq.get_elt f (sl_i s d) i = Some v → RSeq.exec_get_elt f s d i = Some v.
  Proof.
    intros Hs [E Hi]%r_gettable Hg. destruct (r_exec_get s d i Hs E Hi) as (G1&G2&G3).
    unfold RSeq.exec_get_elt. rewrite G1. cbn [mbind option_bind].
    apply (ho_parse _ H); [done|]. by rewrite G3.
  Qed.

  (** The view of the bytes as a list. *)
  Lemma r_view_elim d vs : RSeq.spec_parse f d = Some vs →
    RSeq.lengthable f d = true ∧ RSeq.length f d = blen vs ∧ (blen vs ≤ M)%N ∧
    ∀ i v, vs !! i = Some v → RSeq.get_elt f d (N.of_nat i) = Some v.
  Proof.
    unfold RSeq.spec_parse. destruct (RSeq.lengthable f d) eqn:E; [|done]. cbn [andb].
    destruct (_ <=? _)%N; [|done]. intros [HL Hg]%mapM_upto_inv. split_and!; [done|done| |].
    - destruct (N.le_gt_cases (blen vs) M) as [|Hgt]; [done|].
      destruct (lookup_lt_is_Some_2 vs (N.to_nat M)) as [v Hv]; [unfold blen in Hgt; lia|].
      apply Hg in Hv. rewrite N2Nat.id in Hv. destruct (RSeq.gettable f d M) eqn:G; [|done].
      apply r_gettable in G as [_ ?]. lia.
    - intros i v Hv%Hg. by destruct (RSeq.gettable f d (N.of_nat i)).
  Qed.
  Lemma r_view_intro d vs : RSeq.lengthable f d = true → RSeq.length f d = blen vs → (blen vs ≤ M)%N →
    (∀ i v, vs !! i = Some v → RSeq.get_elt f d (N.of_nat i) = Some v) → RSeq.spec_parse f d = Some vs.
  Proof.
    intros E HL HM Hg. unfold RSeq.spec_parse. rewrite E. cbn [andb].
    pose proof (r_length_max d E). pose proof (imax_usize (RSeq.lent f)).
    destruct (_ <=? _)%N eqn:E2; [|apply N.leb_gt in E2; lia].
    rewrite HL. apply mapM_upto_Some. intros i v Hv.
    assert (RSeq.gettable f d (N.of_nat i) = true) as ->; [|by apply Hg].
    apply r_gettable. split; [done|]. apply lookup_lt_Some in Hv. unfold blen in HM. lia.
  Qed.
  Lemma r_view_too_long d : RSeq.lengthable f d = true → (M < RSeq.length f d)%N → RSeq.spec_parse f d = None.
  Proof.
    intros E HM. destruct (RSeq.spec_parse f d) as [vs|] eqn:Ep; [|done].
    apply r_view_elim in Ep as (_&HL&?&_). lia.
  Qed.

  (** Parsing *)
  Lemma r_try_parse s d :
    RSeq.checked f = true ∨ (elt_bytes (ufmt (RSeq.eltf f)) * imax (RSeq.lent f) ≤ isize_max)%N →
    fits s d → RSeq.try_parse f s d = Some (RSeq.spec_parse f (sl_i s d)).
  Proof.
    intros Hcap Hs. unfold RSeq.try_parse. rewrite (r_try_length s d Hs). cbn [mbind option_bind].
    destruct (RSeq.lengthable f (sl_i s d)) eqn:E.
    2:{ unfold RSeq.spec_parse. by rewrite E. }
    pose proof (r_length_max _ E) as Hmax. rewrite r_max.
    destruct (RSeq.checked f && _) eqn:E2.
    { apply andb_prop in E2 as [_ E2%N.ltb_lt]. by rewrite r_view_too_long. }
    rewrite capacity_ok.
    - cbn [mbind option_bind]. unfold RSeq.spec_parse. rewrite E. cbn [andb].
      pose proof (imax_usize (RSeq.lent f)).
      destruct (_ <=? _)%N eqn:E3; [|apply N.leb_gt in E3; lia].
      apply parse_loop_upto. intros j _. by apply r_try_get_elt.
    - destruct Hcap as [Hc|Hc].
      + rewrite Hc in E2. cbn [andb] in E2. apply N.ltb_ge in E2.
        pose proof (r_lengthable _ _ Hs E). pose proof r_max_bytes. pose proof (hu_memory _ Hf).
        destruct Hs as (?&?&?).
        etrans; [apply N.mul_le_mono; [done|exact E2]|]. lia.
      + etrans; [|exact Hc]. by apply N.mul_le_mono_l.
  Qed.

  (** Changes *)
  Lemma r_same_len s d d' a b : fits s d → changed_only_in d d' a b →
    blen (sl_i s d') = blen (sl_i s d).
  Proof.
    intros Hs Hc. rewrite (fits_blen _ _ Hs). apply fits_blen. by eapply fits_changed.
  Qed.
  Lemma r_set s d i v : fits s d → RSeq.lengthable f (sl_i s d) = true → (i < M)%N →
    marshallable (ufmt (RSeq.eltf f)) v → spec_size (ufmt (RSeq.eltf f)) v = u →
    ∃ d', RSeq.exec_set f s d i v = Some d' ∧
      changed_only_in d d' (sl_start s + (L + i * u)) (sl_start s + (L + i * u + u)) ∧
      RSeq.lengthable f (sl_i s d') = true ∧
      RSeq.length f (sl_i s d') = RSeq.length f (sl_i s d) ∧
      RSeq.get_elt f (sl_i s d') i = Some v ∧
      ∀ j, j ≠ i → RSeq.get_elt f (sl_i s d') j = RSeq.get_elt f (sl_i s d) j.
  Proof.
    intros Hs E Hi Hm Hsz. pose proof (r_lengthable _ _ Hs E). pose proof (r_index _ Hi).
    pose proof (fits_usize _ _ Hs).
    unfold RSeq.exec_set. rewrite uadd_ok by lia. cbn [mbind option_bind].
    rewrite umul_ok by lia. cbn [mbind option_bind]. rewrite uadd_ok by lia. cbn [mbind option_bind].
    destruct (ho_marshall _ H v d (sl_start s + L + i * u)%N Hm) as (d'&E'&Hc&Hp).
    { destruct Hs as (?&?&?). lia. } { by destruct Hs as (?&?&?). }
    rewrite E', Hsz in *. cbn [mbind option_bind fst]. exists d'. split; [done|].
    assert (Hc' : changed_only_in d d' (sl_start s + (L + i * u)) (sl_start s + (L + i * u + u))).
    { eapply changed_weaken; [exact Hc|lia..]. }
    split; [done|]. pose proof Hc' as Hc2. apply changed_sl in Hc2; [|done|lia].
    split_and!.
    - unfold RSeq.lengthable in *. by rewrite (changed_len _ _ _ _ Hc2).
    - rewrite !r_length_sub. f_equal. eapply changed_sub; [exact Hc2|lia].
    - unfold RSeq.get_elt, RSeq.get_data, sl_i. rewrite sub_sub by lia.
      rewrite <- Hp. f_equal. f_equal; lia.
    - intros j Hj. unfold RSeq.get_elt, RSeq.get_data. f_equal. eapply changed_sub; [exact Hc2|].
      pose proof (idx_disjoint i j u). lia.
  Qed.
  Lemma r_resize s d n : fits s d → RSeq.lengthable f (sl_i s d) = true →
    (n ≤ imax (RSeq.lent f))%N →
    ∃ d', RSeq.resize f s d n = Some d' ∧
      changed_only_in d d' (sl_start s) (sl_start s + L) ∧
      RSeq.lengthable f (sl_i s d') = true ∧
      RSeq.length f (sl_i s d') = n ∧
      ∀ j, RSeq.get_elt f (sl_i s d') j = RSeq.get_elt f (sl_i s d) j.
  Proof.
    intros Hs E Hn. pose proof (r_lengthable _ _ Hs E) as HT. pose proof r_lenT.
    unfold RSeq.resize. rewrite from_usize_id by done.
    destruct (ho_marshall _ (int_honours (RSeq.lent f)) n d (sl_start s) Hn) as (d'&E'&Hc&Hp).
    { cbn [int_format spec_size]. destruct Hs as (?&?&?). lia. } { by destruct Hs as (?&?&?). }
    cbn [int_format exec_marshall spec_size spec_parse] in *. rewrite E'. cbn [mbind option_bind fst].
    exists d'. split; [done|]. split; [done|].
    assert (Hc2 : changed_only_in (sl_i s d) (sl_i s d') 0 L).
    { apply changed_sl; [|done|lia]. by rewrite N.add_0_r. }
    split_and!.
    - unfold RSeq.lengthable in *. by rewrite (changed_len _ _ _ _ Hc2).
    - rewrite r_length_sub. unfold sl_i. rewrite sub_sub by lia. rewrite N.add_0_r.
      destruct (_ <=? _)%N eqn:E2; [|done]. injection Hp as Hp.
      rewrite sub_sub, N.add_0_r in Hp by lia. done.
    - intros j. unfold RSeq.get_elt, RSeq.get_data. f_equal. eapply changed_sub; [exact Hc2|lia].
  Qed.
  Lemma r_initialize s d : fits s d → RSeq.lengthable f (sl_i s d) = true →
    ∃ d', RSeq.initialize f s d = Some d' ∧
      changed_only_in d d' (sl_start s) (sl_start s + L) ∧
      RSeq.spec_parse f (sl_i s d') = Some [].
  Proof.
    intros Hs E. destruct (r_resize s d 0 Hs E) as (d'&E'&Hc&Hl&Hlen&Hg); [lia|].
    exists d'. split_and!; [done..|]. apply r_view_intro; [done|done| |].
    - unfold blen. cbn [length]. lia.
    - done.
  Qed.
  Lemma r_append s d v : fits s d → RSeq.lengthable f (sl_i s d) = true →
    (RSeq.length f (sl_i s d) < M)%N → (RSeq.length f (sl_i s d) + 1 ≤ imax (RSeq.lent f))%N →
    marshallable (ufmt (RSeq.eltf f)) v → spec_size (ufmt (RSeq.eltf f)) v = u →
    ∃ d' d1, RSeq.exec_append f s d v = Some d' ∧
      changed_only_in d d1 (sl_start s) (sl_start s + L) ∧
      changed_only_in d1 d' (sl_start s + (L + RSeq.length f (sl_i s d) * u))
                            (sl_start s + (L + RSeq.length f (sl_i s d) * u + u)) ∧
      RSeq.lengthable f (sl_i s d') = true ∧
      RSeq.length f (sl_i s d') = (RSeq.length f (sl_i s d) + 1)%N ∧
      RSeq.get_elt f (sl_i s d') (RSeq.length f (sl_i s d)) = Some v ∧
      ∀ j, j ≠ RSeq.length f (sl_i s d) → RSeq.get_elt f (sl_i s d') j = RSeq.get_elt f (sl_i s d) j.
  Proof.
    intros Hs E Hi Hmax Hm Hsz. unfold RSeq.exec_append. rewrite r_exec_length by done.
    cbn [mbind option_bind]. pose proof (imax_usize (RSeq.lent f)). rewrite uadd_ok by lia. cbn [mbind option_bind].
    destruct (r_resize s d _ Hs E Hmax) as (d1&E1&Hc1&Hl1&Hlen1&Hg1). rewrite E1. cbn [mbind option_bind].
    pose proof (fits_changed _ _ _ _ _ Hs Hc1) as Hs1.
    destruct (r_set s d1 _ v Hs1 Hl1 Hi Hm Hsz) as (d2&E2&Hc2&Hl2&Hlen2&Hg2&Ho2).
    exists d2, d1. split_and!; [done..| |done|].
    - by rewrite Hlen2.
    - intros j Hj. by rewrite Ho2, Hg1.
  Qed.

  (** Changes of the list *)
  Lemma r_view_append s d v vs : fits s d → RSeq.spec_parse f (sl_i s d) = Some vs →
    (blen vs < M)%N → (blen vs + 1 ≤ imax (RSeq.lent f))%N →
    marshallable (ufmt (RSeq.eltf f)) v → spec_size (ufmt (RSeq.eltf f)) v = u →
    ∃ d', RSeq.exec_append f s d v = Some d' ∧
      changed_only_in d d' (sl_start s) (sl_start s + (L + blen vs * u + u)) ∧
      RSeq.spec_parse f (sl_i s d') = Some (vs ++ [v]).
  Proof.
    intros Hs (E&HL&HM&Hg)%r_view_elim Hlt Hmax Hm Hsz.
    destruct (r_append s d v Hs E) as (d'&d1&E'&Hc1&Hc2&Hl&Hlen&Hn&Ho); try (rewrite HL; done); [done..|].
    rewrite HL in *. exists d'. split; [done|]. split.
    { eapply changed_trans; [exact Hc1|exact Hc2|lia..]. }
    apply r_view_intro; [done| | |].
    - rewrite Hlen. unfold blen. rewrite app_length. cbn [length]. lia.
    - unfold blen in *. rewrite app_length. cbn [length]. lia.
    - intros i w Hw. destruct (decide (i < length vs)).
      + rewrite lookup_app_l in Hw by done. rewrite Ho by (unfold blen; lia). by apply Hg.
      + assert (i = length vs) as -> by (apply lookup_lt_Some in Hw; rewrite app_length in Hw; cbn in Hw; lia).
        rewrite list_lookup_middle in Hw by done. injection Hw as <-. exact Hn.
  Qed.
  Lemma r_view_set s d i v vs : fits s d → RSeq.spec_parse f (sl_i s d) = Some vs →
    (i < M)%N → marshallable (ufmt (RSeq.eltf f)) v → spec_size (ufmt (RSeq.eltf f)) v = u →
    ∃ d', RSeq.exec_set f s d i v = Some d' ∧
      changed_only_in d d' (sl_start s + (L + i * u)) (sl_start s + (L + i * u + u)) ∧
      RSeq.spec_parse f (sl_i s d') = Some (<[N.to_nat i := v]> vs).
  Proof.
    intros Hs (E&HL&HM&Hg)%r_view_elim Hi Hm Hsz.
    destruct (r_set s d i v Hs E Hi Hm Hsz) as (d'&E'&Hc&Hl&Hlen&Hn&Ho).
    exists d'. split_and!; [done..|]. apply r_view_intro; [done| | |].
    - rewrite Hlen, HL. unfold blen. by rewrite insert_length.
    - unfold blen in *. by rewrite insert_length.
    - intros j w Hw. destruct (decide (j = N.to_nat i)) as [->|Hj].
      + rewrite list_lookup_insert in Hw.
        * injection Hw as <-. by rewrite N2Nat.id.
        * apply lookup_lt_Some in Hw. by rewrite insert_length in Hw.
      + rewrite list_lookup_insert_ne in Hw by done. rewrite Ho by lia. by apply Hg.
  Qed.
  Lemma r_view_truncate s d n vs : fits s d → RSeq.spec_parse f (sl_i s d) = Some vs →
    (n ≤ blen vs)%N →
    ∃ d', RSeq.resize f s d n = Some d' ∧
      changed_only_in d d' (sl_start s) (sl_start s + L) ∧
      RSeq.spec_parse f (sl_i s d') = Some (take (N.to_nat n) vs).
  Proof.
    intros Hs (E&HL&HM&Hg)%r_view_elim Hn. pose proof (r_length_max _ E).
    destruct (r_resize s d n Hs E) as (d'&E'&Hc&Hl&Hlen&Ho); [lia|].
    exists d'. split_and!; [done..|]. apply r_view_intro; [done| | |].
    - rewrite Hlen. unfold blen in *. rewrite take_length. lia.
    - unfold blen in *. rewrite take_length. lia.
    - intros j w Hw. apply lookup_take_Some in Hw as [Hw _]. rewrite Ho. by apply Hg.
  Qed.

  (** Checks *)
  Lemma r_exec_appendable s d v vs : fits s d → RSeq.spec_parse f (sl_i s d) = Some vs →
    marshallable (ufmt (RSeq.eltf f)) v →
    RSeq.exec_appendable f s d v =
    Some (bool_decide (spec_size (ufmt (RSeq.eltf f)) v = u ∧ blen vs < M ∧ blen vs + 1 ≤ imax (RSeq.lent f))%N).
  Proof.
    intros Hs (E&HL&HM&Hg)%r_view_elim Hm. unfold RSeq.exec_appendable.
    rewrite r_exec_length by done. cbn [mbind option_bind].
    destruct (ho_size _ H v Hm) as [-> _]. cbn [mbind option_bind]. rewrite HL, r_max.
    pose proof (r_length_max _ E). pose proof (imax_usize (RSeq.lent f)).
    assert (blen vs + 1 ≤ usize_max ∨ M = 0 ∨ blen vs = usize_max)%N as Hov by lia.
    destruct (_ && _) eqn:E2.
    - apply andb_prop in E2 as [E2%N.ltb_lt E3%N.eqb_eq].
      destruct (decide (blen vs + 1 ≤ usize_max)%N) as [Hok|Hbad].
      + rewrite uadd_ok by done. cbn [mbind option_bind]. f_equal.
        destruct (_ <=? _)%N eqn:E4.
        * apply N.leb_le in E4. symmetry. by apply bool_decide_eq_true_2.
        * apply N.leb_gt in E4. symmetry. apply bool_decide_eq_false_2. lia.
      + exfalso. pose proof (r_lengthable _ _ Hs E) as HT. pose proof (fits_usize _ _ Hs).
        pose proof r_max_bytes. assert (1 ≤ u)%N by lia. nia.
    - f_equal. symmetry. apply bool_decide_eq_false_2. intros (?&?&?).
      apply andb_false_iff in E2. rewrite N.ltb_ge, N.eqb_neq in E2. lia.
  Qed.
  Lemma r_exec_settable s d i v : fits s d → RSeq.lengthable f (sl_i s d) = true →
    marshallable (ufmt (RSeq.eltf f)) v →
    RSeq.exec_settable f s d i v =
    Some (bool_decide (spec_size (ufmt (RSeq.eltf f)) v = u ∧ i < M)%N).
  Proof.
    intros Hs E Hm. unfold RSeq.exec_settable. rewrite r_try_length, E by done. cbn [mbind option_bind].
    destruct (ho_size _ H v Hm) as [-> _]. cbn [mbind option_bind andb]. rewrite r_max. f_equal.
    destruct (_ && _) eqn:E2.
    - apply andb_prop in E2 as [E2%N.ltb_lt E3%N.eqb_eq]. symmetry. by apply bool_decide_eq_true_2.
    - apply andb_false_iff in E2. rewrite N.ltb_ge, N.eqb_neq in E2. symmetry. apply bool_decide_eq_false_2. lia.
  Qed.
  Lemma r_exec_resizable s d n : fits s d → RSeq.lengthable f (sl_i s d) = true →
    RSeq.exec_resizable f s d n = Some (bool_decide (n ≤ M ∧ n ≤ imax (RSeq.lent f))%N).
  Proof.
    intros Hs E. unfold RSeq.exec_resizable. rewrite r_exec_lengthable, E by done.
    cbn [mbind option_bind andb]. rewrite r_max. f_equal.
    destruct (_ && _) eqn:E2.
    - apply andb_prop in E2 as [E2%N.leb_le E3%N.leb_le]. symmetry. by apply bool_decide_eq_true_2.
    - apply andb_false_iff in E2. rewrite !N.leb_gt in E2. symmetry. apply bool_decide_eq_false_2. lia.
  Qed.

  (** Marshalling at once *)
  Lemma r_set_loop s vs : ∀ d i,
    Forall (λ v, marshallable (ufmt (RSeq.eltf f)) v ∧ spec_size (ufmt (RSeq.eltf f)) v = u) vs →
    fits s d → RSeq.lengthable f (sl_i s d) = true → (i + blen vs ≤ M)%N →
    ∃ d', RSeq.set_loop f s vs d i = Some d' ∧
      changed_only_in d d' (sl_start s + (L + i * u)) (sl_start s + (L + (i + blen vs) * u)) ∧
      RSeq.lengthable f (sl_i s d') = true ∧
      RSeq.length f (sl_i s d') = RSeq.length f (sl_i s d) ∧
      (∀ k v, vs !! k = Some v → RSeq.get_elt f (sl_i s d') (i + N.of_nat k) = Some v) ∧
      (∀ j, (j < i)%N → RSeq.get_elt f (sl_i s d') j = RSeq.get_elt f (sl_i s d) j).
  Proof.
    induction vs as [|v vs IH]; intros d i Hall Hs E Hi; cbn [RSeq.set_loop].
    - exists d. by split_and!.
    - apply stdpp.list.Forall_cons in Hall as [[Hm Hsz] Hall].
      assert (blen (v :: vs) = 1 + blen vs)%N as Hbl by (unfold blen; cbn [length]; lia).
      rewrite Hbl in *.
      destruct (r_set s d i v Hs E) as (d1&E1&Hc1&Hl1&Hlen1&Hn1&Ho1); [lia|done..|].
      rewrite E1. cbn [mbind option_bind].
      pose proof (fits_changed _ _ _ _ _ Hs Hc1) as Hs1.
      destruct (IH d1 (i + 1)%N Hall Hs1 Hl1) as (d2&E2&Hc2&Hl2&Hlen2&Hn2&Ho2); [lia|].
      exists d2. split_and!; [done| |done|by rewrite Hlen2| |].
      + eapply changed_trans; [exact Hc1|exact Hc2|lia|lia|lia|lia].
      + intros [|k] w; cbn [lookup list_lookup].
        * intros [= <-]. change (N.of_nat 0) with 0%N. rewrite N.add_0_r, Ho2 by lia. done.
        * intros Hw%Hn2. rewrite <- Hw. f_equal. lia.
      + intros j Hj. rewrite Ho2, Ho1 by lia. done.
  Qed.
  Lemma rseq_honours :
    RSeq.checked f = true ∨ (elt_bytes (ufmt (RSeq.eltf f)) * imax (RSeq.lent f) ≤ isize_max)%N →
    (T ≤ usize_max)%N → honours (RSeq.format f).
  Proof.
    intros Hcap HTu.
    split; cbn [RSeq.format marshallable exec_size spec_size try_parse spec_parse exec_parsable exec_parse exec_marshall].
    - intros vs _. done.
    - intros s d Hs. by apply r_try_parse.
    - intros s d Hs. apply default_parsable_ok. by apply r_try_parse.
    - intros s d vs Hs E. apply default_parse_ok. rewrite r_try_parse by done. by rewrite E.
    - intros vs d p (Hall&Hmax&Hsz) Hp Hd. pose proof isize_usize. pose proof r_lenT.
      unfold RSeq.marshall. rewrite uadd_ok by lia. cbn [mbind option_bind].
      set (s := mkSlice p (p + T)).
      assert (Hs : fits s d) by (unfold fits, s; cbn [sl_start sl_end]; lia).
      assert (E : RSeq.lengthable f (sl_i s d) = true).
      { unfold RSeq.lengthable. rewrite (fits_blen _ _ Hs). unfold s. cbn [sl_start sl_end]. lia. }
      destruct (r_resize s d (blen vs) Hs E Hmax) as (d1&E1&Hc1&Hl1&Hlen1&Hg1).
      unfold RSeq.resize in E1. cbn [sl_start s] in E1.
      destruct (exec_marshall (int_format (RSeq.lent f)) (from_usize (RSeq.lent f) (blen vs)) d p) as [[d1' e1]|] eqn:Em;
        [|done].
      cbn [mbind option_bind fst] in E1 |- *. injection E1 as ->.
      pose proof (fits_changed _ _ _ _ _ Hs Hc1) as Hs1.
      assert (HM : (blen vs ≤ M)%N).
      { unfold RSeq.spec_max_length. apply div_bound_iff; [done|]. lia. }
      destruct (r_set_loop s vs d1 0 Hall Hs1 Hl1) as (d2&E2&Hc2&Hl2&Hlen2&Hn2&_); [lia|].
      exists d2. rewrite E2. split; [done|]. cbn [sl_start s] in Hc1, Hc2. split.
      + eapply changed_trans; [exact Hc1|exact Hc2|lia|lia|lia|lia].
      + change (sub d2 p (p + T)) with (sl_i s d2).
        apply r_view_intro; [done|congruence|done|]. intros i v Hv. apply Hn2 in Hv. by rewrite N.add_0_l in Hv.
  Qed.
End rseq.

Lemma r_new_valid {V} c (e : Uniform V) t total :
  honours_uniform e → valid (ufmt e) → (isz t ≤ total)%N →
  ∃ f, RSeq.new c e t total = Some f ∧ RSeq.seq_valid f ∧ RSeq.eltf f = e ∧ RSeq.lent f = t ∧
    RSeq.total_size f = total ∧ RSeq.checked f = c.
Proof.
  intros He Hv Ht. unfold RSeq.new. rewrite usub_ok by done. cbn [mbind option_bind].
  rewrite udiv_ok by apply He. cbn [mbind option_bind]. eexists. split; [done|]. by split_and!.
Qed.
