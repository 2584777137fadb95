From Coq Require Import NArith Lia ZifyBool ZifyNat ZifyN.
From Coq Require Import Strings.Byte.
From Verif Require Import Marshal_Model Marshal_Spec Marshal_Proof MarshalSeq_Proof MarshalResizable_Proof.
From stdpp Require Import prelude list numbers.

Section kv.
  Context {K D : Type} (f : KV.Fmt K D).
  Context (Hval : valid (KV.format f)).
  Context (Hk : honours (KV.key_fmt f)) (Hd : honours (KV.data_fmt f)).
  Notation L := (isz (KV.lent f)).

  Lemma kv_keylen d : KV.keylen f d = if (L <=? blen d)%N then Some (from_le (sub d 0 L)) else None.
  Proof.
    unfold KV.keylen. destruct (_ <=? _)%N eqn:E; [|done]. apply N.leb_le in E.
    cbn [int_format spec_parse]. rewrite sub_blen by lia. rewrite N.sub_0_r.
    destruct (L <=? L)%N eqn:E2; [|apply N.leb_gt in E2; lia].
    by rewrite sub_all' by (rewrite sub_blen; lia).
  Qed.
  Lemma kv_len_max d : (L ≤ blen d)%N → (from_le (sub d 0 L) ≤ imax (KV.lent f))%N.
  Proof. intros. apply from_le_max. rewrite sub_length; unfold isz in *; lia. Qed.

  Lemma kv_try s d : fits s d → KV.try_parse f s d = Some (KV.parse f (sl_i s d)).
  Proof.
    intros Hs. unfold KV.try_parse. rewrite (sl_len_ok _ _ Hs). cbn [mbind option_bind].
    unfold KV.parse. rewrite kv_keylen, (fits_blen _ _ Hs).
    destruct (_ <? _)%N eqn:E.
    { apply N.ltb_lt in E. destruct (_ <=? _)%N eqn:E2; [apply N.leb_le in E2; lia|done]. }
    apply N.ltb_ge in E. destruct (_ <=? _)%N eqn:E2; [clear E2|apply N.leb_gt in E2; lia].
    cbn [mbind option_bind]. destruct Hval as [Hm _].
    unfold KV.try_keylen. rewrite (sl_len_ok _ _ Hs). cbn [mbind option_bind].
    destruct (_ <? _)%N eqn:E2; [apply N.ltb_lt in E2; lia|clear E2].
    pose proof Hs as (S1&S2&S3). pose proof (fits_usize _ _ Hs) as S4.
    assert (Hx : ∀ a b, (a ≤ b)%N → (sl_start s + b ≤ sl_end s)%N →
              xslice s (mkSlice a b) = Some (mkSlice (sl_start s + a) (sl_start s + b))).
    { intros a b Hab Hb. unfold xslice, subslice. cbn [sl_start sl_end]. rewrite !uadd_ok by lia. done. }
    rewrite Hx by lia. cbn [mbind option_bind].
    destruct (fits_subslice s d 0 L Hs) as [F1 F2]; [lia|lia|].
    rewrite (ho_try _ (int_honours (KV.lent f))) by done. rewrite F2.
    cbn [int_format spec_parse mbind option_bind]. rewrite sub_blen by (rewrite (fits_blen _ _ Hs); lia).
    destruct (_ <=? _)%N eqn:E2; [clear E2|apply N.leb_gt in E2; lia].
    rewrite (sub_all' (sub (sl_i s d) 0 L)) by (rewrite sub_blen by (rewrite (fits_blen _ _ Hs); lia); lia).
    pose proof (kv_len_max (sl_i s d)) as Hmax. rewrite (fits_blen _ _ Hs) in Hmax. specialize (Hmax E).
    set (n := from_le (sub (sl_i s d) 0 L)) in *. unfold to_usize. cbv zeta.
    rewrite uadd_ok by lia. cbn [mbind option_bind].
    destruct (L + n <=? _)%N eqn:E3; cbn [negb].
    2:{ by destruct (spec_parse (KV.key_fmt f) _). }
    apply N.leb_le in E3. rewrite Hx by lia. cbn [mbind option_bind].
    destruct (fits_subslice s d L (L + n) Hs) as [G1 G2]; [lia|lia|].
    rewrite (ho_parsable _ Hk) by done. cbn [mbind option_bind].
    rewrite (subslice_ok s d) by (done || lia).
    destruct (bool_decide _) eqn:Eb; cbn [negb mbind option_bind].
    - rewrite (ho_try _ Hk) by done. cbn [mbind option_bind]. rewrite G2.
      clear Eb. destruct (spec_parse (KV.key_fmt f) (sub (sl_i s d) L (L + n))) as [k|]; [|done]. cbn [sl_end].
      destruct (fits_subslice s d (L + n) (sl_end s - sl_start s) Hs) as [J1 J2]; [lia|lia|].
      replace (sl_start s + (sl_end s - sl_start s))%N with (sl_end s) in J1, J2 by lia.
      rewrite (ho_try _ Hd) by done. rewrite J2. cbn [mbind option_bind].
      by destruct (spec_parse (KV.data_fmt f) _).
    - apply bool_decide_eq_false in Eb. rewrite G2 in Eb. apply eq_None_not_Some in Eb. by rewrite Eb.
  Qed.

  Lemma kv_parse_app n kb vb : blen kb = n → (n ≤ imax (KV.lent f))%N →
    KV.parse f (to_le (KV.lent f) n ++ kb ++ vb) =
    k ← spec_parse (KV.key_fmt f) kb; v ← spec_parse (KV.data_fmt f) vb; Some (k, v).
  Proof.
    intros Hn Hm. unfold KV.parse. rewrite kv_keylen. unfold blen. rewrite !app_length, to_le_length.
    assert (iwidth (KV.lent f) = N.to_nat L) as Hw by (unfold isz; lia).
    destruct (_ <=? _)%N eqn:E; [clear E|apply N.leb_gt in E; unfold isz in E; lia].
    assert (Hlen : length (to_le (KV.lent f) n) = N.to_nat L) by (by rewrite to_le_length).
    unfold blen in Hn.
    assert (Hs1 : sub (to_le (KV.lent f) n ++ kb ++ vb) 0 L = to_le (KV.lent f) n).
    { unfold sub. replace (N.to_nat (L - 0)) with (length (to_le (KV.lent f) n)) by lia.
      change (N.to_nat 0) with 0. rewrite drop_0. apply take_app. }
    rewrite Hs1, from_to_le by done. cbn [mbind option_bind].
    assert (Hs2 : sub (to_le (KV.lent f) n ++ kb ++ vb) L (L + n) = kb).
    { unfold sub. rewrite drop_app_alt by lia. replace (N.to_nat (L + n - L)) with (length kb) by lia. apply take_app. }
    rewrite Hs2. destruct (spec_parse (KV.key_fmt f) kb) as [k|]; [|done]. cbn [mbind option_bind].
    destruct (_ <=? _)%N eqn:E; [clear E|apply N.leb_gt in E; lia].
    assert (Hs3 : sub (to_le (KV.lent f) n ++ kb ++ vb) (L + n)
                    (N.of_nat (iwidth (KV.lent f) + (length kb + length vb))) = vb).
    { unfold sub. rewrite app_assoc. rewrite drop_app_alt by (rewrite app_length; lia).
      apply take_ge. lia. }
    by rewrite Hs3.
  Qed.
  (** The bytes taken for a pair are just those. *)
  Lemma kv_parse_inv d k v : KV.parse f d = Some (k, v) →
    ∃ kb vb, d = to_le (KV.lent f) (blen kb) ++ kb ++ vb ∧ (blen kb ≤ imax (KV.lent f))%N ∧
      spec_parse (KV.key_fmt f) kb = Some k ∧ spec_parse (KV.data_fmt f) vb = Some v.
  Proof.
    unfold KV.parse. rewrite kv_keylen. destruct (_ <=? _)%N eqn:E; [|done]. apply N.leb_le in E.
    pose proof (kv_len_max d E) as Hmax.
    cbn [mbind option_bind]. set (n := from_le (sub d 0 L)) in *.
    destruct (spec_parse (KV.key_fmt f) _) as [k'|] eqn:Ek; [|done]. cbn [mbind option_bind].
    destruct (_ <=? _)%N eqn:E2; [|done]. apply N.leb_le in E2.
    destruct (spec_parse (KV.data_fmt f) _) as [v'|] eqn:Ev; [|done]. cbn [mbind option_bind].
    intros [= -> ->]. exists (sub d L (L + n)), (sub d (L + n) (blen d)).
    assert (blen (sub d L (L + n)) = n) as Hb by (rewrite sub_blen; lia).
    split_and!; [|by rewrite Hb|done|done]. rewrite Hb. unfold n. rewrite to_from_le.
    - fold n. rewrite <- (sub_all d) at 1.
      rewrite (sub_app_split d 0 L (blen d)), (sub_app_split d L (L + n) (blen d)) by lia. done.
    - rewrite sub_length; unfold isz in *; lia.
  Qed.

  Lemma kv_honours : honours (KV.format f).
  Proof.
    pose proof Hval as (Hm&_&_). split.
    - intros [k v] (Mk&Mv&Ms&Ml). cbn [KV.format exec_size spec_size]. unfold KV.size, KV.exec_size in *.
      cbn [fst snd] in *. destruct (ho_size _ Hk k Mk) as [-> _]. destruct (ho_size _ Hd v Mv) as [-> _].
      cbn [mbind option_bind]. rewrite uadd_ok by lia. cbn [mbind option_bind]. by rewrite uadd_ok.
    - intros s d Hs. by apply kv_try.
    - intros s d Hs. apply default_parsable_ok. by apply kv_try.
    - intros s d v Hs E. cbn [KV.format exec_parse]. apply default_parse_ok. rewrite kv_try by done. by f_equal.
    - intros [k v] d p (Mk&Mv&Ms&Ml) Hp Hmem. cbn [KV.format exec_marshall spec_size spec_parse] in *.
      unfold KV.size, KV.marshall in *. cbn [fst snd] in *.
      set (kn := spec_size (KV.key_fmt f) k) in *. set (vn := spec_size (KV.data_fmt f) v) in *.
      destruct (ho_size _ Hk k Mk) as [-> _]. cbn [mbind option_bind]. fold kn.
      rewrite from_usize_id by done.
      destruct (ho_marshall _ (int_honours (KV.lent f)) kn d p) as (d1&E1&C1&P1); [done|cbn; lia|done|].
      rewrite E1. cbn [mbind option_bind fst snd int_format spec_size] in *.
      destruct (ho_marshall _ Hk k d1 (p + L)%N Mk) as (d2&E2&C2&P2).
      { rewrite (changed_len _ _ _ _ C1). fold kn. lia. } { by rewrite (changed_len _ _ _ _ C1). }
      rewrite E2. cbn [mbind option_bind fst snd]. fold kn in C2, P2 |- *.
      destruct (ho_marshall _ Hd v d2 (p + L + kn)%N Mv) as (d3&E3&C3&P3).
      { rewrite (changed_len _ _ _ _ C2), (changed_len _ _ _ _ C1). fold vn. lia. }
      { by rewrite (changed_len _ _ _ _ C2), (changed_len _ _ _ _ C1). }
      rewrite E3. fold vn in C3, P3 |- *. exists d3. split; [by rewrite !N.add_assoc|].
      rewrite !N.add_assoc. split.
      { apply (changed_trans _ d2 _ p (p + L + kn) (p + L + kn) (p + L + kn + vn)); [|exact C3|lia..].
        apply (changed_trans _ d1 _ _ _ _ _ _ _ C1 C2); lia. }
      assert (Hb : blen d3 = blen d).
      { unfold blen. by rewrite (proj1 C3), (proj1 C2), (proj1 C1). }
      rewrite (sub_app_split d3 p (p + L) (p + L + kn + vn)) by lia.
      rewrite (sub_app_split d3 (p + L) (p + L + kn) (p + L + kn + vn)) by lia.
      assert (sub d3 p (p + L) = to_le (KV.lent f) kn) as ->.
      { rewrite (changed_sub _ _ _ _ _ _ C3) by lia. rewrite (changed_sub _ _ _ _ _ _ C2) by lia.
        assert (blen d1 = blen d) as Hb1 by (unfold blen; by rewrite (proj1 C1)).
        assert (blen (sub d1 p (p + L)) = L) as Hbl by (rewrite sub_blen; lia).
        cbn [int_format spec_parse] in P1. rewrite Hbl in P1. destruct (_ <=? _)%N; [|done]. injection P1 as P1.
        rewrite sub_all' in P1 by done. rewrite <- P1. symmetry. apply to_from_le.
        unfold blen in Hbl. unfold isz in *. lia. }
      rewrite (kv_parse_app kn); [|rewrite sub_blen by lia; lia|done].
      rewrite (changed_sub _ _ _ _ (p + L) (p + L + kn) C3) by lia. rewrite P2. cbn [mbind option_bind]. by rewrite P3.
  Qed.
End kv.

Lemma kv_refuses {K D} (f : KV.Fmt K D) (Hv : valid (KV.format f))
  (Hk : honours (KV.key_fmt f)) (Hd : honours (KV.data_fmt f)) s d : fits s d →
  (∃ o, try_parse (KV.format f) s d = Some o) ∧
  ∀ k v, try_parse (KV.format f) s d = Some (Some (k, v)) ↔
    ∃ kb vb, sl_i s d = to_le (KV.lent f) (blen kb) ++ kb ++ vb ∧ (blen kb ≤ imax (KV.lent f))%N ∧
      spec_parse (KV.key_fmt f) kb = Some k ∧ spec_parse (KV.data_fmt f) vb = Some v.
Proof.
  intros Hs. pose proof (kv_try f Hv Hk Hd s d Hs) as E. cbn [KV.format try_parse]. split; [by eexists|].
  intros k v. rewrite E. split.
  - intros [= Ep]. by apply kv_parse_inv.
  - intros (kb&vb&Eb&Hm&Ek&Ev). rewrite Eb, (kv_parse_app f _ _ _ eq_refl Hm), Ek, Ev. done.
Qed.
