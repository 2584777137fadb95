From Coq Require Import NArith Lia ZifyBool ZifyNat ZifyN.
From Coq Require Import Strings.Byte.
From Verif Require Import Marshal_Model Marshal_Spec.
From stdpp Require Import list numbers.

(** ** Ranges of lists *)
Section sub.
  Context {A : Type}.
  Implicit Types d : list A.

  Lemma sub_lookup d (s e : N) (i : nat) :
    sub d s e !! i = if decide (N.of_nat i < e - s)%N then d !! (N.to_nat s + i) else None.
  Proof.
    unfold sub. destruct (decide _).
    - rewrite lookup_take by lia. by rewrite lookup_drop.
    - apply lookup_take_ge. lia.
  Qed.
  Lemma sub_length d (s e : N) : (e ≤ blen d)%N → length (sub d s e) = N.to_nat (e - s).
  Proof. unfold sub, blen. intros. rewrite take_length, drop_length. lia. Qed.
  Lemma sub_blen d (s e : N) : (e ≤ blen d)%N → blen (sub d s e) = (e - s)%N.
  Proof. intros. unfold blen at 1. rewrite sub_length by done. lia. Qed.
  Lemma sub_sub d (a b k l : N) : (l ≤ b - a)%N → sub (sub d a b) k l = sub d (a + k) (a + l).
  Proof.
    intros Hl. apply list_eq. intros i. rewrite !sub_lookup.
    destruct (decide (N.of_nat i < l - k)%N).
    - rewrite !decide_True by lia. f_equal. lia.
    - by rewrite decide_False by lia.
  Qed.
  Lemma sub_all d : sub d 0 (blen d) = d.
  Proof. unfold sub, blen. rewrite drop_0. apply take_ge. lia. Qed.
  Lemma sub_all' d (e : N) : e = blen d → sub d 0 e = d.
  Proof. intros ->. apply sub_all. Qed.
  Lemma sub_app_split d (a b c : N) : (a ≤ b ≤ c)%N → sub d a c = sub d a b ++ sub d b c.
  Proof.
    intros. unfold sub.
    replace (N.to_nat (c - a)) with (N.to_nat (b - a) + N.to_nat (c - b)) by lia.
    rewrite <- take_take_drop, drop_drop. do 3 f_equal. lia.
  Qed.
End sub.

Lemma changed_refl d a b : changed_only_in d d a b.
Proof. split; [done|]. intros; done. Qed.
Lemma changed_trans d1 d2 d3 a b a' b' a'' b'' :
  changed_only_in d1 d2 a b → changed_only_in d2 d3 a' b' →
  (a'' ≤ a)%N → (a'' ≤ a')%N → (b ≤ b'')%N → (b' ≤ b'')%N →
  changed_only_in d1 d3 a'' b''.
Proof.
  intros [L1 H1] [L2 H2] ????. split; [congruence|]. intros i Hi.
  rewrite H2 by lia. apply H1. lia.
Qed.
Lemma changed_weaken d d' a b a' b' :
  changed_only_in d d' a b → (a' ≤ a)%N → (b ≤ b')%N → changed_only_in d d' a' b'.
Proof. intros [L H] ??. split; [done|]. intros i Hi. apply H. lia. Qed.
Lemma changed_len d d' a b : changed_only_in d d' a b → blen d' = blen d.
Proof. intros [L _]. unfold blen. by rewrite L. Qed.
Lemma changed_sub d d' a b s e :
  changed_only_in d d' a b → (e ≤ a ∨ b ≤ s)%N → sub d' s e = sub d s e.
Proof.
  intros [L H] He. apply list_eq. intros i. rewrite !sub_lookup.
  destruct (decide _); [|done]. apply H. lia.
Qed.
Lemma changed_sl d d' a b s :
  changed_only_in d d' (sl_start s + a) (sl_start s + b) → fits s d →
  (sl_start s + b ≤ sl_end s)%N →
  changed_only_in (sl_i s d) (sl_i s d') a b.
Proof.
  intros [L H] (?&?&?) Hb. unfold sl_i. split.
  - rewrite !sub_length; unfold blen in *; rewrite ?L; lia.
  - intros i Hi. rewrite !sub_lookup. destruct (decide _); [|done]. apply H. lia.
Qed.
Lemma fits_changed s d d' a b : fits s d → changed_only_in d d' a b → fits s d'.
Proof. intros (?&?&?) Hc%changed_len. unfold fits. rewrite Hc. lia. Qed.

(** ** Checked arithmetic *)
Lemma uadd_ok a b : (a + b ≤ usize_max)%N → uadd a b = Some (a + b)%N.
Proof. intros. unfold uadd. destruct (_ <=? _)%N eqn:E; [done|lia]. Qed.
Lemma umul_ok a b : (a * b ≤ usize_max)%N → umul a b = Some (a * b)%N.
Proof. intros. unfold umul. destruct (_ <=? _)%N eqn:E; [done|]. apply N.leb_gt in E. lia. Qed.
Lemma usub_ok a b : (b ≤ a)%N → usub a b = Some (a - b)%N.
Proof. intros. unfold usub. destruct (_ <=? _)%N eqn:E; [done|lia]. Qed.
Lemma udiv_ok a b : (0 < b)%N → udiv a b = Some (a / b)%N.
Proof. intros. unfold udiv. destruct (_ =? _)%N eqn:E; [lia|done]. Qed.
Lemma capacity_ok sz n : (sz * n ≤ isize_max)%N → with_capacity sz n = Some ().
Proof. intros. unfold with_capacity. destruct (_ <=? _)%N eqn:E; [done|]. apply N.leb_gt in E. lia. Qed.
Lemma isize_usize : (isize_max ≤ usize_max)%N.
Proof. vm_compute. discriminate. Qed.
Lemma sl_len_ok s d : fits s d → sl_len s = Some (sl_end s - sl_start s)%N.
Proof. intros (?&?&?). apply usub_ok. lia. Qed.
Lemma fits_blen s d : fits s d → blen (sl_i s d) = (sl_end s - sl_start s)%N.
Proof. intros (?&?&?). unfold sl_i. apply sub_blen. lia. Qed.
Lemma fits_usize s d : fits s d → (sl_end s ≤ usize_max)%N.
Proof. intros (?&?&?). pose proof isize_usize. lia. Qed.
Lemma subslice_ok s d a b :
  fits s d → (sl_start s + a ≤ sl_end s)%N → (sl_start s + b ≤ sl_end s)%N →
  subslice s a b = Some (mkSlice (sl_start s + a) (sl_start s + b)).
Proof.
  intros Hf ??. pose proof (fits_usize _ _ Hf). unfold subslice.
  rewrite !uadd_ok by lia. done.
Qed.
Lemma fits_subslice s d a b :
  fits s d → (a ≤ b)%N → (sl_start s + b ≤ sl_end s)%N →
  fits (mkSlice (sl_start s + a) (sl_start s + b)) d ∧
  sl_i (mkSlice (sl_start s + a) (sl_start s + b)) d = sub (sl_i s d) a b.
Proof.
  intros (?&?&?) ??. split; [unfold fits; cbn [sl_start sl_end]; lia|].
  unfold sl_i. cbn [sl_start sl_end]. rewrite sub_sub by lia. done.
Qed.
Lemma slice_subrange_ok {A} (d : list A) i j : (i ≤ j)%N → (j ≤ blen d)%N → slice_subrange d i j = Some (sub d i j).
Proof.
  intros. unfold slice_subrange. destruct (_ && _)%N eqn:E; [done|].
  apply andb_false_iff in E. lia.
Qed.

(** ** Integers *)
Lemma byte_of_N n : Byte.to_N (byte_of n) = (n mod 256)%N.
Proof.
  unfold byte_of. assert (n mod 256 < 256)%N by (apply N.mod_lt; lia).
  destruct (Byte.of_N (n mod 256)) as [b|] eqn:E; cbn [default].
  - by apply Byte.to_of_N in E.
  - apply Byte.of_N_None_iff in E. lia.
Qed.
Lemma byte_lt b : (Byte.to_N b < 256)%N.
Proof. pose proof (Byte.to_N_bounded b). lia. Qed.
Lemma byte_of_to b n : (n mod 256 = Byte.to_N b)%N → byte_of n = b.
Proof.
  intros E. unfold byte_of. rewrite E, Byte.of_to_N. done.
Qed.
Lemma le_length w x : length (le_bytes w x) = w.
Proof. revert x. induction w; cbn; intros; by rewrite ?IHw. Qed.
Lemma from_le_le w : ∀ x, (x < 256 ^ N.of_nat w)%N → from_le (le_bytes w x) = x.
Proof.
  induction w as [|w IH]; intros x Hx; cbn [le_bytes from_le].
  - cbn in Hx. lia.
  - rewrite byte_of_N, IH.
    + pose proof (N.div_mod x 256). lia.
    + apply N.div_lt_upper_bound; [lia|]. rewrite <- N.pow_succ_r'. by rewrite <- Nat2N.inj_succ.
Qed.
Lemma from_le_bound s : (from_le s < 256 ^ N.of_nat (length s))%N.
Proof.
  induction s as [|b s IH]; cbn [from_le length]; [cbn; lia|].
  rewrite Nat2N.inj_succ, N.pow_succ_r'. pose proof (byte_lt b). lia.
Qed.
Lemma le_from_le s : le_bytes (length s) (from_le s) = s.
Proof.
  induction s as [|b s IH]; cbn [from_le length le_bytes]; [done|].
  pose proof (byte_lt b). f_equal.
  - apply byte_of_to. rewrite N.mul_comm, N.mod_add by lia. by apply N.mod_small.
  - rewrite N.mul_comm, N.div_add by lia. rewrite (N.div_small _ 256) by done. by rewrite N.add_0_l.
Qed.
Lemma le_digits w : ∀ x, digits (le_bytes w x) x.
Proof.
  induction w as [|w IH]; intros x i b; cbn [le_bytes]; [done|].
  destruct i as [|i]; cbn [lookup list_lookup].
  - intros [= <-]. rewrite byte_of_N. cbn [N.of_nat]. by rewrite N.pow_0_r, N.div_1_r.
  - intros H%IH. rewrite H. f_equal.
    rewrite N.div_div by (try apply N.pow_nonzero; lia). f_equal.
    by rewrite Nat2N.inj_succ, N.pow_succ_r'.
Qed.
Lemma imax_pow t : (imax t + 1 = 256 ^ N.of_nat (iwidth t))%N.
Proof. by destruct t. Qed.
Lemma to_le_length t x : length (to_le t x) = iwidth t.
Proof. apply le_length. Qed.
Lemma to_le_blen t x : blen (to_le t x) = isz t.
Proof. unfold blen, isz. by rewrite to_le_length. Qed.
Lemma from_to_le t x : (x ≤ imax t)%N → from_le (to_le t x) = x.
Proof. intros. apply from_le_le. rewrite <- imax_pow. lia. Qed.
Lemma to_from_le t s : length s = iwidth t → to_le t (from_le s) = s.
Proof. intros H. unfold to_le. rewrite <- H. apply le_from_le. Qed.
Lemma from_le_max t s : length s = iwidth t → (from_le s ≤ imax t)%N.
Proof. intros H. pose proof (from_le_bound s) as B. rewrite H, <- imax_pow in B. lia. Qed.
Lemma from_usize_id t v : (v ≤ imax t)%N → from_usize t v = v.
Proof. intros. unfold from_usize. apply N.mod_small. lia. Qed.
Lemma isz_pos t : (0 < isz t)%N.
Proof. by destruct t. Qed.
Lemma isz_small t : (isz t ≤ 8)%N.
Proof. by destruct t; vm_compute. Qed.
Lemma imax_usize t : (imax t ≤ usize_max)%N.
Proof. destruct t; vm_compute; discriminate. Qed.

Lemma install_ok : ∀ src d p, (p + blen src ≤ blen d)%N →
  ∃ d', install src d p = Some d' ∧ changed_only_in d d' p (p + blen src) ∧
        sub d' p (p + blen src) = src.
Proof.
  induction src as [|b r IH]; intros d p Hp; cbn [install].
  - exists d. split; [done|]. split; [apply changed_refl|].
    unfold blen, sub. cbn [length]. by replace (N.to_nat _) with 0 by lia.
  - unfold blen in Hp at 1. cbn [length] in Hp.
    destruct (p <? blen d)%N eqn:E; [|lia].
    destruct (IH (<[N.to_nat p := b]> d) (p + 1)%N) as (d'&E'&Hc&Hs).
    { unfold blen in *. rewrite insert_length. lia. }
    exists d'. split; [done|].
    assert (blen (b :: r) = 1 + blen r)%N as Hbl by (unfold blen; cbn [length]; lia).
    assert (Hc2 : changed_only_in d (<[N.to_nat p := b]> d) p (p + 1)).
    { split; [apply insert_length|]. intros i Hi. apply list_lookup_insert_ne. lia. }
    split.
    + eapply changed_trans; [exact Hc2|exact Hc|lia..].
    + apply list_eq. intros i. rewrite sub_lookup, Hbl.
      destruct i as [|i].
      * rewrite decide_True by lia. destruct Hc as [_ Hc]. rewrite Nat.add_0_r, Hc by lia.
        rewrite list_lookup_insert; [done|]. unfold blen in E. lia.
      * change ((b :: r) !! S i) with (r !! i).
        transitivity (sub d' (p + 1) (p + 1 + blen r) !! i); [|by rewrite Hs].
        rewrite sub_lookup. destruct (decide (N.of_nat i < _)%N); [rewrite decide_True by lia; f_equal; lia|].
        by rewrite decide_False by lia.
Qed.
Lemma install_bytes_ok src d p : (p + blen src ≤ blen d)%N → (blen d ≤ isize_max)%N →
  ∃ d', install_bytes src d p = Some (d', (p + blen src)%N) ∧ changed_only_in d d' p (p + blen src) ∧
        sub d' p (p + blen src) = src.
Proof.
  intros Hp Hd. destruct (install_ok src d p Hp) as (d'&E&Hc&Hs). exists d'. split_and!; [|done..].
  unfold install_bytes. pose proof isize_usize. rewrite uadd_ok by lia. cbn. by rewrite E.
Qed.

Lemma int_honours t : honours (int_format t).
Proof.
  pose proof (isz_pos t) as Hpos. pose proof (isz_small t).
  split; cbn [int_format marshallable exec_size spec_size try_parse spec_parse exec_parsable exec_parse exec_marshall].
  - intros v _. split; [done|]. etrans; [exact H|]. by vm_compute.
  - intros s d Hf. unfold int_try_parse. rewrite (sl_len_ok _ _ Hf). cbn [mbind option_bind].
    rewrite (fits_blen _ _ Hf). pose proof (fits_usize _ _ Hf). destruct Hf as (?&?&?).
    destruct (_ <=? _)%N eqn:E; [|done].
    rewrite uadd_ok by lia. cbn [mbind option_bind]. rewrite slice_subrange_ok by lia. cbn [mbind option_bind].
    unfold sl_i. rewrite sub_sub by lia. by rewrite N.add_0_r.
  - intros s d Hf. unfold int_exec_parsable. rewrite (sl_len_ok _ _ Hf). cbn [mbind option_bind].
    rewrite (fits_blen _ _ Hf). f_equal. destruct (_ <=? _)%N eqn:E.
    + symmetry. apply bool_decide_eq_true_2. eauto.
    + symmetry. apply bool_decide_eq_false_2. intros [? ?]; discriminate.
  - intros s d v Hf. rewrite (fits_blen _ _ Hf). pose proof (fits_usize _ _ Hf). destruct Hf as (?&?&?).
    destruct (_ <=? _)%N eqn:E; [|done]. intros [= <-]. unfold int_exec_parse.
    rewrite uadd_ok by lia. cbn [mbind option_bind]. rewrite slice_subrange_ok by lia. cbn [mbind option_bind].
    unfold sl_i. rewrite sub_sub by lia. by rewrite N.add_0_r.
  - intros v d p Hv Hp Hd. unfold int_exec_marshall.
    rewrite <- (to_le_blen t v) in Hp |- *.
    destruct (install_bytes_ok (to_le t v) d p Hp Hd) as (d'&E&Hc&Hs).
    exists d'. split_and!; [done..|]. rewrite Hs.
    rewrite to_le_blen. destruct (_ <=? _)%N eqn:E'; [|lia].
    rewrite sub_all' by (by rewrite to_le_blen). by rewrite from_to_le.
Qed.
Lemma int_uniform_honours t : honours_uniform (int_uniform t).
Proof. split; cbn; [intros _; apply int_honours|apply isz_pos|done]. Qed.
