From Coq Require Import NArith Lia ZifyBool ZifyNat ZifyN.
From Coq Require Import Strings.Byte.
From Verif Require Import Marshal_Model Marshal_Spec Marshal_Proof MarshalSeq_Proof MarshalResizable_Proof.
From stdpp Require Import prelude list numbers.

Section vseq.
  Context {V : Type} (f : VSeq.Fmt V).
  Context (Hval : VSeq.seq_valid f) (H : honours (VSeq.eltf f)).
  Notation bf := (VSeq.bdyf f).
  Notation L := (isz (VSeq.lent f)).
  Notation B := (isz (VSeq.bdyt f)).
  Notation T := (VSeq.total f).
  Notation M := (RSeq.spec_max_length (VSeq.bdyf f)).
  Let Hbf : honours_uniform (RSeq.eltf bf) := int_uniform_honours (VSeq.bdyt f).
  Let Hbv : RSeq.seq_valid bf := proj1 (proj2 Hval).

  Lemma v_bounds : (T ≤ imax (VSeq.lent f))%N ∧ (T ≤ imax (VSeq.bdyt f))%N.
  Proof. split; apply Hval. Qed.
  Definition ent (x : bytes) (i : N) : N := from_le (RSeq.get_data bf x i).
  Lemma ent_ok x i : RSeq.lengthable bf x = true → (i < M)%N → RSeq.get_elt bf x i = Some (ent x i).
  Proof.
    intros E Hi. pose proof (r_index bf Hbf Hbv i Hi) as HI. unfold RSeq.get_elt, ent.
    cbn [bf RSeq.eltf int_uniform ufmt int_format spec_parse].
    assert (blen (RSeq.get_data bf x i) = B) as Hb.
    { unfold RSeq.get_data. unfold RSeq.lengthable in E. rewrite sub_blen; [cbn; lia|].
      cbn [bf RSeq.total_size RSeq.lent RSeq.eltf int_uniform usz] in *. lia. }
    rewrite Hb. destruct (_ <=? _)%N eqn:E2; [|apply N.leb_gt in E2; lia].
    by rewrite sub_all' by done.
  Qed.
  Lemma ent_max x i : RSeq.lengthable bf x = true → (i < M)%N → (ent x i ≤ imax (VSeq.bdyt f))%N.
  Proof.
    intros E Hi. pose proof (r_index bf Hbf Hbv i Hi) as HI. unfold ent. apply from_le_max.
    unfold RSeq.get_data. unfold RSeq.lengthable in E.
    rewrite sub_length; unfold isz in *; cbn [bf RSeq.total_size RSeq.lent RSeq.eltf int_uniform usz] in *; unfold isz in *; lia.
  Qed.
  Lemma v_get_ent s d i : fits s d → RSeq.lengthable bf (sl_i s d) = true → (i < M)%N →
    RSeq.exec_get_elt bf s d i = Some (ent (sl_i s d) i).
  Proof.
    intros Hs E Hi. apply (r_exec_get_elt bf Hbf Hbv); [done| |by apply ent_ok].
    by apply r_gettable.
  Qed.
  Definition ent_end (x : bytes) (i : N) : N := if (0 <? i)%N then ent x (i - 1) else T.
  (** The bytes of an element, if there are any. *)
  Definition v_elt (x : bytes) (i : N) : option bytes :=
    if RSeq.lengthable bf x && (i <? M)%N && (i <? RSeq.length bf x)%N
       && (ent x i <=? ent_end x i)%N && (ent_end x i <=? T)%N
    then Some (sub x (ent x i) (ent_end x i)) else None.
  Lemma v_elt_Some x i e : v_elt x i = Some e ↔
    RSeq.lengthable bf x = true ∧ (i < M)%N ∧ (i < RSeq.length bf x)%N ∧ (ent x i ≤ ent_end x i)%N ∧
    (ent_end x i ≤ T)%N ∧ e = sub x (ent x i) (ent_end x i).
  Proof.
    unfold v_elt. destruct (_ && _) eqn:E.
    - repeat (apply andb_prop in E as [E ?]). rewrite ?N.ltb_lt, ?N.leb_le in *. split.
      + intros [= <-]. split_and!; done.
      + intros (?&?&?&?&?&->). done.
    - split; [done|]. intros (E1&E2&E3&E4&E5&_). exfalso.
      rewrite E1 in E. cbn [andb] in E. apply N.ltb_lt in E2, E3. apply N.leb_le in E4, E5.
      rewrite E2, E3, E4, E5 in E. done.
  Qed.
  Lemma v_data_end s d i : fits s d → RSeq.lengthable bf (sl_i s d) = true → (i < M)%N →
    VSeq.data_end f s d i = Some (ent_end (sl_i s d) i).
  Proof.
    intros Hs E Hi. unfold VSeq.data_end, ent_end. destruct (_ <? _)%N eqn:E2; [|done].
    apply N.ltb_lt in E2. rewrite usub_ok by lia. cbn [mbind option_bind].
    rewrite v_get_ent by (done || lia). done.
  Qed.
  Lemma v_data_begin s d i : fits s d → RSeq.lengthable bf (sl_i s d) = true → (i < M)%N →
    VSeq.data_begin f s d i = Some (ent (sl_i s d) i).
  Proof. intros Hs E Hi. unfold VSeq.data_begin. by rewrite v_get_ent. Qed.
  Lemma v_lengthable s d : fits s d → RSeq.lengthable bf (sl_i s d) = true → (sl_start s + T ≤ sl_end s)%N.
  Proof. by apply (r_lengthable bf Hbf). Qed.

  Lemma v_try_get_elt s d i : fits s d →
    VSeq.try_get_elt f s d i =
    Some (match v_elt (sl_i s d) i with Some e => spec_parse (VSeq.eltf f) e | None => None end).
  Proof.
    intros Hs. unfold VSeq.try_get_elt, VSeq.try_get, VSeq.try_length.
    rewrite (r_try_length bf Hbf Hbv s d Hs). cbn [mbind option_bind].
    destruct (v_elt (sl_i s d) i) as [e|] eqn:Ev.
    - apply v_elt_Some in Ev as (E&Hm&Hl&Hb&He&->). rewrite E.
      assert (VSeq.maxl f = M) as -> by apply Hbv.
      apply N.ltb_lt in Hm as Hm'. apply N.ltb_lt in Hl as Hl'. rewrite Hm', Hl'. cbn [andb].
      rewrite v_data_begin, v_data_end by done. cbn [mbind option_bind].
      rewrite (sl_len_ok _ _ Hs). cbn [mbind option_bind].
      pose proof (v_lengthable _ _ Hs E) as HT.
      apply N.leb_le in Hb as Hb'. apply N.leb_le in He as He'. rewrite Hb', He'. cbn [andb].
      assert ((T <=? sl_end s - sl_start s)%N = true) as -> by (apply N.leb_le; lia).
      rewrite (subslice_ok s d) by (done || lia). cbn [mbind option_bind].
      destruct (fits_subslice s d (ent (sl_i s d) i) (ent_end (sl_i s d) i) Hs) as [F1 F2]; [done|lia|].
      rewrite (ho_try _ H) by done. by rewrite F2.
    - destruct (RSeq.lengthable bf (sl_i s d)) eqn:E; [|done].
      assert (VSeq.maxl f = M) as -> by apply Hbv.
      destruct ((i <? M) && (i <? RSeq.length bf (sl_i s d)))%N eqn:E2; [|done].
      apply andb_prop in E2 as [E2 E3]. rewrite N.ltb_lt in E2, E3.
      rewrite v_data_begin, v_data_end by done. cbn [mbind option_bind].
      rewrite (sl_len_ok _ _ Hs). cbn [mbind option_bind].
      destruct (_ && _) eqn:E4; [|done]. exfalso.
      apply andb_prop in E4 as [E4 _]. apply andb_prop in E4 as [E4 E5]. rewrite N.leb_le in E4, E5.
      assert (v_elt (sl_i s d) i = Some (sub (sl_i s d) (ent (sl_i s d) i) (ent_end (sl_i s d) i))) by (by apply v_elt_Some).
      congruence.
  Qed.
  Lemma v_exec_get_elt s d i e w : fits s d → v_elt (sl_i s d) i = Some e →
    spec_parse (VSeq.eltf f) e = Some w → VSeq.exec_get_elt f s d i = Some w.
  Proof.
    intros Hs (E&Hm&Hl&Hb&He&->)%v_elt_Some Hp. unfold VSeq.exec_get_elt, VSeq.exec_get.
    rewrite v_data_begin, v_data_end by done. cbn [mbind option_bind].
    pose proof (v_lengthable _ _ Hs E) as HT.
    rewrite (subslice_ok s d) by (done || lia). cbn [mbind option_bind].
    destruct (fits_subslice s d (ent (sl_i s d) i) (ent_end (sl_i s d) i) Hs) as [F1 F2]; [done|lia|].
    apply (ho_parse _ H); [done|]. by rewrite F2.
  Qed.

  (** Tables *)
  Lemma table_ent x t i a : VSeq.table f x = Some t → t !! i = Some a → ent x (N.of_nat i) = a.
  Proof.
    intros (E&HL&HM&Hg)%(r_view_elim bf Hbf) Ha. pose proof (lookup_lt_Some _ _ _ Ha).
    apply Hg in Ha. rewrite ent_ok in Ha by (done || unfold blen in HM; lia). by injection Ha.
  Qed.
  Lemma table_entries_max x t i a : VSeq.table f x = Some t → t !! i = Some a → (a ≤ imax (VSeq.bdyt f))%N.
  Proof.
    intros Ht Ha. rewrite <- (table_ent _ _ _ _ Ht Ha).
    apply (r_view_elim bf Hbf) in Ht as (E&HL&HM&_). apply lookup_lt_Some in Ha.
    apply ent_max; [done|]. unfold blen in HM. lia.
  Qed.
  Lemma start_le t : VSeq.valid_table f t → (VSeq.elements_start f t ≤ T)%N.
  Proof.
    intros (Hd&Ht&_). unfold VSeq.elements_start. destruct (stdpp.list.last t) as [a|] eqn:E; [|done].
    rewrite last_lookup in E. destruct t as [|b t]; [done|].
    etrans; [|apply (Ht b); done]. by apply (Hd 0 (length t) b a); [lia|..].
  Qed.
  Lemma start_ge x t : VSeq.table f x = Some t → VSeq.valid_table f t →
    (VSeq.size_of_table f (blen t) ≤ VSeq.elements_start f t)%N.
  Proof.
    intros Hx (Hd&Ht&Hl). unfold VSeq.elements_start. destruct (stdpp.list.last t) as [a|] eqn:E; [by apply Hl|].
    apply last_None in E as ->. unfold VSeq.size_of_table, blen. cbn [length].
    pose proof (r_lenT bf Hbv) as Hlt. cbn in Hlt. lia.
  Qed.
  Lemma start_le_entry t i a : VSeq.valid_table f t → t !! i = Some a → (VSeq.elements_start f t ≤ a)%N.
  Proof.
    intros (Hd&_&_) Ha. unfold VSeq.elements_start. pose proof (lookup_lt_Some _ _ _ Ha).
    destruct (stdpp.list.last t) as [b|] eqn:E.
    - rewrite last_lookup in E. eapply Hd; [|exact Ha|exact E]. lia.
    - apply last_None in E as ->. done.
  Qed.
  Definition tend (t : list N) (i : nat) : N := match i with O => T | S j => default T (t !! j) end.
  Lemma v_elt_table x t i a : VSeq.table f x = Some t → VSeq.valid_table f t → t !! i = Some a →
    v_elt x (N.of_nat i) = Some (sub x a (tend t i)) ∧ (a ≤ tend t i)%N ∧ (tend t i ≤ T)%N.
  Proof.
    intros Hx Hv Ha. pose proof (table_ent _ _ _ _ Hx Ha) as He.
    pose proof (lookup_lt_Some _ _ _ Ha) as Hi.
    assert (ent_end x (N.of_nat i) = tend t i) as Hend.
    { unfold ent_end, tend. destruct i as [|j]; [done|].
      destruct (_ <? _)%N eqn:E; [|apply N.ltb_ge in E; lia].
      destruct (lookup_lt_is_Some_2 t j) as [b Hb]; [lia|]. rewrite Hb. cbn [default].
      rewrite <- (table_ent _ _ _ _ Hx Hb). by replace (N.of_nat (S j) - 1)%N with (N.of_nat j) by lia. }
    assert (a ≤ tend t i ∧ tend t i ≤ T)%N as [H1 H2].
    { unfold tend. destruct Hv as (Hd&Ht&Hl). destruct i as [|j].
      - split; [by apply Ht|done].
      - destruct (lookup_lt_is_Some_2 t j) as [b Hb]; [lia|]. rewrite Hb. cbn [default].
        split; [by apply (Hd j (S j) b a); [lia|..]|].
        destruct t as [|c t]; [done|]. etrans; [|by apply (Ht c)]. by apply (Hd 0 j c b); [lia|..]. }
    split; [|done]. apply (r_view_elim bf Hbf) in Hx as (E&HL&HM&_).
    apply v_elt_Some. rewrite He, Hend, HL. unfold blen in *. split_and!; [done|lia|lia|done..].
  Qed.
  Lemma v_elt_beyond x t i : VSeq.table f x = Some t → (blen t ≤ i)%N → v_elt x i = None.
  Proof.
    intros Hx Hi. apply (r_view_elim bf Hbf) in Hx as (E&HL&HM&_).
    destruct (v_elt x i) eqn:Ev; [|done]. apply v_elt_Some in Ev as (_&_&Hl&_). lia.
  Qed.

  (** Checks *)
  Lemma v_length_bound s d t : fits s d → VSeq.table f (sl_i s d) = Some t →
    VSeq.length_and_upper_bound f s d = Some (blen t, VSeq.elements_start f t).
  Proof.
    intros Hs Hx. pose proof Hx as (E&HL&HM&_)%(r_view_elim bf Hbf).
    unfold VSeq.length_and_upper_bound, VSeq.exec_length, VSeq.try_length.
    rewrite (r_try_length bf Hbf Hbv) by done. rewrite E. cbn [mbind option_bind]. rewrite HL.
    unfold VSeq.elements_start. destruct (_ =? _)%N eqn:E2.
    - apply N.eqb_eq in E2. unfold blen in E2. destruct t; [done|cbn in E2; lia].
    - apply N.eqb_neq in E2. rewrite usub_ok by lia. cbn [mbind option_bind].
      destruct (lookup_lt_is_Some_2 t (length t - 1)) as [a Ha]; [unfold blen in E2; lia|].
      rewrite v_get_ent by (done || lia). cbn [mbind option_bind].
      rewrite last_lookup. replace (Nat.pred (length t)) with (length t - 1) by lia. rewrite Ha.
      rewrite <- (table_ent _ _ _ _ Hx Ha). unfold to_usize.
      by replace (N.of_nat (length t - 1)) with (blen t - 1)%N by (unfold blen; lia).
  Qed.
  Lemma v_table_arith (t : list N) : (blen t ≤ M)%N →
    (blen t * B ≤ usize_max)%N ∧ (L + blen t * B ≤ usize_max)%N.
  Proof.
    intros Ht. pose proof (r_max_bytes bf Hbf Hbv) as HB. destruct v_bounds as [HT _].
    pose proof (imax_usize (VSeq.lent f)).
    cbn [bf RSeq.total_size RSeq.lent RSeq.eltf int_uniform usz] in *.
    assert (blen t * B ≤ M * B)%N by (by apply N.mul_le_mono_r). lia.
  Qed.
  Lemma v_exec_appendable s d v t : fits s d → VSeq.table f (sl_i s d) = Some t → VSeq.valid_table f t →
    marshallable (VSeq.eltf f) v →
    VSeq.exec_appendable f s d v =
    Some (bool_decide (B + spec_size (VSeq.eltf f) v + VSeq.size_of_table f (blen t) ≤ VSeq.elements_start f t)%N).
  Proof.
    intros Hs Hx Hv Hm. pose proof Hx as (E&HL&HM&_)%(r_view_elim bf Hbf).
    destruct (v_table_arith t HM) as [A1 A2]. pose proof (start_ge _ _ Hx Hv) as Hge.
    unfold VSeq.exec_appendable. rewrite (v_length_bound _ _ t) by done. cbn [mbind option_bind fst snd].
    rewrite umul_ok by done. cbn [mbind option_bind]. rewrite uadd_ok by done. cbn [mbind option_bind].
    unfold VSeq.size_of_table in *. rewrite usub_ok by done. cbn [mbind option_bind].
    destruct (ho_size _ H v Hm) as [-> _]. cbn [mbind option_bind].
    destruct (_ <=? _)%N eqn:E2.
    - apply N.leb_le in E2. rewrite usub_ok by done. cbn [mbind option_bind]. f_equal.
      destruct (_ <=? _)%N eqn:E3.
      + apply N.leb_le in E3. symmetry. apply bool_decide_eq_true_2. lia.
      + apply N.leb_gt in E3. symmetry. apply bool_decide_eq_false_2. lia.
    - apply N.leb_gt in E2. f_equal. symmetry. apply bool_decide_eq_false_2. lia.
  Qed.

  (** Writing above the table keeps the table. *)
  Lemma table_keep x x' t a b : VSeq.table f x = Some t → changed_only_in x x' a b →
    (VSeq.size_of_table f (blen t) ≤ a)%N → VSeq.table f x' = Some t.
  Proof.
    intros (E&HL&HM&Hg)%(r_view_elim bf Hbf) Hc Ha. unfold VSeq.size_of_table in Ha.
    apply (r_view_intro bf Hbf Hbv).
    - unfold RSeq.lengthable in *. by rewrite (changed_len _ _ _ _ Hc).
    - rewrite <- HL, !(r_length_sub bf Hbf). f_equal. eapply changed_sub; [exact Hc|]. cbn. lia.
    - done.
    - intros i v Hv. rewrite <- (Hg _ _ Hv). unfold RSeq.get_elt, RSeq.get_data. f_equal.
      eapply changed_sub; [exact Hc|]. apply lookup_lt_Some in Hv. unfold blen in Ha.
      left. cbn [bf RSeq.lent RSeq.eltf int_uniform usz].
      assert ((N.of_nat i + 1) * B ≤ N.of_nat (length t) * B)%N by (apply N.mul_le_mono_r; lia). lia.
  Qed.

  Lemma v_append s d v t : fits s d → VSeq.table f (sl_i s d) = Some t → VSeq.valid_table f t →
    marshallable (VSeq.eltf f) v →
    (B + spec_size (VSeq.eltf f) v + VSeq.size_of_table f (blen t) ≤ VSeq.elements_start f t)%N →
    let es := VSeq.elements_start f t in
    let st := (es - spec_size (VSeq.eltf f) v)%N in
    ∃ d', VSeq.exec_append f s d v = Some d' ∧
      changed_only_in d d' (sl_start s) (sl_start s + es) ∧
      VSeq.table f (sl_i s d') = Some (t ++ [st]) ∧ VSeq.valid_table f (t ++ [st]) ∧
      spec_parse (VSeq.eltf f) (sub (sl_i s d') st es) = Some v.
  Proof.
    intros Hs Hx Hv Hm Hroom es st.
    pose proof Hx as (E&HL&HM&_)%(r_view_elim bf Hbf).
    pose proof (v_lengthable _ _ Hs E) as HT. pose proof (start_le t Hv) as Hle. fold es in Hroom, Hle.
    pose proof (fits_usize _ _ Hs).
    unfold VSeq.exec_append. rewrite (v_length_bound _ _ t) by done. cbn [mbind option_bind fst snd].
    destruct (ho_size _ H v Hm) as [-> _]. cbn [mbind option_bind].
    fold es. rewrite usub_ok by lia. cbn [mbind option_bind]. fold st.
    rewrite uadd_ok by lia. cbn [mbind option_bind].
    destruct (ho_marshall _ H v d (sl_start s + st)%N Hm) as (d1&E1&Hc1&Hp1).
    { destruct Hs as (?&?&?). lia. } { by destruct Hs as (?&?&?). }
    rewrite E1. cbn [mbind option_bind fst].
    replace (sl_start s + st + spec_size (VSeq.eltf f) v)%N with (sl_start s + es)%N in * by lia.
    pose proof (fits_changed _ _ _ _ _ Hs Hc1) as Hs1.
    pose proof Hc1 as Hcx. apply changed_sl in Hcx; [|done|lia].
    assert (Hx1 : VSeq.table f (sl_i s d1) = Some t).
    { eapply table_keep; [exact Hx|exact Hcx|]. lia. }
    destruct v_bounds as [HTl HTb].
    rewrite from_usize_id by lia.
    unfold VSeq.size_of_table in Hroom.
    assert (Hlt : (blen t < M)%N).
    { unfold RSeq.spec_max_length. cbn [bf RSeq.total_size RSeq.lent RSeq.eltf int_uniform usz].
      assert (blen t + 1 ≤ (T - L) / B)%N; [|lia]. apply div_bound_iff; [apply isz_pos|]. lia. }
    assert (Hlm : (blen t + 1 ≤ imax (VSeq.lent f))%N).
    { pose proof (isz_pos (VSeq.bdyt f)). nia. }
    destruct (r_view_append bf Hbf Hbv s d1 st t Hs1 Hx1 Hlt Hlm) as (d2&E2&Hc2&Hx2).
    { cbn. lia. } { done. }
    exists d2. split; [exact E2|].
    cbn [bf RSeq.lent RSeq.eltf int_uniform usz] in Hc2.
    assert (Hsep : (L + blen t * B + B ≤ st)%N) by lia.
    split. { eapply changed_trans; [exact Hc1|exact Hc2|lia..]. }
    split; [exact Hx2|]. split.
    - destruct Hv as (Hd&Ht&Hl). split_and!.
      + intros i j a b Hij Ha Hb. destruct (decide (j < length t)) as [Hj|Hj].
        * rewrite lookup_app_l in Hb by done. rewrite lookup_app_l in Ha by lia. by apply (Hd i j a b).
        * assert (j = length t) as -> by (apply lookup_lt_Some in Hb; rewrite app_length in Hb; cbn in Hb; lia).
          rewrite list_lookup_middle in Hb by done. injection Hb as <-.
          destruct (decide (i < length t)) as [Hi|Hi].
          -- rewrite lookup_app_l in Ha by done.
             assert (es ≤ a)%N by (apply start_le_entry with i; done). lia.
          -- assert (i = length t) as -> by lia. rewrite list_lookup_middle in Ha by done. injection Ha as <-. lia.
      + intros a Ha. destruct t as [|b t].
        * injection Ha as <-. lia.
        * by apply Ht.
      + intros a Ha. rewrite last_snoc in Ha. injection Ha as <-.
        unfold VSeq.size_of_table, blen. rewrite app_length. cbn [length]. unfold blen in Hsep. lia.
    - assert (Hcx2 : changed_only_in (sl_i s d1) (sl_i s d2) 0 (L + blen t * B + B)).
      { apply changed_sl; [rewrite N.add_0_r; exact Hc2|done|lia]. }
      rewrite (changed_sub _ _ _ _ _ _ Hcx2) by lia. rewrite <- Hp1. f_equal.
      unfold sl_i. rewrite sub_sub by lia. done.
  Qed.

  (** The elements of a page. *)
  Definition v_holds (x : bytes) (vs : list V) : Prop :=
    ∃ t, VSeq.table f x = Some t ∧ VSeq.valid_table f t ∧ length t = length vs ∧
      (∀ i v, vs !! i = Some v → ∃ a, t !! i = Some a ∧ spec_parse (VSeq.eltf f) (sub x a (tend t i)) = Some v) ∧
      (VSeq.elements_start f t + total_of (spec_size (VSeq.eltf f) <$> vs) = T)%N.

  Lemma total_of_app l1 l2 : total_of (l1 ++ l2) = (total_of l1 + total_of l2)%N.
  Proof. unfold total_of. induction l1; cbn; [done|]. rewrite IHl1. lia. Qed.

  Lemma v_initialize s d : fits s d → RSeq.lengthable bf (sl_i s d) = true →
    ∃ d', VSeq.initialize f s d = Some d' ∧ changed_only_in d d' (sl_start s) (sl_start s + T) ∧
      v_holds (sl_i s d') [].
  Proof.
    intros Hs E. destruct (r_initialize bf Hbf Hbv s d Hs E) as (d'&E'&Hc&Hx).
    exists d'. split; [done|]. pose proof (r_lenT bf Hbv) as HT. cbn in HT. split.
    { eapply changed_weaken; [exact Hc|lia|cbn; lia]. }
    exists []. split; [exact Hx|]. split.
    { split_and!; intros *; done. }
    split; [done|]. split; [intros i v Hiv; done|].
    cbn. lia.
  Qed.
  Lemma v_holds_append s d v vs : fits s d → v_holds (sl_i s d) vs → marshallable (VSeq.eltf f) v →
    (L + B * (blen vs + 1) + total_of (spec_size (VSeq.eltf f) <$> vs) + spec_size (VSeq.eltf f) v ≤ T)%N →
    ∃ d', VSeq.exec_append f s d v = Some d' ∧ changed_only_in d d' (sl_start s) (sl_start s + T) ∧
      v_holds (sl_i s d') (vs ++ [v]).
  Proof.
    intros Hs (t&Hx&Hv&Hlen&Hr&Hsum) Hm Hroom.
    pose proof (start_le t Hv) as Hle.
    pose proof Hx as (E&HL&HM&_)%(r_view_elim bf Hbf).
    pose proof (v_lengthable _ _ Hs E) as HT.
    assert (blen t = blen vs) as Hb by (unfold blen; by rewrite Hlen).
    destruct (v_append s d v t Hs Hx Hv Hm) as (d'&E'&Hc&Hx'&Hv'&Hp).
    { unfold VSeq.size_of_table. rewrite Hb. lia. }
    exists d'. split; [done|]. split; [eapply changed_weaken; [exact Hc|lia..]|].
    pose proof Hc as Hcx. rewrite <- (N.add_0_r (sl_start s)) in Hcx at 1.
    apply changed_sl in Hcx; [|done|lia].
    eexists. split; [exact Hx'|]. split; [exact Hv'|]. split; [rewrite !app_length; cbn; lia|].
    split.
    - intros i w Hw. destruct (decide (i < length vs)) as [Hi|Hi].
      + rewrite lookup_app_l in Hw by done. destruct (Hr _ _ Hw) as (a&Ha&Hpa).
        exists a. split; [by rewrite lookup_app_l by lia|].
        assert (tend (t ++ [(VSeq.elements_start f t - spec_size (VSeq.eltf f) v)%N]) i = tend t i) as ->.
        { unfold tend. destruct i; [done|]. by rewrite lookup_app_l by lia. }
        rewrite <- Hpa. f_equal. eapply changed_sub; [exact Hcx|]. right. by eapply start_le_entry.
      + assert (i = length vs) as -> by (apply lookup_lt_Some in Hw; rewrite app_length in Hw; cbn in Hw; lia).
        rewrite list_lookup_middle in Hw by done. injection Hw as <-.
        eexists. split; [by rewrite <- Hlen, list_lookup_middle|].
        assert (tend (t ++ [(VSeq.elements_start f t - spec_size (VSeq.eltf f) v)%N]) (length vs)
                = VSeq.elements_start f t) as ->; [|done].
        unfold tend. rewrite <- Hlen. unfold VSeq.elements_start. rewrite last_lookup.
        destruct (length t) as [|n] eqn:En.
        * apply nil_length_inv in En as ->. done.
        * cbn [Nat.pred]. rewrite lookup_app_l by lia.
          destruct (lookup_lt_is_Some_2 t n) as [b Hb']; [lia|]. by rewrite Hb'.
    - unfold VSeq.elements_start at 1. rewrite last_snoc, fmap_app, total_of_app. cbn. lia.
  Qed.
  Lemma v_holds_appendable s d v vs : fits s d → v_holds (sl_i s d) vs → marshallable (VSeq.eltf f) v →
    VSeq.exec_appendable f s d v =
    Some (bool_decide (L + B * (blen vs + 1) + total_of (spec_size (VSeq.eltf f) <$> vs)
                       + spec_size (VSeq.eltf f) v ≤ T)%N).
  Proof.
    intros Hs (t&Hx&Hv&Hlen&Hr&Hsum) Hm. rewrite (v_exec_appendable s d v t) by done.
    assert (blen t = blen vs) as Hb by (unfold blen; by rewrite Hlen).
    f_equal. apply bool_decide_ext. unfold VSeq.size_of_table. rewrite Hb. lia.
  Qed.
  Lemma v_holds_read s d vs : fits s d → v_holds (sl_i s d) vs →
    VSeq.exec_length f s d = Some (blen vs) ∧
    (∀ i v, vs !! i = Some v → VSeq.exec_get_elt f s d (N.of_nat i) = Some v) ∧
    (∀ i, VSeq.try_get_elt f s d i = Some (vs !! N.to_nat i)).
  Proof.
    intros Hs (t&Hx&Hv&Hlen&Hr&Hsum). pose proof Hx as (E&HL&HM&_)%(r_view_elim bf Hbf).
    assert (blen t = blen vs) as Hb by (unfold blen; by rewrite Hlen).
    split; [|split].
    - unfold VSeq.exec_length, VSeq.try_length. rewrite (r_try_length bf Hbf Hbv) by done. rewrite E.
      cbn [mbind option_bind]. congruence.
    - intros i v (a&Ha&Hp)%Hr. destruct (v_elt_table _ _ _ _ Hx Hv Ha) as [He _].
      by apply (v_exec_get_elt s d _ _ _ Hs He).
    - intros i. rewrite v_try_get_elt by done. f_equal.
      destruct (vs !! N.to_nat i) as [v|] eqn:Ev.
      + destruct (Hr _ _ Ev) as (a&Ha&Hp). destruct (v_elt_table _ _ _ _ Hx Hv Ha) as [He _].
        rewrite N2Nat.id in He. by rewrite He.
      + apply lookup_ge_None in Ev. rewrite (v_elt_beyond _ t); [done|done|]. unfold blen. lia.
  Qed.

  (** The check of a page *)
  Lemma descending_ok t : VSeq.descending f t = true ↔
    ∀ i j x y, i ≤ j → t !! i = Some x → t !! j = Some y → (y ≤ x)%N.
  Proof.
    induction t as [|x [|y t] IH].
    - split; [intros _ i j; done|done].
    - split; [|done]. intros _ [|i] [|j] a b; cbn; try done; intros; simplify_eq; lia.
    - change (VSeq.descending f (x :: y :: t)) with
        (if (to_usize (VSeq.bdyt f) x <? to_usize (VSeq.bdyt f) y)%N then false else VSeq.descending f (y :: t)).
      unfold to_usize. destruct (_ <? _)%N eqn:E.
      + apply N.ltb_lt in E. split; [done|]. intros Hd. specialize (Hd 0 1 x y). cbn in Hd.
        assert (y ≤ x)%N by (apply Hd; [lia|done|done]). lia.
      + apply N.ltb_ge in E. rewrite IH. split.
        * intros Hd [|i] [|j] a b Hij; cbn; try lia.
          -- intros; simplify_eq; lia.
          -- intros [= <-] Hb. etrans; [|exact E]. apply (Hd 0 j y b); [lia|done|done].
          -- intros Ha Hb. apply (Hd i j a b); [lia|done|done].
        * intros Hd i j a b Hij Ha Hb. apply (Hd (S i) (S j) a b); [lia|done|done].
  Qed.
  Lemma v_exec_well_formed s d :
    VSeq.checked f = true ∨ (B * imax (VSeq.lent f) ≤ isize_max)%N → fits s d →
    ∃ b, VSeq.exec_well_formed f s d = Some b ∧ (b = true ↔ VSeq.well_formed f (sl_i s d)).
  Proof.
    intros Hcap Hs. unfold VSeq.exec_well_formed. rewrite (r_try_parse bf Hbf Hbv) by done.
    cbn [mbind option_bind]. unfold VSeq.well_formed, VSeq.table.
    destruct (RSeq.spec_parse bf (sl_i s d)) as [t|] eqn:Hx.
    2:{ eexists. split; [done|]. split; [done|]. intros (?&?&?). done. }
    assert (Heq : (∃ t0, Some t = Some t0 ∧ VSeq.valid_table f t0) ↔ VSeq.valid_table f t)
      by (split; [intros (?&[= ->]&?); done|eauto]).
    pose proof Hx as (E&HL&HM&_)%(r_view_elim bf Hbf). destruct (v_table_arith t HM) as [A1 A2].
    destruct t as [|x t].
    { eexists. split; [done|]. rewrite Heq. split; [intros _|done]. by split_and!; intros *. }
    destruct (stdpp.list.last (x :: t)) as [y|] eqn:Ey; [|by apply last_None in Ey].
    rewrite umul_ok by done. cbn [mbind option_bind]. rewrite uadd_ok by done. cbn [mbind option_bind].
    unfold to_usize. destruct (y <? _)%N eqn:E1.
    { apply N.ltb_lt in E1. eexists. split; [done|]. rewrite Heq. split; [done|].
      intros (_&_&Hl). specialize (Hl _ Ey). unfold VSeq.size_of_table in Hl. lia. }
    apply N.ltb_ge in E1. destruct (_ <? x)%N eqn:E2.
    { apply N.ltb_lt in E2. eexists. split; [done|]. rewrite Heq. split; [done|].
      intros (_&Ht&_). specialize (Ht x eq_refl). lia. }
    apply N.ltb_ge in E2. eexists. split; [done|]. rewrite Heq, descending_ok. split.
    - intros Hd. split; [done|]. split; [intros a [= <-]; done|].
      intros a Ha. assert (a = y) as -> by congruence. done.
    - intros (Hd&_). done.
  Qed.
End vseq.

Lemma v_new_valid {V} c (e : Format V) b t total :
  honours e → valid e → (isz t ≤ total)%N → (total ≤ imax b)%N → (total ≤ imax t)%N →
  ∃ f, VSeq.new c e b t total = Some f ∧ VSeq.seq_valid f ∧ VSeq.eltf f = e ∧ VSeq.bdyt f = b ∧
    VSeq.lent f = t ∧ VSeq.total f = total ∧ VSeq.checked f = c.
Proof.
  intros He Hv Ht Hb Hl. unfold VSeq.new.
  destruct (r_new_valid c (int_uniform b) t total) as (r&E&Hr&E1&E2&E3&E4);
    [apply int_uniform_honours|done|done|].
  rewrite E. cbn [mbind option_bind]. eexists. split; [done|].
  destruct Hr as (?&?&Hm). unfold RSeq.spec_max_length in Hm. rewrite E1, E2, E3 in Hm.
  cbn [VSeq.eltf VSeq.bdyt VSeq.lent VSeq.total VSeq.checked]. split; [|done].
  unfold VSeq.seq_valid. cbn [VSeq.eltf VSeq.bdyt VSeq.lent VSeq.total VSeq.maxl VSeq.checked VSeq.bdyf].
  rewrite E3. split; [done|]. split; [|done]. split; [done|]. split; [done|].
  unfold RSeq.spec_max_length. cbn [RSeq.max_length RSeq.total_size RSeq.lent RSeq.eltf VSeq.bdyf VSeq.bdyt VSeq.lent VSeq.total VSeq.maxl].
  exact Hm.
Qed.
