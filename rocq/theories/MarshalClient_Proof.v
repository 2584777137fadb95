From Coq Require Import NArith Lia ZifyBool ZifyNat ZifyN.
From Coq Require Import Strings.Byte.
From Verif Require Import MarshalClient_Spec Marshal_Proof MarshalSeq_Proof MarshalResizable_Proof
  MarshalVariable_Proof MarshalKV_Proof.
From stdpp Require Import prelude list numbers.

Lemma honours_reliable {V} (f : Format V) : honours f → reliable f.
Proof.
  intros H. split.
  - intros v Hm. destruct (ho_size f H v Hm) as [E _]. eauto.
  - intros v d p n Hm Hn Hp Hd. destruct (ho_size f H v Hm) as [E _]. rewrite E in Hn. injection Hn as <-.
    destruct (ho_marshall f H v d p Hm Hp Hd) as (d'&E'&Hc&Hr).
    assert (fits (mkSlice p (p + spec_size f v)) d') as Hs.
    { unfold fits. cbn [sl_start sl_end]. rewrite (changed_len _ _ _ _ Hc). lia. }
    exists d'. split; [done|]. split; [done|].
    rewrite (ho_try f H) by done. rewrite (ho_parsable f H) by done.
    unfold sl_i. cbn [sl_start sl_end]. rewrite Hr. split; [done|]. split; [by rewrite bool_decide_eq_true_2 by eauto|].
    by apply (ho_parse f H).
  - intros s d Hs. exists (spec_parse f (sl_i s d)). split; [by apply (ho_try f H)|].
    split; [|intros v Hv; by apply (ho_parse f H)]. rewrite (ho_parsable f H) by done. f_equal.
    destruct (spec_parse f (sl_i s d)); [by rewrite bool_decide_eq_true_2 by eauto|].
    rewrite bool_decide_eq_false_2; [done|]. intros [? ?]. done.
  - intros s d s' d' Hs Hs' E. rewrite !(ho_try f H) by done. by rewrite E.
Qed.

(** What an integer looks like in the buffer. *)
Lemma int_bytes t x d p : (x ≤ imax t)%N → (p + isz t ≤ blen d)%N → (blen d ≤ isize_max)%N →
  ∃ d', exec_marshall (int_format t) x d p = Some (d', (p + isz t)%N) ∧ sub d' p (p + isz t) = to_le t x.
Proof.
  intros Hx Hp Hd. destruct (ho_marshall _ (int_honours t) x d p) as (d'&E&Hc&Hr); [done..|].
  exists d'. split; [done|]. cbn [int_format spec_size spec_parse] in Hr, Hc.
  assert (blen (sub d' p (p + isz t)) = isz t) as Hb.
  { pose proof (changed_len _ _ _ _ Hc). rewrite sub_blen by lia. lia. }
  rewrite Hb in Hr. destruct (_ <=? _)%N; [|done]. rewrite sub_all' in Hr by done. injection Hr as Hr.
  rewrite <- Hr. symmetry. apply to_from_le. apply Nat2N.inj. exact Hb.
Qed.

(** ** Setting an element of a full slice *)
Section useq.
  Context {V : Type} (f : Uniform V) (Hf : honours_uniform f) (Hv : valid (ufmt f)).
  Lemma u_view_set s d vs i v : fits s d →
    USeq.try_parse f s d = Some (Some vs) → marshallable (ufmt f) v →
    USeq.exec_settable f s i v = Some true →
    ∃ d', USeq.exec_set f s d i v = Some d' ∧
      changed_only_in d d' (sl_start s + i * usz f) (sl_start s + i * usz f + usz f) ∧
      (sl_start s + i * usz f + usz f ≤ sl_end s)%N ∧
      USeq.try_parse f s d' = Some (Some (<[N.to_nat i := v]> vs)).
  Proof.
    intros Hs Hp Hm Hset. pose proof (hu_format f Hf Hv) as H.
    unfold USeq.exec_settable in Hset. rewrite (u_exec_length f Hf s d Hs) in Hset.
    cbn [mbind option_bind] in Hset. destruct (ho_size _ H v Hm) as [Hsz _]. rewrite Hsz in Hset.
    cbn [mbind option_bind] in Hset. injection Hset as [Hi Hu]%andb_prop.
    apply N.ltb_lt in Hi. apply N.eqb_eq in Hu.
    pose proof (u_index f Hf s d i Hs Hi) as HI.
    destruct (u_set f Hf Hv s d i v Hs Hi Hm Hu) as (d'&E&Hc&Hg).
    exists d'. split; [done|]. rewrite <- N.add_assoc. split; [done|]. split; [done|].
    pose proof (fits_changed _ _ _ _ _ Hs Hc) as Hs'.
    rewrite (u_try_parse f Hf Hv) in Hp |- * by done. f_equal. injection Hp as Hp.
    unfold USeq.spec_parse in *.
    assert (USeq.length f (sl_i s d') = USeq.length f (sl_i s d)) as Hl.
    { unfold USeq.length. by rewrite (fits_blen _ _ Hs), (fits_blen _ _ Hs'). }
    rewrite Hl. destruct (_ <=? _)%N; [|done].
    apply mapM_upto_inv in Hp as [Hlen Hr].
    assert (blen (<[N.to_nat i := v]> vs) = USeq.length f (sl_i s d)) as <-.
    { unfold blen. rewrite insert_length. done. }
    apply mapM_upto_Some. intros j w Hw.
    destruct (decide (i = N.of_nat j)) as [->|Hne].
    - rewrite Nat2N.id in Hw. rewrite list_lookup_insert in Hw.
      + injection Hw as <-. unfold USeq.gettable. rewrite Hl. apply N.ltb_lt in Hi. by rewrite Hi.
      + unfold blen in Hlen. lia.
    - rewrite list_lookup_insert_ne in Hw by lia.
      destruct (u_other f Hf s d d' i (N.of_nat j) Hs Hi Hne Hc) as [-> ->]. by apply Hr.
  Qed.
End useq.

(** ** Pages of elements of one size *)
Section rseq.
  Context {V : Type} (f : RSeq.Fmt V) (Hf : honours_uniform (RSeq.eltf f)) (Hv : RSeq.seq_valid f).
  Notation T := (RSeq.total_size f).
  Notation M := (RSeq.spec_max_length f).
  Let u_pos : (0 < usz (RSeq.eltf f))%N := hu_positive _ Hf.

  Lemma page_size_le n : (page_size f n ≤ T ↔ n ≤ M)%N.
  Proof.
    pose proof (r_lenT f Hv). unfold page_size, RSeq.spec_max_length. rewrite <- (div_bound_iff _ _ _ u_pos). lia.
  Qed.
  Lemma page_op_ok s d o vs : fits s d → RSeq.spec_parse f (sl_i s d) = Some vs →
    Forall (marshallable (ufmt (RSeq.eltf f))) (op_values o) →
    ∃ d', page_op f s d o = Some d' ∧ changed_only_in d d' (sl_start s) (sl_start s + T) ∧
      RSeq.spec_parse f (sl_i s d') = Some (list_op f vs o).
  Proof.
    intros Hs Hp Hm. pose proof Hp as (E&HL&HM&_)%(r_view_elim f Hf).
    pose proof (r_lenT f Hv) as HT. pose proof (page_size_le (blen vs)) as HP0.
    destruct o as [v|i v|n]; cbn [page_op list_op op_values] in *.
    - rewrite Forall_singleton in Hm. rewrite (r_exec_appendable f Hf Hv s d v vs) by done.
      cbn [mbind option_bind]. pose proof (page_size_le (blen vs + 1)) as HP.
      destruct (decide _) as [(D1&D2&D3)|D]; destruct (bool_decide _) eqn:B.
      + apply bool_decide_eq_true in B as (B1&B2&B3).
        destruct (r_view_append f Hf Hv s d v vs) as (d'&E'&Hc&Hx); try done.
        exists d'. split; [done|]. split; [|done]. eapply changed_weaken; [exact Hc|lia|].
        unfold page_size in D2. lia.
      + apply bool_decide_eq_false in B. exfalso. apply B. split_and!; [done|lia|done].
      + apply bool_decide_eq_true in B as (B1&B2&B3). exfalso. apply D. split_and!; [done|lia|done].
      + exists d. split; [done|]. split; [apply changed_refl|done].
    - rewrite Forall_singleton in Hm. rewrite (r_exec_settable f Hf Hv s d i v) by done.
      cbn [mbind option_bind]. destruct (bool_decide _) eqn:B.
      + apply bool_decide_eq_true in B as (B1&B2). rewrite decide_True by done.
        destruct (r_view_set f Hf Hv s d i v vs) as (d'&E'&Hc&Hx); try done.
        exists d'. split; [done|]. split; [|done]. eapply changed_weaken; [exact Hc|lia|].
        pose proof (page_size_le (i + 1)) as HP. unfold page_size in HP. lia.
      + apply bool_decide_eq_false in B. exists d. split; [done|]. split; [apply changed_refl|].
        rewrite Hp. f_equal. destruct (decide _); [|done]. symmetry. apply list_insert_ge.
        destruct (decide (i < M)%N); [exfalso; apply B; done|]. unfold blen in HM. lia.
    - rewrite (r_exec_resizable f Hf Hv s d n) by done. cbn [mbind option_bind].
      rewrite (r_exec_length f Hf Hv s d) by done. rewrite HL. cbn [mbind option_bind].
      destruct (_ && _) eqn:B.
      + apply andb_prop in B as [B1 B2]. apply N.leb_le in B2.
        destruct (r_view_truncate f Hf Hv s d n vs) as (d'&E'&Hc&Hx); try done.
        exists d'. split; [done|]. split; [|done]. eapply changed_weaken; [exact Hc|lia..].
      + exists d. split; [done|]. split; [apply changed_refl|]. rewrite Hp. f_equal. symmetry.
        apply take_ge. unfold blen in *.
        apply andb_false_iff in B as [B|B].
        * apply bool_decide_eq_false in B. pose proof (r_length_max f Hf Hv (sl_i s d) E) as Hmax.
          rewrite HL in Hmax. destruct (decide (n ≤ N.of_nat (length vs))%N); [|lia].
          exfalso. apply B. lia.
        * apply N.leb_gt in B. lia.
  Qed.
  Lemma page_ops_ok s os : ∀ d vs, fits s d → RSeq.spec_parse f (sl_i s d) = Some vs →
    Forall (marshallable (ufmt (RSeq.eltf f))) (os ≫= op_values) →
    ∃ d', page_ops f s d os = Some d' ∧ changed_only_in d d' (sl_start s) (sl_start s + T) ∧
      RSeq.spec_parse f (sl_i s d') = Some (foldl (list_op f) vs os).
  Proof.
    induction os as [|o os IH]; intros d vs Hs Hp Hm; cbn [page_ops foldl].
    { exists d. split; [done|]. split; [apply changed_refl|done]. }
    cbn [mbind list_bind] in Hm. apply stdpp.list.Forall_app in Hm as [Hm1 Hm2].
    destruct (page_op_ok s d o vs Hs Hp Hm1) as (d1&E1&Hc1&Hp1). rewrite E1. cbn [mbind option_bind].
    destruct (IH d1 _ (fits_changed _ _ _ _ _ Hs Hc1) Hp1 Hm2) as (d2&E2&Hc2&Hp2).
    exists d2. split; [done|]. split; [|done]. eapply changed_trans; [exact Hc1|exact Hc2|lia..].
  Qed.
  Lemma page_read s d vs : fits s d → RSeq.spec_parse f (sl_i s d) = Some vs →
    RSeq.exec_length f s d = Some (blen vs) ∧
    (∀ i v, vs !! i = Some v → RSeq.exec_get_elt f s d (N.of_nat i) = Some v ∧
       RSeq.try_get_elt f s d (N.of_nat i) = Some (Some v)) ∧
    (RSeq.checked f = true ∨ (elt_bytes (ufmt (RSeq.eltf f)) * imax (RSeq.lent f) ≤ isize_max)%N →
     RSeq.try_parse f s d = Some (Some vs)).
  Proof.
    intros Hs Hp. pose proof Hp as (E&HL&HM&Hg)%(r_view_elim f Hf). split; [|split].
    - rewrite (r_exec_length f Hf Hv s d) by done. by rewrite HL.
    - intros i v Hi. pose proof (Hg _ _ Hi) as Hi'.
      assert (RSeq.gettable f (sl_i s d) (N.of_nat i) = true) as G.
      { apply r_gettable. split; [done|]. apply lookup_lt_Some in Hi. unfold blen in HM. lia. }
      split; [by apply (r_exec_get_elt f Hf Hv)|].
      rewrite (r_try_get_elt f Hf Hv) by done. by rewrite G, Hi'.
    - intros Hc. rewrite (r_try_parse f Hf Hv) by done. by rewrite Hp.
  Qed.
  Lemma page_history s d os : fits s d → (T ≤ sl_end s - sl_start s)%N →
    Forall (marshallable (ufmt (RSeq.eltf f))) (os ≫= op_values) →
    ∃ d0 d', RSeq.initialize f s d = Some d0 ∧ page_ops f s d0 os = Some d' ∧
      changed_only_in d d' (sl_start s) (sl_start s + T) ∧ fits s d' ∧
      RSeq.spec_parse f (sl_i s d') = Some (foldl (list_op f) [] os).
  Proof.
    intros Hs HT Hm. pose proof (r_lenT f Hv) as HL.
    destruct (r_initialize f Hf Hv s d Hs) as (d0&E0&Hc0&Hp0).
    { unfold RSeq.lengthable. rewrite (fits_blen _ _ Hs). by apply N.leb_le. }
    pose proof (fits_changed _ _ _ _ _ Hs Hc0) as Hs0.
    destruct (page_ops_ok s os d0 [] Hs0 Hp0 Hm) as (d'&E'&Hc'&Hp').
    exists d0, d'. split; [done|]. split; [done|].
    split; [eapply changed_trans; [exact Hc0|exact Hc'|lia..]|].
    split; [exact (fits_changed _ _ _ _ _ Hs0 Hc')|done].
  Qed.
End rseq.

(** ** Pages of elements of many sizes *)
Section vseq.
  Context {V : Type} (f : VSeq.Fmt V) (Hval : VSeq.seq_valid f) (H : honours (VSeq.eltf f)).
  Notation T := (VSeq.total f).
  Lemma room_snoc vs v : room f (vs ++ [v]) =
    (isz (VSeq.lent f) + isz (VSeq.bdyt f) * (blen vs + 1) + total_of (spec_size (VSeq.eltf f) <$> vs)
     + spec_size (VSeq.eltf f) v)%N.
  Proof.
    unfold room. rewrite fmap_app, total_of_app. unfold blen. rewrite app_length. cbn. lia.
  Qed.
  Lemma offers_ok s vs : ∀ d us, fits s d → v_holds f (sl_i s d) us →
    Forall (marshallable (VSeq.eltf f)) vs →
    ∃ d', offers f s d vs = Some d' ∧ changed_only_in d d' (sl_start s) (sl_start s + T) ∧
      v_holds f (sl_i s d') (foldl (keep f) us vs).
  Proof.
    induction vs as [|v vs IH]; intros d us Hs Hh Hm; cbn [offers foldl].
    { exists d. split; [done|]. split; [apply changed_refl|done]. }
    apply stdpp.list.Forall_cons in Hm as [Hm1 Hm2].
    assert (∃ d1, offer f s d v = Some d1 ∧ changed_only_in d d1 (sl_start s) (sl_start s + T) ∧
              v_holds f (sl_i s d1) (keep f us v)) as (d1&E1&Hc1&Hh1).
    { unfold offer, keep. rewrite (v_holds_appendable f Hval H s d v us) by done. cbn [mbind option_bind].
      rewrite room_snoc. destruct (decide _) as [D|D].
      - rewrite bool_decide_eq_true_2 by done. by apply v_holds_append.
      - rewrite bool_decide_eq_false_2 by done. exists d. split; [done|]. split; [apply changed_refl|done]. }
    rewrite E1. cbn [mbind option_bind].
    destruct (IH d1 _ (fits_changed _ _ _ _ _ Hs Hc1) Hh1 Hm2) as (d2&E2&Hc2&Hh2).
    exists d2. split; [done|]. split; [|done]. eapply changed_trans; [exact Hc1|exact Hc2|lia..].
  Qed.
  Lemma offers_history s d vs : fits s d → (T ≤ sl_end s - sl_start s)%N →
    Forall (marshallable (VSeq.eltf f)) vs →
    ∃ d0 d', VSeq.initialize f s d = Some d0 ∧ offers f s d0 vs = Some d' ∧
      changed_only_in d d' (sl_start s) (sl_start s + T) ∧ fits s d' ∧
      v_holds f (sl_i s d') (foldl (keep f) [] vs).
  Proof.
    intros Hs HT Hm.
    destruct (v_initialize f Hval s d Hs) as (d0&E0&Hc0&Hh0).
    { unfold RSeq.lengthable. rewrite (fits_blen _ _ Hs). by apply N.leb_le. }
    pose proof (fits_changed _ _ _ _ _ Hs Hc0) as Hs0.
    destruct (offers_ok s vs d0 [] Hs0 Hh0 Hm) as (d'&E'&Hc'&Hh').
    exists d0, d'. split; [done|]. split; [done|].
    split; [eapply changed_trans; [exact Hc0|exact Hc'|lia..]|].
    split; [exact (fits_changed _ _ _ _ _ Hs0 Hc')|done].
  Qed.
  (** A well-formed page, however it came about, keeps its elements across an append. *)
  Lemma v_append_any s d v : fits s d → VSeq.well_formed f (sl_i s d) → marshallable (VSeq.eltf f) v →
    ∃ b n, VSeq.exec_appendable f s d v = Some b ∧ VSeq.exec_length f s d = Some n ∧
      (b = true → ∃ d', VSeq.exec_append f s d v = Some d' ∧
         changed_only_in d d' (sl_start s) (sl_start s + T) ∧
         VSeq.well_formed f (sl_i s d') ∧ VSeq.exec_length f s d' = Some (n + 1)%N ∧
         VSeq.try_get_elt f s d' n = Some (Some v) ∧
         ∀ i, (i < n)%N → VSeq.try_get_elt f s d' i = VSeq.try_get_elt f s d i).
  Proof.
    intros Hs (t&Hx&Hv) Hm.
    assert (Hlen : ∀ d t, fits s d → VSeq.table f (sl_i s d) = Some t → VSeq.exec_length f s d = Some (blen t)).
    { intros d0 t0 Hs0 Hx0. pose proof Hx0 as (E0&HL0&_)%(r_view_elim (VSeq.bdyf f) (int_uniform_honours _)).
      unfold VSeq.exec_length, VSeq.try_length.
      rewrite (r_try_length (VSeq.bdyf f) (int_uniform_honours _) (proj1 (proj2 Hval))) by done.
      rewrite E0. cbn [mbind option_bind]. by f_equal. }
    pose proof (start_le f t Hv) as Hle.
    eexists _, (blen t). split; [by apply v_exec_appendable|]. split; [by apply Hlen|].
    intros Hb%bool_decide_eq_true.
    destruct (v_append f Hval H s d v t Hs Hx Hv Hm Hb) as (d'&E&Hc&Hx'&Hv'&Hp).
    pose proof (fits_changed _ _ _ _ _ Hs Hc) as Hs'.
    pose proof Hx as (El&_)%(r_view_elim (VSeq.bdyf f) (int_uniform_honours _)).
    pose proof (v_lengthable f s d Hs El) as HT.
    set (st := (VSeq.elements_start f t - spec_size (VSeq.eltf f) v)%N) in *.
    exists d'. split; [done|]. split; [eapply changed_weaken; [exact Hc|lia..]|].
    split; [by exists (t ++ [st])|]. split.
    { rewrite (Hlen d' (t ++ [st])) by done. f_equal. unfold blen. rewrite app_length. cbn. lia. }
    pose proof Hc as Hcx. rewrite <- (N.add_0_r (sl_start s)) in Hcx at 1.
    apply changed_sl in Hcx; [|done|lia].
    split.
    - destruct (v_elt_table f Hval (sl_i s d') (t ++ [st]) (length t) st Hx' Hv') as (He&_&_).
      { by rewrite list_lookup_middle. }
      rewrite (v_try_get_elt f Hval H) by done. unfold blen. rewrite He. rewrite <- Hp. do 3 f_equal.
      unfold tend, VSeq.elements_start. rewrite last_lookup. destruct t as [|b t']; [done|].
      cbn [length]. rewrite Nat.pred_succ, lookup_app_l by (cbn; lia).
      destruct (lookup_lt_is_Some_2 (b :: t') (length t')) as [c Hc']; [cbn; lia|]. by rewrite Hc'.
    - intros i Hi. destruct (lookup_lt_is_Some_2 t (N.to_nat i)) as [a Ha]; [unfold blen in Hi; lia|].
      destruct (v_elt_table f Hval _ _ _ _ Hx Hv Ha) as (He&_&_).
      destruct (v_elt_table f Hval (sl_i s d') (t ++ [st]) (N.to_nat i) a Hx' Hv') as (He'&_&_).
      { rewrite lookup_app_l; [done|]. unfold blen in Hi. lia. }
      rewrite N2Nat.id in He, He'.
      rewrite !(v_try_get_elt f Hval H) by done. rewrite He, He'. do 2 f_equal.
      assert (tend f (t ++ [st]) (N.to_nat i) = tend f t (N.to_nat i)) as ->.
      { unfold tend. destruct (N.to_nat i) as [|j] eqn:Ei; [done|]. rewrite lookup_app_l; [done|]. unfold blen in Hi. lia. }
      eapply changed_sub; [exact Hcx|]. right. by eapply start_le_entry.
  Qed.
End vseq.
