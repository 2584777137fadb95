(** Lemmas about trees that route by pivots, for arbitrary node contents. *)
From Verif Require Import Spec_Model Abs_Model Betree_Model Betree_Spec Spec_Proof Abs_Proof Route_Proof Betree_Common.
From Coq Require Import ZifyBool ZifyNat ZifyN Lia.
Import Routed.

Section Induction.
  Context {D : Type} (P : BetreeNode D → Prop).
  Hypothesis HNil : P Nil.
  Hypothesis HNode : ∀ d p ch, Forall P ch → P (Node d p ch).
  Lemma node_ind : ∀ n, P n.
  Proof using HNil HNode.
    fix IH 1. intros [|d p ch]; [exact HNil|]. apply HNode.
    induction ch as [|c ch IHch]; constructor; [apply IH|exact IHch].
  Qed.
End Induction.

Section Wf.
  Context {D : Type} (dwf : D → nat → Prop).
  Implicit Types n c t : BetreeNode D.
  Lemma wf_node d p ch :
    wf dwf (Node d p ch) ↔ pt_wf p ∧ length p = S (length ch) ∧ dwf d (length ch) ∧
      (∀ i c, ch !! i = Some c → wf dwf c ∧ (is_node c → my_domain c = mkDomain (pivot_at p i) (pivot_at p (S i)))).
  Proof.
    assert (Hf : (fix wf_children l := match l with [] => True | c :: rest => wf dwf c ∧ wf_children rest end) ch ↔ Forall (wf dwf) ch).
    { induction ch as [|c ch IH]; [by split|]. rewrite IH. split; [intros []; by constructor|by inversion 1]. }
    cbn [wf]. rewrite Hf. unfold local_structure, linked_children, child_domain. cbn [children_of pivots_of].
    split.
    - intros ((Hp&Hl&Hd)&Hw&Hlk). split; [done|]. split.
      { destruct Hp as (Hn&_). unfold num_ranges in *. lia. }
      split; [done|]. intros i c Hc. pose proof (proj1 (Forall_lookup _ _) Hw _ _ Hc) as Hwc.
      split; [done|]. intros Hn. rewrite (Hlk i c Hc Hn).
      + f_equal. f_equal. lia.
      + destruct c; simpl in *; tauto.
    - intros (Hp&Hl&Hd&Hc). split; [|split].
      + split; [done|]. split; [|done]. unfold num_ranges. lia.
      + apply Forall_lookup. intros i c Hi. by apply (Hc i).
      + intros i c Hi Hn _. replace (i + 1) with (S i) by lia. by apply (Hc i).
  Qed.
  Lemma wf_nil : wf dwf Nil.
  Proof. done. Qed.
  Lemma child_at_lookup n i c : children_of n !! i = Some c → child_at n i = c.
  Proof. intros H. unfold child_at. by apply nth_lookup_Some. Qed.
  Lemma wf_child d p ch k : wf dwf (Node d p ch) → bounded_key p k →
    ∃ c, ch !! route_idx p k = Some c ∧ child (Node d p ch) k = c ∧ between p (route_idx p k) k.
  Proof.
    intros (Hp&Hl&Hd&Hc)%wf_node Hb. destruct (route_between p k Hp Hb) as [_ Hbt].
    pose proof (proj1 (between_at _ _ _) Hbt) as (Hlt&_).
    destruct (lookup_lt_is_Some_2 ch (route_idx p k)) as [c Hc']; [lia|].
    exists c. split; [done|]. split; [|done]. unfold child. cbn [pivots_of]. by apply child_at_lookup.
  Qed.
  Lemma wf_child_bounded d p ch i c k :
    wf dwf (Node d p ch) → ch !! i = Some c → between p i k → is_node c → bounded_key (pivots_of c) k.
  Proof.
    intros (Hp&Hl&Hd&Hc)%wf_node Hi (Hlt&H1&H2)%between_at Hn.
    destruct (Hc _ _ Hi) as [_ Hdm]. specialize (Hdm Hn). unfold my_domain in Hdm.
    injection Hdm as E1 E2. unfold bounded_key. rewrite E1, E2. done.
  Qed.
  Lemma wf_tiles n : wf dwf n → tiles n (dom_start (my_domain n)) (dom_end (my_domain n)).
  Proof.
    induction n as [|d p ch IH] using node_ind; intros Hw; [constructor|].
    apply wf_node in Hw as (Hp&Hl&Hd&Hc). cbn [my_domain dom_start dom_end pivots_of].
    pose proof (proj1 (pt_wf_adjacent p) Hp) as [Hn Hadj].
    constructor; [apply pivot_at_lookup; lia| |done| |].
    - rewrite pivot_last_eq. replace (length p - 1) with (length ch) by lia. apply pivot_at_lookup. lia.
    - intros ->. simpl in Hl. lia.
    - intros i a b c Ha Hb Hi. apply pivot_at_Some in Ha. pose proof (lookup_lt_Some _ _ _ Hb).
      apply pivot_at_Some in Hb. subst a b. split; [by apply Hadj|].
      destruct (Hc i c Hi) as [Hwc Hdm]. pose proof (proj1 (Forall_lookup _ _) IH _ _ Hi Hwc) as Ht.
      destruct c; [constructor|]. rewrite Hdm in Ht by done. exact Ht.
  Qed.
  Lemma covers_bounded t k : wf dwf t → covers_all_keys t → is_node t → bounded_key (pivots_of t) k.
  Proof.
    destruct t as [|d p ch]; [by intros _ _ []|]. intros _ [H0 Hl] _.
    unfold bounded_key. cbn [pivots_of]. rewrite pivot_last_eq, (pivot_at_Some _ _ _ H0), (pivot_at_Some _ _ _ Hl).
    unfold to_element. split; elt_cases; lia.
  Qed.
  Lemma bounded_dom t k : bounded_key (pivots_of t) k ↔ dom_contains (my_domain t) k.
  Proof. done. Qed.
  Lemma covers_domain t : wf dwf t → is_node t → covers_all_keys t ↔ my_domain t = total_domain.
  Proof.
    destruct t as [|d p ch]; [by intros _ []|]. intros (Hp&Hl&_)%wf_node _.
    unfold my_domain, total_domain, min_elem. cbn [pivots_of covers_all_keys]. rewrite pivot_last_eq. split.
    - intros [H0 H1]. by rewrite (pivot_at_Some _ _ _ H0), (pivot_at_Some _ _ _ H1).
    - intros [= H0 H1]. rewrite <-H0, <-H1. rewrite !pivot_at_lookup by lia.
      rewrite H0, H1. done.
  Qed.
End Wf.

Section Answers.
  Context {D : Type} (dwf : D → nat → Prop) (held : D → nat → Key → list Message).
  Implicit Types n c t : BetreeNode D.
  Notation wf := (wf dwf).
  Notation ans := (routed_answers held).

  Definition teq t t' : Prop := ∀ k m, ans t k m ↔ ans t' k m.
  Lemma ans_node d p ch k m :
    ans (Node d p ch) k m ↔
    ∃ i c m', between p i k ∧ ch !! i = Some c ∧ ans c k m' ∧ m = merge_all m' (held d i k).
  Proof.
    split.
    - inversion 1; subst. eexists _, _, _. split; [|eauto]. by eexists _, _.
    - intros (i&c&m'&(lo&hi&?&?&?&?)&Hc&Ha&->). by eapply routed_answers_node.
  Qed.
  Lemma ans_nil k m : ans Nil k m ↔ m = message_empty.
  Proof. split; [by inversion 1|intros ->; constructor]. Qed.

  Fixpoint den t (k : Key) : Message :=
    match t with
    | Nil => message_empty
    | Node d p ch =>
        merge_all (nth (route_idx p k) (map (λ c, den c k) ch) message_empty) (held d (route_idx p k) k)
    end.
  Lemma ans_den t k m : wf t → ans t k m → den t k = m.
  Proof.
    revert m. induction t as [|d p ch IH] using node_ind; intros m Hw Ha.
    - apply ans_nil in Ha as ->. done.
    - apply ans_node in Ha as (i&c&m'&Hb&Hc&Ha&->). pose proof Hw as (Hp&Hl&Hd&Hch)%wf_node.
      cbn [den]. rewrite (between_route_idx _ _ _ Hp Hb). f_equal.
      apply nth_lookup_Some. rewrite list_lookup_fmap, Hc. simpl. f_equal.
      apply (proj1 (Forall_lookup _ _) IH _ _ Hc); [by apply (Hch i)|done].
  Qed.
  Lemma den_ans t k : wf t → (is_node t → bounded_key (pivots_of t) k) → ans t k (den t k).
  Proof.
    induction t as [|d p ch IH] using node_ind; intros Hw Hb; [constructor|].
    specialize (Hb ltac:(done)). cbn [pivots_of] in Hb.
    destruct (wf_child dwf d p ch k Hw Hb) as (c&Hc&_&Hbt).
    apply ans_node. exists (route_idx p k), c, (den c k). split; [done|]. split; [done|]. split.
    - apply (proj1 (Forall_lookup _ _) IH _ _ Hc).
      + apply wf_node in Hw as (_&_&_&Hch). by apply (Hch _ _ Hc).
      + intros Hn. by eapply wf_child_bounded.
    - cbn [den]. f_equal. apply nth_lookup_Some. by rewrite list_lookup_fmap, Hc.
  Qed.
  Lemma ans_bounded d p ch k m : wf (Node d p ch) → ans (Node d p ch) k m → bounded_key p k.
  Proof.
    intros (Hp&_)%wf_node (i&c&m'&Hb&_)%ans_node. by eapply between_bounded.
  Qed.
  Lemma ans_define t k m : ans t k m → Paged.is_define m.
  Proof. induction 1; [by eexists|]. by apply merge_all_define. Qed.
  Lemma holds_den t : wf t → covers_all_keys t → holds ans t (den t).
  Proof.
    intros Hw Hc k v. split; [by apply ans_den|]. intros <-. apply den_ans; [done|].
    by eapply covers_bounded.
  Qed.

  (** ** Changing a node *)
  Lemma node_change d d' p ch ch' :
    wf (Node d p ch) → length ch' = length ch → dwf d' (length ch) →
    (∀ j c c', ch !! j = Some c → ch' !! j = Some c' →
       wf c' ∧ (is_node c' → my_domain c' = mkDomain (pivot_at p j) (pivot_at p (S j))) ∧
       ∀ k m, between p j k →
         ((∃ m', ans c k m' ∧ m = merge_all m' (held d j k)) ↔
          (∃ m', ans c' k m' ∧ m = merge_all m' (held d' j k)))) →
    wf (Node d' p ch') ∧ teq (Node d p ch) (Node d' p ch').
  Proof.
    intros (Hp&Hl&Hd&Hc)%wf_node Hlen Hd' H. split.
    - apply wf_node. rewrite Hlen. split; [done|]. split; [done|]. split; [done|].
      intros i c' Hc'. destruct (lookup_lt_is_Some_2 ch i) as [c Hci].
      { apply lookup_lt_Some in Hc'. lia. }
      destruct (H i c c' Hci Hc') as (?&?&_). done.
    - intros k m. rewrite !ans_node. split.
      + intros (i&c&m'&Hb&Hci&Ha&->). destruct (lookup_lt_is_Some_2 ch' i) as [c' Hc'].
        { apply lookup_lt_Some in Hci. lia. }
        destruct (H i c c' Hci Hc') as (_&_&Hk).
        destruct (proj1 (Hk k (merge_all m' (held d i k)) Hb)) as (m''&Ha'&E); [by exists m'|].
        exists i, c', m''. done.
      + intros (i&c'&m'&Hb&Hci&Ha&->). destruct (lookup_lt_is_Some_2 ch i) as [c Hc'].
        { apply lookup_lt_Some in Hci. lia. }
        destruct (H i c c' Hc' Hci) as (_&_&Hk).
        destruct (proj2 (Hk k (merge_all m' (held d' i k)) Hb)) as (m''&Ha'&E); [by exists m'|].
        exists i, c, m''. done.
  Qed.
  Lemma replace_child d d' p ch i c c' :
    wf (Node d p ch) → ch !! i = Some c → wf c' →
    (is_node c' → my_domain c' = mkDomain (pivot_at p i) (pivot_at p (S i))) →
    dwf d' (length ch) →
    (∀ j k m, j < length ch → j ≠ i → between p j k → merge_all m (held d' j k) = merge_all m (held d j k)) →
    (∀ k m, between p i k →
         ((∃ m', ans c k m' ∧ m = merge_all m' (held d i k)) ↔
          (∃ m', ans c' k m' ∧ m = merge_all m' (held d' i k)))) →
    wf (Node d' p (<[i := c']> ch)) ∧ teq (Node d p ch) (Node d' p (<[i := c']> ch)).
  Proof.
    intros Hw Hi Hwc' Hdm Hd' Ho Hk. pose proof Hw as (Hp&Hl&Hd&Hc)%wf_node.
    apply node_change; [done|apply insert_length|done|].
    intros j x x' Hx Hx'. destruct (decide (j = i)) as [->|Hne].
    - rewrite list_lookup_insert in Hx' by (by apply lookup_lt_Some in Hi).
      rewrite Hi in Hx. injection Hx as <-. injection Hx' as <-. done.
    - rewrite list_lookup_insert_ne in Hx' by done. rewrite Hx in Hx'. injection Hx' as <-.
      destruct (Hc j x Hx) as [H1 H2]. split; [done|]. split; [done|].
      intros k m Hb. apply lookup_lt_Some in Hx as Hlt. split; intros (m'&Ha&->); exists m'; rewrite Ho; done.
  Qed.

  Lemma target_wf t key depth :
    path_valid dwf t key depth → wf (path_target t key depth) ∧ is_node (path_target t key depth).
  Proof.
    revert t. induction depth as [|dp IH]; intros t Hv; cbn [path_valid path_target] in *.
    - destruct Hv as (?&(_&?&_)&_). done.
    - apply IH, Hv.
  Qed.
  Lemma substitute_ok t key depth t' :
    path_valid dwf t key depth → wf t' → is_node t' →
    my_domain t' = my_domain (path_target t key depth) →
    teq (path_target t key depth) t' →
    let r := path_substitute t key depth t' in
    wf r ∧ is_node r ∧ my_domain r = my_domain t ∧ teq t r.
  Proof.
    revert t. induction depth as [|dp IH]; intros t Hv Hw Hn Hdm Ht; cbn [path_valid path_target path_substitute] in *.
    - done.
    - destruct Hv as (Hwt&(_&Hnt&Hb)&Hix&Hv).
      destruct (IH _ Hv Hw Hn Hdm Ht) as (Hwr&Hnr&Hdr&Hteq). clear IH.
      destruct t as [|d p ch]; [by destruct Hnt|]. cbn [pivots_of] in Hb.
      destruct (wf_child dwf d p ch key Hwt Hb) as (c&Hc&Hce&Hbt). rewrite Hce in *.
      pose proof Hwt as (Hp&Hl&Hd&Hch)%wf_node. destruct (Hch _ _ Hc) as [Hwc Hdc].
      assert (Hnc : is_node c).
      { destruct Hix as [_ Hix]. exact (proj1 (Forall_lookup _ _) Hix _ _ Hc). }
      destruct (replace_child d d p ch (route_idx p key) c (path_substitute c key dp t')) as [H1 H2];
        [done|done|done| |done|done| |].
      { intros _. rewrite Hdr. by apply Hdc. }
      { intros k m _. split; intros (m'&Ha&->); exists m'; (split; [by apply Hteq|done]). }
      done.
  Qed.

  (** Splitting child [i] at [e]. *)
  Lemma split_ok d d' p ch i c e l r :
    wf (Node d p ch) → ch !! i = Some c →
    elt_lt (pivot_at p i) e → elt_lt e (pivot_at p (S i)) →
    wf l → wf r → is_node l → is_node r →
    my_domain l = mkDomain (pivot_at p i) e → my_domain r = mkDomain e (pivot_at p (S i)) →
    (∀ k m, ans l k m ↔ ans c k m ∧ elt_lte (pivot_at p i) (Elem k) ∧ elt_lt (Elem k) e) →
    (∀ k m, ans r k m ↔ ans c k m ∧ elt_lte e (Elem k) ∧ elt_lt (Elem k) (pivot_at p (S i))) →
    dwf d' (S (length ch)) →
    (∀ j k m, j < length ch → j ≤ i → merge_all m (held d' j k) = merge_all m (held d j k)) →
    (∀ j k m, j < length ch → i ≤ j → merge_all m (held d' (S j) k) = merge_all m (held d j k)) →
    let n := Node d' (seq_insert p (i + 1) e) (seq_insert (<[i := l]> ch) (i + 1) r) in
    wf n ∧ my_domain n = my_domain (Node d p ch) ∧ teq (Node d p ch) n.
  Proof.
    intros Hw Hi He1 He2 Hwl Hwr Hnl Hnr Hdl Hdr Hal Har Hd' Hj1 Hj2.
    pose proof Hw as (Hp&Hl&Hd&Hch)%wf_node. pose proof (lookup_lt_Some _ _ _ Hi) as Hilt.
    set (p' := seq_insert p (i + 1) e). set (ch' := seq_insert (<[i := l]> ch) (i + 1) r).
    assert (Hlp : length p' = S (length p)) by (apply seq_insert_length; lia).
    assert (Hlc : length ch' = S (length ch)).
    { unfold ch'. rewrite seq_insert_length; rewrite insert_length; lia. }
    assert (Hpa : ∀ j, j < S (length p) →
      pivot_at p' j = if decide (j ≤ i) then pivot_at p j else if decide (j = S i) then e else pivot_at p (j - 1)).
    { intros j Hj. apply pivot_at_Some. unfold p'. rewrite seq_insert_lookup by lia.
      replace (i + 1) with (S i) by lia.
      destruct (decide (j < S i)), (decide (j ≤ i)); try lia; [by apply pivot_at_lookup; lia|].
      destruct (decide (j = S i)); [done|]. apply pivot_at_lookup. lia. }
    assert (Hca : ∀ j, ch' !! j = if decide (j < i) then ch !! j else if decide (j = i) then Some l
                       else if decide (j = S i) then Some r else ch !! (j - 1)).
    { intros j. unfold ch'. rewrite seq_insert_lookup by (rewrite insert_length; lia).
      replace (i + 1) with (S i) by lia. destruct (decide (j < i)).
      { destruct (decide (j < S i)); [|lia]. by rewrite list_lookup_insert_ne by lia. }
      destruct (decide (j = i)) as [->|].
      { destruct (decide (i < S i)); [|lia]. by rewrite list_lookup_insert. }
      destruct (decide (j < S i)); [lia|]. destruct (decide (j = S i)); [done|].
      by rewrite list_lookup_insert_ne by lia. }
    assert (Hp' : pt_wf p').
    { apply pt_wf_adjacent. split; [lia|]. intros j Hj. rewrite !Hpa by lia.
      destruct (decide (j = i)) as [->|]; [|destruct (decide (j = S i)) as [->|]].
      - destruct (decide (i ≤ i)), (decide (S i ≤ i)), (decide (S i = S i)); try lia. done.
      - destruct (decide (S i ≤ i)), (decide (S (S i) ≤ i)), (decide (S i = S i)), (decide (S (S i) = S i)); try lia.
        done.
      - destruct (decide (j ≤ i)), (decide (S j ≤ i)), (decide (S j = S i)); try lia.
        + apply pt_lt; [done|lia].
        + apply pt_lt; [done|lia]. }
    split; [|split].
    - apply wf_node. split; [done|]. split; [lia|]. split; [by rewrite Hlc|].
      intros j x Hx. pose proof (lookup_lt_Some _ _ _ Hx) as Hjl. rewrite Hca in Hx. rewrite !Hpa by lia.
      destruct (decide (j < i)).
      { destruct (decide (j ≤ i)), (decide (S j ≤ i)); try lia. by apply Hch. }
      destruct (decide (j = i)) as [->|].
      { injection Hx as <-. destruct (decide (i ≤ i)), (decide (S i ≤ i)), (decide (S i = S i)); try lia. done. }
      destruct (decide (j = S i)) as [->|].
      { injection Hx as <-. destruct (decide (S i ≤ i)), (decide (S (S i) ≤ i)), (decide (S (S i) = S i)); try lia.
        simpl. done. }
      destruct (decide (j ≤ i)), (decide (S j ≤ i)), (decide (S j = S i)); try lia.
      replace (S j - 1) with (S (j - 1)) by lia. by apply Hch.
    - unfold my_domain. cbn [pivots_of]. rewrite !pivot_last_eq. f_equal.
      + rewrite Hpa by lia. destruct (decide (0 ≤ i)); [done|lia].
      + rewrite Hlp, Hpa by lia. repeat destruct (decide _); try lia.
        f_equal. lia.
    - intros k m. rewrite !ans_node. split.
      + intros (j&x&m'&Hb&Hx&Ha&->). apply between_at in Hb as (Hb0&Hb1&Hb2).
        destruct (decide (j = i)) as [->|Hne].
        * rewrite Hi in Hx. injection Hx as <-. destruct (decide (elt_lt (Elem k) e)) as [Hlt|Hge].
          -- exists i, l, m'. split.
             { apply between_at. split; [lia|]. rewrite !Hpa by lia.
               destruct (decide (i ≤ i)), (decide (S i ≤ i)), (decide (S i = S i)); try lia. done. }
             split. { rewrite Hca. destruct (decide (i < i)), (decide (i = i)); done || lia. }
             split; [by apply Hal|]. symmetry. by apply Hj1.
          -- apply elt_not_lt_lte in Hge. exists (S i), r, m'. split.
             { apply between_at. split; [lia|]. rewrite !Hpa by lia.
               destruct (decide (S i ≤ i)), (decide (S (S i) ≤ i)), (decide (S i = S i)), (decide (S (S i) = S i)); try lia.
               simpl. done. }
             split. { rewrite Hca. destruct (decide (S i < i)), (decide (S i = i)), (decide (S i = S i)); done || lia. }
             split; [by apply Har|]. symmetry. by apply Hj2.
        * apply lookup_lt_Some in Hx as Hxl. destruct (decide (j < i)) as [Hlt|Hgt].
          -- exists j, x, m'. split.
             { apply between_at. split; [lia|]. rewrite !Hpa by lia.
               destruct (decide (j ≤ i)), (decide (S j ≤ i)); try lia. done. }
             split. { rewrite Hca. destruct (decide (j < i)); done || lia. }
             split; [done|]. symmetry. apply Hj1; lia.
          -- exists (S j), x, m'. split.
             { apply between_at. split; [lia|]. rewrite !Hpa by lia.
               destruct (decide (S j ≤ i)), (decide (S (S j) ≤ i)), (decide (S j = S i)), (decide (S (S j) = S i)); try lia.
               simpl. rewrite Nat.sub_0_r. done. }
             split. { rewrite Hca. destruct (decide (S j < i)), (decide (S j = i)), (decide (S j = S i)); try lia.
                      simpl. by rewrite Nat.sub_0_r. }
             split; [done|]. symmetry. apply Hj2; lia.
      + intros (j&x&m'&Hb&Hx&Ha&->). apply between_at in Hb as (Hb0&Hb1&Hb2).
        rewrite Hpa in Hb1, Hb2 by lia. rewrite Hca in Hx.
        destruct (decide (j < i)).
        { destruct (decide (j ≤ i)), (decide (S j ≤ i)); try lia. exists j, x, m'.
          split; [apply between_at; split; [lia|done]|]. split; [done|]. split; [done|]. apply Hj1; lia. }
        destruct (decide (j = i)) as [->|].
        { injection Hx as <-. destruct (decide (i ≤ i)), (decide (S i ≤ i)), (decide (S i = S i)); try lia.
          apply Hal in Ha as (Ha&_&_). exists i, c, m'.
          split. { apply between_at. split; [lia|]. split; [done|]. by eapply elt_lt_trans. }
          split; [done|]. split; [done|]. apply Hj1; lia. }
        destruct (decide (j = S i)) as [->|].
        { injection Hx as <-.
          destruct (decide (S i ≤ i)), (decide (S (S i) ≤ i)), (decide (S i = S i)), (decide (S (S i) = S i)); try lia.
          simpl in Hb2. apply Har in Ha as (Ha&_&_). exists i, c, m'.
          split. { apply between_at. split; [lia|]. split; [|done]. apply elt_lt_lte. by eapply elt_lt_lte_trans. }
          split; [done|]. split; [done|]. apply Hj2; lia. }
        destruct (decide (j ≤ i)), (decide (S j ≤ i)), (decide (S j = S i)); try lia.
        apply lookup_lt_Some in Hx as Hxl.
        exists (j - 1), x, m'.
        split. { apply between_at. split; [lia|]. replace (S (j - 1)) with (S j - 1) by lia. done. }
        split; [done|]. split; [done|].
        replace j with (S (j - 1)) at 1 by lia. apply Hj2; lia.
  Qed.

  (** The node restricted to the children [a..b). *)
  Lemma slice_ok d d' p ch a b :
    wf (Node d p ch) → a < b ≤ length ch → dwf d' (b - a) →
    (∀ j k m, j < b - a → between p (a + j) k → merge_all m (held d' j k) = merge_all m (held d (a + j) k)) →
    let n := Node d' (subrange p a (b + 1)) (subrange ch a b) in
    wf n ∧ my_domain n = mkDomain (pivot_at p a) (pivot_at p b) ∧
    ∀ k m, ans n k m ↔ ans (Node d p ch) k m ∧ elt_lte (pivot_at p a) (Elem k) ∧ elt_lt (Elem k) (pivot_at p b).
  Proof.
    intros Hw Hab Hd' Hh. pose proof Hw as (Hp&Hl&Hd&Hch)%wf_node.
    set (p' := subrange p a (b + 1)). set (ch' := subrange ch a b).
    assert (Hlp : length p' = S (b - a)) by (unfold p'; rewrite subrange_length; lia).
    assert (Hlc : length ch' = b - a) by (unfold ch'; rewrite subrange_length; lia).
    assert (Hpa : ∀ j, j < S (b - a) → pivot_at p' j = pivot_at p (a + j)).
    { intros j Hj. apply pivot_at_Some. unfold p'. rewrite subrange_lookup.
      destruct (decide _); [|lia]. apply pivot_at_lookup. lia. }
    assert (Hp' : pt_wf p').
    { apply pt_wf_adjacent. split; [lia|]. intros j Hj. rewrite !Hpa by lia. apply pt_lt; [done|lia]. }
    assert (Hbt : ∀ j k, between p' j k ↔ j < b - a ∧ between p (a + j) k).
    { intros j k. rewrite !between_at. split.
      - intros (H0&H1&H2). rewrite !Hpa in * by lia. split; [lia|]. split; [lia|].
        replace (a + S j) with (S (a + j)) in H2 by lia. done.
      - intros (H0&H3&H1&H2). split; [lia|]. rewrite !Hpa by lia.
        replace (a + S j) with (S (a + j)) by lia. done. }
    split; [|split].
    - apply wf_node. split; [done|]. split; [lia|]. split; [by rewrite Hlc|].
      intros i c Hc. pose proof (lookup_lt_Some _ _ _ Hc). unfold ch' in Hc. rewrite subrange_lookup in Hc.
      destruct (decide _); [|done]. rewrite !Hpa by lia.
      replace (a + S i) with (S (a + i)) by lia. by apply Hch.
    - unfold my_domain. cbn [pivots_of]. rewrite pivot_last_eq, Hlp, !Hpa by lia. f_equal; f_equal; lia.
    - intros k m. rewrite !ans_node. split.
      + intros (j&c&m'&[Hj Hb]%Hbt&Hc&Ha&->). unfold ch' in Hc. rewrite subrange_lookup in Hc.
        destruct (decide _); [|done]. split.
        * exists (a + j), c, m'. split; [done|]. split; [done|]. split; [done|]. by apply Hh.
        * apply between_at in Hb as (H0&H1&H2). split.
          -- eapply elt_lte_trans; [|exact H1]. apply pt_le; [done|lia].
          -- eapply elt_lt_lte_trans; [exact H2|]. apply pt_le; [done|lia].
      + intros ((j&c&m'&Hb&Hc&Ha&->)&H1&H2).
        pose proof Hb as (H0&H3&H4)%between_at.
        assert (a ≤ j).
        { destruct (decide (a ≤ j)); [done|]. exfalso.
          assert (elt_lte (pivot_at p (S j)) (pivot_at p a)) as H5 by (apply pt_le; [done|lia]).
          exact (elt_lte_not_lt _ _ (elt_lte_trans _ _ _ H5 H1) H4). }
        assert (j < b).
        { destruct (decide (j < b)); [done|]. exfalso.
          assert (elt_lte (pivot_at p b) (pivot_at p j)) as H5 by (apply pt_le; [done|lia]).
          exact (elt_lte_not_lt _ _ (elt_lte_trans _ _ _ H5 H3) H2). }
        exists (j - a), c, m'. split.
        { apply Hbt. split; [lia|]. by replace (a + (j - a)) with j by lia. }
        split.
        { unfold ch'. rewrite subrange_lookup. destruct (decide _); [|lia]. by replace (a + (j - a)) with j by lia. }
        split; [done|]. rewrite Hh; [|lia|]; by replace (a + (j - a)) with j by lia.
  Qed.

  (** A node with the single child [Nil] over a smaller range. *)
  Lemma narrow_ok d d' p p' :
    wf (Node d p [Nil]) → pt_wf p' → length p' = 2 → dwf d' 1 →
    elt_lte (pivot_at p 0) (pivot_at p' 0) → elt_lte (pivot_at p' 1) (pivot_at p 1) →
    (∀ k m, elt_lte (pivot_at p' 0) (Elem k) → elt_lt (Elem k) (pivot_at p' 1) →
            merge_all m (held d' 0 k) = merge_all m (held d 0 k)) →
    wf (Node d' p' [Nil]) ∧ my_domain (Node d' p' [Nil]) = mkDomain (pivot_at p' 0) (pivot_at p' 1) ∧
    ∀ k m, ans (Node d' p' [Nil]) k m ↔
      ans (Node d p [Nil]) k m ∧ elt_lte (pivot_at p' 0) (Elem k) ∧ elt_lt (Elem k) (pivot_at p' 1).
  Proof.
    intros (Hp&Hl&Hd&Hch)%wf_node Hp' Hl' Hd' H0 H1 Hh. simpl in Hl. split; [|split].
    - apply wf_node. split; [done|]. split; [done|]. split; [done|].
      intros [|i] c Hc; [|done]. injection Hc as <-. done.
    - unfold my_domain. cbn [pivots_of]. rewrite pivot_last_eq, Hl'. done.
    - intros k m. rewrite !ans_node. split.
      + intros (i&c&m'&Hb&Hc&Ha&->). destruct i as [|i]; [|done].
        apply between_at in Hb as (_&Hb1&Hb2). split; [|done].
        exists 0, c, m'. split.
        { apply between_at. split; [lia|]. split; [by eapply elt_lte_trans|by eapply elt_lt_lte_trans]. }
        split; [done|]. split; [done|]. by apply Hh.
      + intros ((i&c&m'&Hb&Hc&Ha&->)&Hb1&Hb2). destruct i as [|i]; [|done].
        exists 0, c, m'. split; [apply between_at; split; [lia|done]|].
        split; [done|]. split; [done|]. symmetry. by apply Hh.
  Qed.

End Answers.

Section Receipts.
  Context {D : Type} (dwf : D → nat → Prop) (q : D → nat → Key → Message) (held : D → nat → Key → list Message).
  Hypothesis Hq : ∀ d n i k m, dwf d n → i < n → merge_all m (held d i k) = merge m (q d i k).
  Implicit Types n c t : BetreeNode D.
  Notation wf := (wf dwf).
  Notation ans := (routed_answers held).
  (** ** Receipts *)
  Definition link (k : Key) (l l' : @Line D) : Prop :=
    key_in_domain dwf (line_node l) k ∧ Paged.is_define (line_result l) ∧
    line_node l' = child (line_node l) k ∧
    line_result l = merge (line_result l') (node_msg q (line_node l) k).
  Definition fin (l : @Line D) : Prop := line_node l = Nil ∧ line_result l = message_empty.
  Lemma valid_chain r :
    receipt_valid dwf q r ↔ chain (link (rc_key r)) fin (rc_lines r) ∧
      ∃ l0, rc_lines r !! 0 = Some l0 ∧ line_node l0 = rc_root r.
  Proof.
    rewrite chain_index. split.
    - intros ((H0&Hn&Hl)&(Hd&Hk)&Hc&Hr). split; [|done]. split.
      { intros E. destruct H0 as (?&H0&_). by rewrite E in H0. }
      intros i a Hi. pose proof (lookup_lt_Some _ _ _ Hi). split.
      + intros Hlt. destruct (lookup_lt_is_Some_2 (rc_lines r) (S i)) as [a' Ha']; [lia|].
        exists a'. split; [done|]. split; [by apply (Hk i)|]. split.
        { by apply (Hd i). }
        split; [by apply (Hc i Hlt)|by apply (Hr i Hlt)].
      + intros He. destruct Hl as (ll&Hll&Hres). subst i. rewrite Hi in Hll. injection Hll as <-. split; [|done].
        destruct (line_node a) eqn:E; [done|]. exfalso.
        assert (length (rc_lines r) - 1 < length (rc_lines r) - 1); [|lia].
        apply (Hn _ _ Hi). by rewrite E.
    - intros ((Hne&H)&Hroot). split; [split; [done|split]|split; [split|split]].
      + intros i l Hi. pose proof (lookup_lt_Some _ _ _ Hi). destruct (H i l Hi) as [H1 H2]. split.
        * intros Hnd. destruct (decide (i < length (rc_lines r) - 1)); [done|].
          exfalso. apply Hnd. apply H2. lia.
        * intros Hlt. destruct (H1 Hlt) as (?&?&Hk). apply Hk.
      + assert (length (rc_lines r) ≠ 0) by (destruct (rc_lines r); simpl; lia || done).
        destruct (lookup_lt_is_Some_2 (rc_lines r) (length (rc_lines r) - 1)) as [ll Hll]; [lia|].
        exists ll. split; [done|]. by apply (H _ _ Hll).
      + intros i l Hi. pose proof (lookup_lt_Some _ _ _ Hi). destruct (H i l Hi) as [H1 H2].
        destruct (decide (i < length (rc_lines r) - 1)) as [Hlt|].
        * destruct (H1 Hlt) as (?&?&Hk). split; apply Hk.
        * destruct H2 as [-> ->]; [lia|]. split; [done|by eexists].
      + intros i l Hlt Hi. destruct (H i l Hi) as [H1 _]. destruct (H1 Hlt) as (?&?&Hk). apply Hk.
      + intros i Hlt l l' Hi Hi'. destruct (H i l Hi) as [H1 _]. destruct (H1 Hlt) as (l''&Hi''&Hk).
        rewrite Hi' in Hi''. injection Hi'' as <-. apply Hk.
      + intros i Hlt l l' Hi Hi'. destruct (H i l Hi) as [H1 _]. destruct (H1 Hlt) as (l''&Hi''&Hk).
        rewrite Hi' in Hi''. injection Hi'' as <-. apply Hk.
  Qed.
  Lemma chain_ans k ls l0 :
    chain (link k) fin ls → ls !! 0 = Some l0 → wf (line_node l0) ∧ ans (line_node l0) k (line_result l0).
  Proof.
    revert l0. induction ls as [|a [|a' ls] IH]; intros l0; [done| |].
    - intros [H1 H2] [= ->]. rewrite H1, H2. split; [done|constructor].
    - change (chain (link k) fin (a :: a' :: ls)) with (link k a a' ∧ chain (link k) fin (a' :: ls)).
      intros [((Hw&Hn&Hb)&_&Hc&Hr) Hch] [= ->]. split; [done|]. destruct (IH a' Hch eq_refl) as [Hw' Ha'].
      rewrite Hr. destruct (line_node l0) as [|d p ch]; [by destruct Hn|]. cbn [pivots_of] in Hb.
      destruct (wf_child dwf d p ch k Hw Hb) as (c&Hcl&Hce&Hbt).
      rewrite Hc, Hce in Ha'. apply ans_node. exists (route_idx p k), c, (line_result a').
      split; [done|]. split; [done|]. split; [done|]. cbn [node_msg].
      apply wf_node in Hw as (_&_&Hd&_). symmetry. apply (Hq d (length ch)); [done|].
      by apply lookup_lt_Some in Hcl.
  Qed.
  Lemma ans_chain t k m : wf t → ans t k m → ∃ ls, chain (link k) fin ls ∧ ls !! 0 = Some (mkLine t m).
  Proof.
    revert m. induction t as [|d p ch IH] using node_ind; intros m Hw Ha.
    - apply ans_nil in Ha as ->. exists [mkLine Nil message_empty]. done.
    - pose proof (ans_bounded dwf held _ _ _ _ _ Hw Ha) as Hbd. pose proof (ans_define held _ _ _ Ha) as Hdef.
      apply ans_node in Ha as (i&c&m'&Hb&Hc&Ha&->).
      pose proof Hw as (Hp&Hl&Hd&Hch)%wf_node.
      destruct (proj1 (Forall_lookup _ _) IH _ _ Hc m') as (ls&Hls&Hh); [by apply (Hch i)|done|].
      exists (mkLine (Node d p ch) (merge_all m' (held d i k)) :: ls). split; [|done].
      destruct ls as [|a' ls]; [done|]. injection Hh as ->. split; [|done].
      split; [by split|]. split; [done|]. cbn [line_node line_result].
      pose proof (between_route_idx _ _ _ Hp Hb) as Er. split.
      + destruct (wf_child dwf d p ch k Hw Hbd) as (c'&Hc'&->&_). rewrite Er in Hc'. congruence.
      + cbn [node_msg]. rewrite Er. apply (Hq d (length ch)); [done|]. by apply lookup_lt_Some in Hc.
  Qed.
  Lemma receipt_iff t k m :
    (∃ r, valid_for dwf q r t k ∧ receipt_result r m) ↔ wf t ∧ ans t k m.
  Proof.
    split.
    - intros (r&(Hv&<-&<-)&l0&Hl&<-). apply valid_chain in Hv as (Hc&l1&Hl1&<-).
      rewrite Hl in Hl1. injection Hl1 as <-. by eapply chain_ans.
    - intros [Hw Ha]. destruct (ans_chain _ _ _ Hw Ha) as (ls&Hc&Hh).
      exists (mkReceipt k t ls). split.
      + split; [|done]. apply valid_chain. split; [done|]. by exists (mkLine t m).
      + by exists (mkLine t m).
  Qed.

End Receipts.
