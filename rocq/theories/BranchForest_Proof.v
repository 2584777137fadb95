(** Many branches on one disk, each with its own allocation units (C42, C43). *)
From Verif Require Import Spec_Model Spec_Proof Betree_Model Route_Proof Branch_Spec Branch_Proof BranchPages_Proof BranchBuild_Proof.
From Verif Require Import LinkedBetree_Model LikesBetree_Model LikesTree_Proof BranchBetree_Model BranchBetree_Spec BranchBuffer_Proof.
From Coq Require Import Sorting.Sorted Lia ZifyBool ZifyNat ZifyN.
Implicit Types (bdv : gmap Address (LBranch.Node (gset nat))) (a r : Address) (tr : gset Address).

Record forest bdv tr : Prop := {
  f_wf : LBranch.disk_wf bdv;
  f_tree : ∀ r, r ∈ tr → ∃ n, stores bdv r n ∧ PBranch.wf n;
  f_units : ∀ r, r ∈ tr → ∃ U, branch_units bdv r U;
  f_own : ∀ r U a, r ∈ tr → branch_units bdv r U → is_Some (bdv !! a) → (au a ∈ U ↔ branch_page bdv r a);
  f_all : ∀ a, is_Some (bdv !! a) → ∃ r, r ∈ tr ∧ branch_page bdv r a;
  f_apart : ∀ r r' U U', r ∈ tr → r' ∈ tr → r ≠ r' → branch_units bdv r U → branch_units bdv r' U' → U ## U' }.
Definition summarizes (m : gmap AU (gset AU)) bdv tr : Prop :=
  ∀ u U, m !! u = Some U ↔ ∃ r, r ∈ tr ∧ au r = u ∧ branch_units bdv r U.

Lemma units_det bdv r U U' : branch_units bdv r U → branch_units bdv r U' → U = U'.
Proof.
  intros [(k1 & m1 & E1 & ->)|(p1 & c1 & x1 & E1 & F1)] [(k2 & m2 & E2 & ->)|(p2 & c2 & x2 & E2 & F2)]; congruence.
Qed.
Lemma page_root bdv r : branch_page bdv r r.
Proof. by left. Qed.
Lemma page_some bdv tr r a : forest bdv tr → r ∈ tr → branch_page bdv r a → is_Some (bdv !! a).
Proof.
  intros F Hr [H|(p & c & s & _ & H)]; [|by eexists]. destruct (f_tree _ _ F r Hr) as (n & Hs & Hw%wf_iff).
  by eapply reach_entry.
Qed.
Lemma root_some bdv tr r : forest bdv tr → r ∈ tr → is_Some (bdv !! r).
Proof. intros F Hr. eapply page_some; [done|done|apply page_root]. Qed.
Lemma root_unit bdv tr r U : forest bdv tr → r ∈ tr → branch_units bdv r U → au r ∈ U.
Proof. intros F Hr HU. apply (f_own _ _ F r U r Hr HU); [by eapply root_some|apply page_root]. Qed.
Lemma page_unit bdv tr r U a : forest bdv tr → r ∈ tr → branch_units bdv r U → branch_page bdv r a → au a ∈ U.
Proof. intros F Hr HU Ha. apply (f_own _ _ F r U a Hr HU); [by eapply page_some|done]. Qed.
Lemma unit_roots bdv tr r r' u U U' : forest bdv tr → r ∈ tr → r' ∈ tr → branch_units bdv r U → branch_units bdv r' U' →
  u ∈ U → u ∈ U' → r = r'.
Proof. intros F H1 H2 H3 H4 H5 H6. destruct (decide (r = r')) as [|Hne]; [done|]. destruct (f_apart _ _ F _ _ _ _ H1 H2 Hne H3 H4 u); done. Qed.
Lemma roots_apart bdv tr r r' : forest bdv tr → r ∈ tr → r' ∈ tr → au r = au r' → r = r'.
Proof.
  intros F H1 H2 E. destruct (f_units _ _ F r H1) as [U HU], (f_units _ _ F r' H2) as [U' HU'].
  eapply (unit_roots _ _ _ _ (au r)); [done|done|done|done|done|by eapply root_unit|rewrite E; by eapply root_unit].
Qed.

(** ** A branch depends on its pages only *)
Lemma reach_page bdv r a : reach bdv r a → branch_page bdv r a.
Proof. by left. Qed.
Section Local.
  Context bdv bdv' r (Hu : ∃ U, branch_units bdv r U) (Heq : ∀ a, branch_page bdv r a → bdv' !! a = bdv !! a).
  Lemma local_units U : branch_units bdv' r U ↔ branch_units bdv r U.
  Proof.
    pose proof (Heq r (page_root bdv r)) as Er. unfold branch_units. rewrite Er. split.
    - intros [H|(p & c & x & E & Fx)]; [by left|right; exists p, c, x; split; [done|]].
      destruct Hu as [V [(k1 & m1 & E1 & ->)|(p1 & c1 & x1 & E1 & F1)]]; [congruence|].
      rewrite E in E1. injection E1 as <- <- <-. rewrite Heq in Fx; [done|]. right. by exists p, c, V.
    - intros [H|(p & c & x & E & Fx)]; [by left|right; exists p, c, x; split; [done|]].
      rewrite Heq; [done|]. right. by exists p, c, U.
  Qed.
  Lemma local_page a : branch_page bdv' r a ↔ branch_page bdv r a.
  Proof.
    unfold branch_page. rewrite (reach_change bdv bdv' r a) by (intros x Hx; apply Heq; by left).
    pose proof (Heq r (page_root bdv r)) as Er. unfold summary_page. cbn [LBranch.disk LBranch.root]. rewrite Er. split.
    - intros [H|(p & c & x & E & Fx)]; [by left|right; exists p, c]. 
      destruct Hu as [V [(k1 & m1 & E1 & ->)|(p1 & c1 & x1 & E1 & F1)]]; [congruence|].
      rewrite E in E1. injection E1 as <- <- <-. exists V. done.
    - intros [H|(p & c & x & E & Fx)]; [by left|right; exists p, c, x]. split; [done|]. rewrite Heq; [done|]. right. by exists p, c, x.
  Qed.
  Lemma local_stores n : stores bdv r n → stores bdv' r n.
  Proof. intros H. apply (stores_change bdv); [done|]. intros x Hx. apply Heq. by left. Qed.
End Local.

(** ** Forgetting branches *)
Lemma forest_restrict bdv tr tr' bdv' : forest bdv tr → tr' ⊆ tr →
  (∀ a x, bdv' !! a = Some x ↔ bdv !! a = Some x ∧ ∃ r, r ∈ tr' ∧ branch_page bdv r a) → forest bdv' tr'.
Proof.
  intros F Hsub Hd.
  assert (Hl : ∀ r a, r ∈ tr' → branch_page bdv r a → bdv' !! a = bdv !! a).
  { intros r a Hr Ha. destruct (page_some _ _ _ _ F (Hsub _ Hr) Ha) as [x Hx]. rewrite Hx. apply Hd. eauto. }
  assert (Hus : ∀ r, r ∈ tr' → ∃ U, branch_units bdv r U) by (intros r Hr; apply (f_units _ _ F); auto).
  assert (HU : ∀ r U, r ∈ tr' → branch_units bdv' r U ↔ branch_units bdv r U) by (intros r U Hr; apply local_units; eauto).
  assert (HP : ∀ r a, r ∈ tr' → branch_page bdv' r a ↔ branch_page bdv r a) by (intros r a Hr; apply local_page; eauto).
  split.
  - destruct (f_wf _ _ F) as [H1 H2]. split.
    + intros a n Hn. apply Hd in Hn as [Hn _]. by eapply H1.
    + intros a n i c Hn Hc. apply Hd in Hn as (Hn & r & Hr & Ha). destruct (H2 _ _ _ _ Hn Hc) as (m & Hm & Hna).
      exists m. split; [|done]. apply Hd. split; [done|]. exists r. split; [done|].
      destruct Ha as [Ha|(p & cs & s & _ & Ha)].
      * left. eapply rtc_r; [exact Ha|]. destruct n as [|p cs aux|]; [done| |done]. exists p, cs, aux. split; [done|].
        by eapply elem_of_list_lookup_2.
      * cbn in Ha. rewrite Hn in Ha. by injection Ha as ->.
  - intros r Hr. destruct (f_tree _ _ F r (Hsub _ Hr)) as (n & Hs & Hw). exists n. split; [|done]. eapply local_stores; [|exact Hs]; eauto.
  - intros r Hr. destruct (Hus r Hr) as [U HU']. exists U. by apply HU.
  - intros r U a Hr HrU [x [Ha _]%Hd]. rewrite HP by done. rewrite HU in HrU by done.
    apply (f_own _ _ F r U a (Hsub _ Hr) HrU). by eexists.
  - intros a [x (Ha & r & Hr & Hp)%Hd]. exists r. split; [done|]. by rewrite HP.
  - intros r r' U U' Hr Hr' Hne. rewrite !HU by done. apply (f_apart _ _ F); auto.
Qed.
Lemma elem_summary_aus (m : gmap AU (gset AU)) u : u ∈ summary_aus m ↔ ∃ v U, m !! v = Some U ∧ u ∈ U.
Proof.
  unfold summary_aus. rewrite elem_of_union_list. split.
  - intros (U & ([v V] & -> & H%elem_of_map_to_list)%elem_of_list_fmap & Hu). by exists v, V.
  - intros (v & U & H & Hu). exists U. split; [|done]. apply elem_of_list_fmap. exists (v, U). split; [done|]. by apply elem_of_map_to_list.
Qed.
Lemma remove_keys_lookup {V} (m : gmap AU V) dead u x : remove_keys m dead !! u = Some x ↔ m !! u = Some x ∧ u ∉ dead.
Proof. unfold remove_keys. by rewrite map_filter_lookup_Some. Qed.
Lemma restrict_keys_lookup {V} (m : gmap AU V) dead u x : restrict_keys m dead !! u = Some x ↔ m !! u = Some x ∧ u ∈ dead.
Proof. unfold restrict_keys. by rewrite map_filter_lookup_Some. Qed.
Lemma summarizes_aus m bdv tr u : summarizes m bdv tr → u ∈ summary_aus m ↔ ∃ r U, r ∈ tr ∧ branch_units bdv r U ∧ u ∈ U.
Proof.
  intros S. rewrite elem_summary_aus. split.
  - intros (v & U & (r & Hr & <- & HU)%S & Hu). eauto.
  - intros (r & U & Hr & HU & Hu). exists (au r), U. split; [|done]. apply S. eauto.
Qed.
Lemma summarizes_dom m bdv tr u : forest bdv tr → summarizes m bdv tr → u ∈ dom m ↔ ∃ r, r ∈ tr ∧ au r = u.
Proof.
  intros F S. rewrite elem_of_dom. split.
  - intros [U (r & Hr & <- & _)%S]. eauto.
  - intros (r & Hr & <-). destruct (f_units _ _ F r Hr) as [U HU]. exists U. apply S. eauto.
Qed.
Section Retire.
  Context bdv tr (m : gmap AU (gset AU)) tr' (dead : gset AU) (F : forest bdv tr) (S : summarizes m bdv tr)
    (Hsub : tr' ⊆ tr) (Hdead : ∀ r, r ∈ tr → (au r ∉ dead ↔ r ∈ tr')).
  Lemma retire_keep u : u ∈ summary_aus (remove_keys m dead) ↔ ∃ r U, r ∈ tr' ∧ branch_units bdv r U ∧ u ∈ U.
  Proof using S Hsub Hdead.
    rewrite elem_summary_aus. split.
    - intros (v & U & [(r & Hr & <- & HU)%S Hv]%remove_keys_lookup & Hu). exists r, U. split; [|done]. by apply Hdead.
    - intros (r & U & Hr & HU & Hu). exists (au r), U. split; [|done]. apply remove_keys_lookup. split; [apply S; eauto|]. apply Hdead; auto.
  Qed.
  Lemma retire_drop u : u ∈ summary_aus (restrict_keys m dead) ↔ ∃ r U, r ∈ tr ∧ r ∉ tr' ∧ branch_units bdv r U ∧ u ∈ U.
  Proof using S Hsub Hdead.
    rewrite elem_summary_aus. split.
    - intros (v & U & [(r & Hr & <- & HU)%S Hv]%restrict_keys_lookup & Hu). exists r, U. split; [done|]. split; [|done]. intros Hin. by apply Hdead in Hin.
    - intros (r & U & Hr & Hn & HU & Hu). exists (au r), U. split; [|done]. apply restrict_keys_lookup. split; [apply S; eauto|].
      destruct (decide (au r ∈ dead)) as [|Hd]; [done|]. by apply Hdead in Hd.
  Qed.
  Context bdv' (Hd : ∀ a x, bdv' !! a = Some x ↔ bdv !! a = Some x ∧ au a ∈ summary_aus (remove_keys m dead)).
  Lemma retire_disk a x : bdv' !! a = Some x ↔ bdv !! a = Some x ∧ ∃ r, r ∈ tr' ∧ branch_page bdv r a.
  Proof using F S Hsub Hdead Hd.
    rewrite Hd, retire_keep. split.
    - intros (Ha & r & U & Hr & HU & Hu). split; [done|]. exists r. split; [done|]. apply (f_own _ _ F r U a); [auto|done|by eexists|done].
    - intros (Ha & r & Hr & Hp). split; [done|]. destruct (f_units _ _ F r (Hsub _ Hr)) as [U HU]. exists r, U. split_and!; [done|done|].
      eapply page_unit; eauto.
  Qed.
  Lemma retire : forest bdv' tr' ∧ summarizes (remove_keys m dead) bdv' tr' ∧
    ∀ r, r ∈ tr' → (∀ a, branch_page bdv r a → bdv' !! a = bdv !! a).
  Proof using F S Hsub Hdead Hd.
    assert (Hl : ∀ r a, r ∈ tr' → branch_page bdv r a → bdv' !! a = bdv !! a).
    { intros r a Hr Ha. destruct (page_some _ _ _ _ F (Hsub _ Hr) Ha) as [x Hx]. rewrite Hx. apply retire_disk. eauto. }
    split; [|split; [|eauto]].
    - eapply forest_restrict; [done|done|]. apply retire_disk.
    - intros u U. rewrite remove_keys_lookup, (S u U). split.
      + intros ((r & Hr & <- & HU) & Hn). apply Hdead in Hn; [|done]. exists r. split_and!; [done|done|]. eapply local_units; eauto.
      + intros (r & Hr & <- & HU). apply (local_units bdv) in HU; [|apply (f_units _ _ F); auto|eauto].
        split; [exists r; auto|]. apply Hdead; auto.
  Qed.
End Retire.

(** ** Adding branches *)
Lemma forest_union d1 t1 d2 t2 : forest d1 t1 → forest d2 t2 →
  (∀ r1 r2 U1 U2, r1 ∈ t1 → r2 ∈ t2 → branch_units d1 r1 U1 → branch_units d2 r2 U2 → U1 ## U2) →
  forest (d1 ∪ d2) (t1 ∪ t2) ∧ d1 ##ₘ d2.
Proof.
  intros F1 F2 Hdis.
  assert (Hu1 : ∀ a, is_Some (d1 !! a) → ∃ r U, r ∈ t1 ∧ branch_units d1 r U ∧ au a ∈ U).
  { intros a Ha. destruct (f_all _ _ F1 a Ha) as (r & Hr & Hp). destruct (f_units _ _ F1 r Hr) as [U HU]. exists r, U. split_and!; [done|done|exact (page_unit _ _ _ _ _ F1 Hr HU Hp)]. }
  assert (Hu2 : ∀ a, is_Some (d2 !! a) → ∃ r U, r ∈ t2 ∧ branch_units d2 r U ∧ au a ∈ U).
  { intros a Ha. destruct (f_all _ _ F2 a Ha) as (r & Hr & Hp). destruct (f_units _ _ F2 r Hr) as [U HU]. exists r, U. split_and!; [done|done|exact (page_unit _ _ _ _ _ F2 Hr HU Hp)]. }
  assert (Hm : ∀ a, is_Some (d1 !! a) → is_Some (d2 !! a) → False).
  { intros a H1 H2. destruct (Hu1 a H1) as (r1 & U1 & A1 & B1 & C1), (Hu2 a H2) as (r2 & U2 & A2 & B2 & C2).
    exact (Hdis _ _ _ _ A1 A2 B1 B2 _ C1 C2). }
  assert (Hdd : d1 ##ₘ d2).
  { apply map_disjoint_spec. intros a x y Hx Hy. by apply (Hm a); eexists. }
  assert (Hlk : ∀ a x, (d1 ∪ d2) !! a = Some x ↔ d1 !! a = Some x ∨ d2 !! a = Some x) by (intros; by apply lookup_union_Some).
  assert (Hl1 : ∀ r a, r ∈ t1 → branch_page d1 r a → (d1 ∪ d2) !! a = d1 !! a).
  { intros r a Hr Ha. destruct (page_some _ _ _ _ F1 Hr Ha) as [x Hx]. rewrite Hx. apply Hlk. by left. }
  assert (Hl2 : ∀ r a, r ∈ t2 → branch_page d2 r a → (d1 ∪ d2) !! a = d2 !! a).
  { intros r a Hr Ha. destruct (page_some _ _ _ _ F2 Hr Ha) as [x Hx]. rewrite Hx. apply Hlk. by right. }
  assert (HU1 : ∀ r U, r ∈ t1 → branch_units (d1 ∪ d2) r U ↔ branch_units d1 r U) by (intros r U Hr; apply local_units; [by eapply f_units|eauto]).
  assert (HU2 : ∀ r U, r ∈ t2 → branch_units (d1 ∪ d2) r U ↔ branch_units d2 r U) by (intros r U Hr; apply local_units; [by eapply f_units|eauto]).
  assert (HP1 : ∀ r a, r ∈ t1 → branch_page (d1 ∪ d2) r a ↔ branch_page d1 r a) by (intros r a Hr; apply local_page; [by eapply f_units|eauto]).
  assert (HP2 : ∀ r a, r ∈ t2 → branch_page (d1 ∪ d2) r a ↔ branch_page d2 r a) by (intros r a Hr; apply local_page; [by eapply f_units|eauto]).
  split; [|done]. split.
  - destruct (f_wf _ _ F1) as [A1 A2], (f_wf _ _ F2) as [B1 B2]. split.
    + intros a n [Hn|Hn]%Hlk; eauto.
    + intros a n i c [Hn|Hn]%Hlk Hc; [destruct (A2 _ _ _ _ Hn Hc) as (m & Hm' & ?)|destruct (B2 _ _ _ _ Hn Hc) as (m & Hm' & ?)];
        exists m; (split; [apply Hlk; auto|done]).
  - intros r [Hr|Hr]%elem_of_union.
    + destruct (f_tree _ _ F1 r Hr) as (n & Hs & Hw). exists n. split; [|done]. eapply local_stores; [|exact Hs]; eauto.
    + destruct (f_tree _ _ F2 r Hr) as (n & Hs & Hw). exists n. split; [|done]. eapply local_stores; [|exact Hs]; eauto.
  - intros r [Hr|Hr]%elem_of_union.
    + destruct (f_units _ _ F1 r Hr) as (U & HU). exists U. by apply HU1.
    + destruct (f_units _ _ F2 r Hr) as (U & HU). exists U. by apply HU2.
  - intros r U a [Hr|Hr]%elem_of_union HU [x [Ha|Ha]%Hlk].
    + rewrite HU1 in HU by done. rewrite HP1 by done. eapply f_own; [done|done|done|by eexists].
    + rewrite HU1 in HU by done. rewrite HP1 by done. assert (Hs : is_Some (d2 !! a)) by by eexists. split.
      * intros Hin. destruct (Hu2 a Hs) as (r2 & U2 & A2 & B2 & C2). by destruct (Hdis _ _ _ _ Hr A2 HU B2 _ Hin C2).
      * intros Hp. destruct (Hm a); [by eapply page_some|done].
    + rewrite HU2 in HU by done. rewrite HP2 by done. assert (Hs : is_Some (d1 !! a)) by by eexists. split.
      * intros Hin. destruct (Hu1 a Hs) as (r1 & U1 & A1 & B1 & C1). by destruct (Hdis _ _ _ _ A1 Hr B1 HU _ C1 Hin).
      * intros Hp. destruct (Hm a); [done|by eapply page_some].
    + rewrite HU2 in HU by done. rewrite HP2 by done. eapply f_own; [done|done|done|by eexists].
  - intros a [x [Ha|Ha]%Hlk].
    + destruct (f_all _ _ F1 a) as (r & Hr & Hp); [by eexists|]. exists r. split; [set_solver|]. by apply HP1.
    + destruct (f_all _ _ F2 a) as (r & Hr & Hp); [by eexists|]. exists r. split; [set_solver|]. by apply HP2.
  - intros r r' U U' [Hr|Hr]%elem_of_union [Hr'|Hr']%elem_of_union Hne H1 H2.
    + rewrite HU1 in H1, H2 by done. by apply (f_apart _ _ F1 r r').
    + rewrite HU1 in H1 by done. rewrite HU2 in H2 by done. by apply (Hdis r r').
    + rewrite HU2 in H1 by done. rewrite HU1 in H2 by done. symmetry. by apply (Hdis r' r).
    + rewrite HU2 in H1, H2 by done. by apply (f_apart _ _ F2 r r').
Qed.
Lemma union_local d1 t1 d2 r : forest d1 t1 → d1 ##ₘ d2 → r ∈ t1 → ∀ a, branch_page d1 r a → (d1 ∪ d2) !! a = d1 !! a.
Proof. intros F Hd Hr a Ha. destruct (page_some _ _ _ _ F Hr Ha) as [x Hx]. rewrite Hx. by apply lookup_union_Some_l. Qed.

(** ** A branch just built *)
Section Built.
  Context `{Geometry} free ls w (Hg : good free ls w) (b : ABranch.Branch) (Hs : ABranch.sealed w = true) (Hb : ABranch.branch w = Some b).
  Lemma built_units : branch_units (LBranch.disk b) (LBranch.root b) (ABranch.get_summary b).
  Proof.
    destruct (g_branch _ _ _ Hg b Hb) as (_ & (n & (_ & Hst & _) & _) & _ & Hse). destruct (Hse Hs) as (_ & _ & Hu).
    destruct (stores_entry _ _ _ Hst) as (m & Hm & Hna & _).
    assert (Hin : au (LBranch.root b) ∈ ABranch.get_summary b) by (apply Hu; exists (LBranch.root b); split; [by eexists|done]).
    unfold ABranch.get_summary in *. unfold LBranch.root_node in *. rewrite Hm in *. simpl in *.
    destruct m as [ks ms|ps cs aux|]; [left; by exists ks, ms| |by destruct Hna].
    right. destruct aux as [p|]; simpl in *; [|by apply elem_of_empty in Hin].
    destruct (LBranch.disk b !! p) as [[]|] eqn:E; simpl in *; try by apply elem_of_empty in Hin.
    by exists ps, cs, p.
  Qed.
  Lemma built_forest : forest (LBranch.disk b) {[LBranch.root b]}.
  Proof.
    pose proof built_units as HU.
    destruct (g_branch _ _ _ Hg b Hb) as (_ & (n & (Hwf & Hst & Hw) & _) & _ & Hse). destruct (Hse Hs) as (Hp & _ & Hu).
    assert (Hpg : ∀ a, is_Some (LBranch.disk b !! a) → branch_page (LBranch.disk b) (LBranch.root b) a).
    { intros a Ha. apply Hp in Ha as [Ha|Ha]; [by left|right]. by destruct b. }
    split.
    - done.
    - intros r ->%elem_of_singleton. eauto.
    - intros r ->%elem_of_singleton. eauto.
    - intros r U a ->%elem_of_singleton HU' Ha. pose proof (units_det _ _ _ _ HU' HU) as ->. split; [auto|].
      intros _. apply Hu. by exists a.
    - intros a Ha. exists (LBranch.root b). split; [by apply elem_of_singleton|auto].
    - intros r r' U U' ->%elem_of_singleton ->%elem_of_singleton. done.
  Qed.
  Lemma built_summary : ABranch.get_summary b = all_aus (ABranch.mini_allocator w).
  Proof. destruct (g_branch _ _ _ Hg b Hb) as (_ & _ & _ & Hse). by destruct (Hse Hs) as (_ & ? & _). Qed.
  Lemma built_query : ∃ n, stores (LBranch.disk b) (LBranch.root b) n ∧ PBranch.wf n.
  Proof. destruct (g_branch _ _ _ Hg b Hb) as (_ & (n & (Hwf & Hst & Hw) & _) & _). eauto. Qed.
End Built.

(** ** The branches at the start *)
Section Start.
  Context `{Geometry} bdv (roots : gset Address).
  Hypothesis (Hsealed : sealed_branch_roots bdv roots).
  Lemma start_units r : r ∈ roots → branch_units bdv r (ABranch.get_summary (LBranch.mk r bdv)).
  Proof using Hsealed.
    intros Hr. destruct (Hsealed r Hr) as (Hinv & (Hroot & Haux) & Hf & _). destruct Hroot as (m & Hm & Hna). cbn in Hm.
    unfold ABranch.get_summary. unfold LBranch.root_node in *. cbn [LBranch.disk LBranch.root] in *. rewrite Hm in *. simpl in *.
    destruct m as [ks ms|ps cs aux|]; [left; by exists ks, ms| |by destruct Hna].
    destruct (Haux _ _ _ eq_refl) as (p & s & -> & Hp). right. exists ps, cs, p. simpl. by rewrite Hp.
  Qed.
  Lemma start_page r a : r ∈ roots → full_repr (LBranch.mk r bdv) a ↔ branch_page bdv r a.
  Proof using Hsealed.
    intros Hr. destruct (Hsealed r Hr) as (Hinv & (Hroot & Haux) & _). apply inv_iff in Hinv as (n & Hwf & Hst & Hw).
    destruct Hroot as (m & Hm & Hna). cbn [LBranch.disk LBranch.root] in *.
    unfold full_repr, branch_page, summary_page. unfold LBranch.root_node in *. cbn [LBranch.disk LBranch.root] in *. rewrite Hm in *. simpl in *. split.
    - intros [Hre|(p & c & E)]; [left; by apply reachable_reach|]. right. destruct (Haux _ _ _ E) as (q & s & [= <-] & Hq).
      exists p, c, s. split; [by rewrite E|done].
    - intros [Hre|(p & c & s & E & _)]; [left; by eapply reach_reachable|]. right. exists p, c. by injection E.
  Qed.
  Hypothesis (Hdis : set_addrs_disjoint_aus roots).
  Lemma start_summarizes : summarizes (build_branch_summary bdv roots) bdv roots.
  Proof using Hsealed Hdis.
    intros u U. unfold build_branch_summary. transitivity ((u, U) ∈ (λ r, (au r, ABranch.get_summary (LBranch.mk r bdv))) <$> elements roots).
    { symmetry. apply elem_of_list_to_map. rewrite <- list_fmap_compose.
      apply NoDup_fmap_2_strong; [|apply NoDup_elements]. intros x y Hx%elem_of_elements Hy%elem_of_elements E. cbn in E.
      destruct (decide (x = y)) as [|Hne]; [done|]. by destruct (Hdis x y Hx Hy Hne). }
    rewrite elem_of_list_fmap. split.
    - intros (r & [= -> ->] & Hr%elem_of_elements). exists r. split_and!; [done|done|by apply start_units].
    - intros (r & Hr & <- & HU). exists r. split; [|by apply elem_of_elements]. f_equal. eapply units_det; [done|by apply start_units].
  Qed.
  Hypothesis (Hvals : map_with_disjoint_values (build_branch_summary bdv roots)).
  Hypothesis (Hclosed : addrs_closed (dom bdv) (summary_aus (build_branch_summary bdv roots))).
  Lemma start_forest : forest bdv roots.
  Proof using Hsealed Hdis Hvals Hclosed.
    assert (Hall : ∀ a, is_Some (bdv !! a) → ∃ r, r ∈ roots ∧ branch_page bdv r a).
    { intros a Ha. assert (Hin : au a ∈ summary_aus (build_branch_summary bdv roots)) by (apply Hclosed; by apply elem_of_dom).
      apply (summarizes_aus _ _ _ _ start_summarizes) in Hin as (r & U & Hr & HU & Hu). exists r. split; [done|].
      apply start_page; [done|]. destruct (Hsealed r Hr) as (_ & _ & _ & Hx). apply Hx. unfold restrict_domain_au. cbn [LBranch.disk].
      apply elem_of_filter. split; [|by apply elem_of_dom]. by rewrite (units_det _ _ _ _ (start_units r Hr) HU). }
    split.
    - destruct (decide (roots = ∅)) as [->|Hne].
      + assert (Hnone : ∀ a, bdv !! a = None).
        { intros a. apply eq_None_not_Some. intros (r & Hr & _)%Hall. set_solver. }
        split; intros a n; by rewrite Hnone.
      + apply set_choose_L in Hne as [r Hr]. destruct (Hsealed r Hr) as (Hinv & _). apply inv_iff in Hinv as (n & Hwf & _). done.
    - intros r Hr. destruct (Hsealed r Hr) as (Hinv & _). apply inv_iff in Hinv as (n & _ & Hst & Hw). by exists n.
    - intros r Hr. eexists. by apply start_units.
    - intros r U a Hr HU Ha. rewrite <- start_page by done. pose proof (units_det _ _ _ _ HU (start_units r Hr)) as ->.
      destruct (Hsealed r Hr) as (_ & _ & _ & Hx). rewrite <- Hx. unfold restrict_domain_au. cbn [LBranch.disk].
      rewrite elem_of_filter, elem_of_dom. tauto.
    - done.
    - intros r r' U U' Hr Hr' Hne HU HU'. apply (Hvals (au r) (au r')).
      + apply start_summarizes. eauto.
      + apply start_summarizes. eauto.
      + by apply Hdis.
  Qed.
End Start.
