(** Durability of the crash-aware journals (C41): what is persistent stays. *)
From Verif Require Import Abs_Model Abs_Spec Abs_Proof Spec_Proof Journal_Model Journal_Spec AllocJournal_Model
  AllocJournal_Spec Linked_Proof AllocJournal_Proof AllocJournal_Facts
  CrashJournal_Model CrashJournal_Spec CrashJournal_Proof CrashJournal_Facts Coord_Live.

Lemma extends_refl h : extends h h.
Proof. by split_and!. Qed.
Lemma extends_trans h1 h2 h3 : extends h1 h2 → extends h2 h3 → extends h1 h3.
Proof.
  intros (A1&A2&A3) (B1&B2&B3). split_and!; [lia|lia|]. intros lsn Hs He. rewrite B3 by lia. by apply A3; lia.
Qed.

(** ** At the level of histories *)
Definition ct_inv (c : CTJournal.State) : Prop :=
  match CTJournal.ephemeral c with
  | None => CTJournal.in_flight c = None
  | Some a =>
    extends (CTJournal.persistent c) (AbstractJournal.journal a) ∧
    seq_start (AbstractJournal.journal a) = seq_start (CTJournal.persistent c) ∧
    ∀ f, CTJournal.in_flight c = Some f →
      extends (CTJournal.persistent c) f ∧ includes_subseq (AbstractJournal.journal a) f
  end.
Definition put_ok (l : CTJournal.Label) : Prop := match l with CTJournal.PutLabel m => mh_wf m | _ => True end.
(** The records [m] are in the journal in memory, unless truncated. *)
Definition in_memory (m : MsgHistory) (c : CTJournal.State) : Prop :=
  ∃ a, CTJournal.ephemeral c = Some a ∧ seq_end m ≤ seq_end (AbstractJournal.journal a) ∧
    ∀ lsn, mh_contains m lsn → seq_start (AbstractJournal.journal a) ≤ lsn →
      msgs (AbstractJournal.journal a) !! lsn = msgs m !! lsn.

Ltac abs_inv H :=
  destruct H as [(_&?&HL&?&HE)|[(_&?&HL&?&?&HE)|[(_&?&HL&?&HE)|[(_&?&HL&?&HE)|[(_&?&?&HL&?&?&HE)|(_&HL&HE)]]]]];
  try discriminate HL.
Lemma abs_put a a' m : AbstractJournal.next a a' (AbstractJournal.PutLabel m) →
  seq_end (AbstractJournal.journal a) = seq_start m ∧ a' = AbstractJournal.mkState (mh_concat (AbstractJournal.journal a) m).
Proof. intros Hn. abs_inv Hn. injection HL as <-. done. Qed.
Lemma abs_freeze a a' f : AbstractJournal.next a a' (AbstractJournal.FreezeForCommitLabel f) →
  includes_subseq (AbstractJournal.journal a) f.
Proof. intros Hn. abs_inv Hn. injection HL as <-. done. Qed.
Lemma abs_discard a a' b e : AbstractJournal.next a a' (AbstractJournal.DiscardOldLabel b e) →
  can_discard_to (AbstractJournal.journal a) b ∧ a' = AbstractJournal.mkState (discard_old (AbstractJournal.journal a) b).
Proof. intros Hn. abs_inv Hn. injection HL as <- <-. done. Qed.
Lemma abs_internal a a' : AbstractJournal.next a a' AbstractJournal.InternalLabel → a' = a.
Proof. intros Hn. by abs_inv Hn. Qed.

Lemma ct_step c c' l : ct_inv c → put_ok l → CTJournal.next c c' l →
  ct_inv c' ∧ extends (CTJournal.persistent c) (CTJournal.persistent c').
Proof.
  intros Hi Hok Hn. destruct c as [p e f]. unfold ct_inv in *. simpl in *.
  destruct Hn as [[j Hn]|[Hn|[Hn|[[j Hn]|[[j Hn]|[Hn|[[fz Hn]|[[j Hn]|Hn]]]]]]]].
  - destruct Hn as (->&Hu&[_ ->]&->). simpl in *. subst e. split; [|apply extends_refl].
    split; [apply extends_refl|]. split; [done|]. congruence.
  - destruct Hn as (m&v&->&Hv&Hs&->). simpl in *. split; [done|apply extends_refl].
  - destruct Hn as (m&v&->&Hv&Hs&->). simpl in *. split; [done|apply extends_refl].
  - destruct Hn as (m&v&->&Hv&Hs&->). simpl in *. subst e. split; [|apply extends_refl].
    destruct Hi as ((E1&E2&E3)&Es&Hf). apply abs_put in Hs as [Hs ->]. simpl. destruct Hok as [Hle Hm].
    assert (∀ lsn, lsn < seq_end (AbstractJournal.journal v) →
      (msgs m ∪ msgs (AbstractJournal.journal v)) !! lsn = msgs (AbstractJournal.journal v) !! lsn) as Hk.
    { intros lsn Hlt. apply lookup_union_r. apply eq_None_not_Some. rewrite Hm. unfold mh_contains. lia. }
    split_and!; [split_and!; simpl; [lia|lia|]|done|].
    { intros lsn H1 H2. rewrite Hk by lia. by apply E3. }
    intros f' Hf'. destruct (Hf _ Hf') as (X&I1&I2&I3). split; [done|]. split_and!; simpl; [lia|lia|].
    intros lsn Hc. destruct (I3 _ Hc) as [Y1 Y2]. unfold mh_contains in *. simpl in *. split; [lia|]. rewrite Hk by lia. done.
  - destruct Hn as (v&->&Hv&Hs&->). simpl in *. subst e. split; [|apply extends_refl]. apply abs_internal in Hs as ->. done.
  - destruct Hn as (n&->&_&->). simpl in *. split; [done|apply extends_refl].
  - destruct Hn as (nb&mx&v&->&Hv&Hno&Hw&Hst&Hend&Hmx&Hs&->). simpl in *. subst e. split; [|apply extends_refl].
    destruct Hi as ((E1&E2&E3)&Es&_). split; [done|]. split; [done|]. intros f' [= <-]. apply abs_freeze in Hs. pose proof Hs as (I1&I2&I3).
    split; [|done]. split_and!; [lia|lia|]. intros lsn H1 H2.
    rewrite <- E3 by lia. symmetry. apply I3. unfold mh_contains. lia.
  - destruct Hn as (re&v&f'&->&Hv&Hff&Hs&->). simpl in *. subst e f.
    destruct Hi as ((E1&E2&E3)&Es&Hf). destruct (Hf _ eq_refl) as (X&I1&I2&I3). split; [|done].
    apply abs_discard in Hs as [[Hd1 Hd2] ->]. simpl. split_and!; [split_and!; simpl; [lia|lia|]|done|done].
    intros lsn H1 H2. destruct (I3 lsn) as [Y1 Y2]; [done|]. rewrite <- Y2.
    unfold mh_contains in Y1. destruct (msgs (AbstractJournal.journal v) !! lsn) as [x|] eqn:E.
    + apply map_filter_lookup_Some. split; [done|]. simpl. lia.
    + apply map_filter_lookup_None. by left.
  - destruct Hn as (k&->&->). simpl. split; [done|]. destruct f as [f|]; [|apply extends_refl].
    destruct k; [|apply extends_refl]. destruct e as [a|]; [|done]. by apply Hi.
Qed.
Lemma ct_run c ls c' : ct_inv c → Forall put_ok ls → run CTJournal.next c ls c' →
  ct_inv c' ∧ extends (CTJournal.persistent c) (CTJournal.persistent c').
Proof.
  intros Hi Hok Hr. induction Hr as [s|s ls s1 l s2 Hr IH Hn]; [split; [done|apply extends_refl]|].
  apply stdpp.list.Forall_app in Hok as [Ho1 Ho2]. apply stdpp.list.Forall_cons in Ho2 as [Ho2 _].
  destruct (IH Hi Ho1) as [Hi1 He1]. destruct (ct_step _ _ _ Hi1 Ho2 Hn) as [Hi2 He2].
  split; [done|]. by eapply extends_trans.
Qed.
Lemma ct_start c : CTJournal.init c → ct_inv c.
Proof. by intros ->. Qed.

Lemma in_memory_put c c' m : mh_wf m → CTJournal.next c c' (CTJournal.PutLabel m) → in_memory m c'.
Proof.
  intros [Hle Hm] Hn.
  destruct Hn as [[j Hn]|[Hn|[Hn|[[j Hn]|[[j Hn]|[Hn|[[fz Hn]|[[j Hn]|Hn]]]]]]]].
  - by destruct Hn as (?&_).
  - by destruct Hn as (?&?&?&_).
  - by destruct Hn as (?&?&?&_).
  - destruct Hn as (m'&v&Hl&Hv&Hs&->). injection Hl as <-. exists j. split; [done|].
    apply abs_put in Hs as [Hs ->]. simpl. split; [done|]. intros lsn Hc _. apply lookup_union_l'. by apply Hm.
  - by destruct Hn as (?&?&_).
  - by destruct Hn as (?&?&_).
  - by destruct Hn as (?&?&?&?&_).
  - by destruct Hn as (?&?&?&?&_).
  - by destruct Hn as (?&?&_).
Qed.
Lemma in_memory_step m c c' l : ct_inv c → put_ok l → in_memory m c → (∀ k, l ≠ CTJournal.CrashLabel k) →
  CTJournal.next c c' l → in_memory m c'.
Proof.
  intros Hi Hok (a&Ha&Hend&Hm) Hk Hn. destruct c as [p e f]. simpl in *. subst e.
  destruct Hn as [[j Hn]|[Hn|[Hn|[[j Hn]|[[j Hn]|[Hn|[[fz Hn]|[[j Hn]|Hn]]]]]]]].
  - destruct Hn as (?&?&_). done.
  - destruct Hn as (m'&v&->&Hv&Hs&->). by exists a.
  - destruct Hn as (m'&v&->&Hv&Hs&->). by exists a.
  - destruct Hn as (m'&v&->&Hv&Hs&->). simpl in *. injection Hv as <-. exists j. split; [done|].
    apply abs_put in Hs as [Hs ->]. simpl. destruct Hok as [Hle Hm']. split; [lia|]. intros lsn Hc Hst.
    rewrite lookup_union_r; [by apply Hm|]. apply eq_None_not_Some. rewrite Hm'. unfold mh_contains in *. lia.
  - destruct Hn as (v&->&Hv&Hs&->). simpl in *. injection Hv as <-. exists j. split; [done|].
    apply abs_internal in Hs as ->. done.
  - destruct Hn as (n&->&_&->). by exists a.
  - destruct Hn as (nb&mx&v&->&Hv&Hno&Hw&Hst&Hend'&Hmx&Hs&->). by exists a.
  - destruct Hn as (re&v&f'&->&Hv&Hff&Hs&->). simpl in *. injection Hv as <-. exists j. split; [done|].
    apply abs_discard in Hs as [[Hd1 Hd2] ->]. simpl. split; [done|]. intros lsn Hc Hst.
    rewrite <- Hm by (done || lia). unfold mh_contains in Hc.
    destruct (msgs (AbstractJournal.journal a) !! lsn) as [x|] eqn:E.
    + apply map_filter_lookup_Some. split; [done|]. simpl. lia.
    + apply map_filter_lookup_None. by left.
  - destruct Hn as (k&->&->). by destruct (Hk k).
Qed.
Lemma in_memory_run m c ls c' : ct_inv c → Forall put_ok ls → in_memory m c →
  (∀ k, CTJournal.CrashLabel k ∉ ls) → run CTJournal.next c ls c' → in_memory m c'.
Proof.
  intros Hi Hok Hm Hk Hr. induction Hr as [s|s ls s1 l s2 Hr IH Hn]; [done|].
  apply stdpp.list.Forall_app in Hok as [Ho1 Ho2]. apply stdpp.list.Forall_cons in Ho2 as [Ho2 _].
  destruct (ct_run _ _ _ Hi Ho1 Hr) as [Hi1 _].
  eapply in_memory_step; [exact Hi1|exact Ho2| | |exact Hn].
  - apply IH; [done|done|done|]. intros k Hin. apply (Hk k). set_solver.
  - intros k ->. apply (Hk k). set_solver.
Qed.
Lemma query_end c c' n : CTJournal.next c c' (CTJournal.QueryLsnPersistenceLabel n) →
  n ≤ seq_end (CTJournal.persistent c) ∧ c' = c.
Proof.
  intros [[j Hn]|[Hn|[Hn|[[j Hn]|[[j Hn]|[Hn|[[fz Hn]|[[j Hn]|Hn]]]]]]]].
  - by destruct Hn as (?&_).
  - by destruct Hn as (?&?&?&_).
  - by destruct Hn as (?&?&?&_).
  - by destruct Hn as (?&?&?&_).
  - by destruct Hn as (?&?&_).
  - by destruct Hn as (n'&[= <-]&?&->).
  - by destruct Hn as (?&?&?&?&_).
  - by destruct Hn as (?&?&?&?&_).
  - by destruct Hn as (?&?&_).
Qed.
Lemma ct_synced c0 l1 m l2 n l3 c : CTJournal.init c0 →
  Forall put_ok (l1 ++ [CTJournal.PutLabel m] ++ l2 ++ [CTJournal.QueryLsnPersistenceLabel n] ++ l3) →
  (∀ k, CTJournal.CrashLabel k ∉ l2) →
  run CTJournal.next c0 (l1 ++ [CTJournal.PutLabel m] ++ l2 ++ [CTJournal.QueryLsnPersistenceLabel n] ++ l3) c →
  n ≤ seq_end (CTJournal.persistent c) ∧
  ∀ lsn, mh_contains m lsn → lsn < n → seq_start (CTJournal.persistent c) ≤ lsn →
    msgs (CTJournal.persistent c) !! lsn = msgs m !! lsn.
Proof.
  intros H0 Hok Hk Hr. rewrite !stdpp.list.Forall_app in Hok. destruct Hok as (O1&O2&O3&_&O4).
  apply stdpp.list.Forall_cons in O2 as [O2 _].
  apply run_app_inv in Hr as (c1&R1&Hr). apply run_app_inv in Hr as (c2&R2&Hr).
  apply run_app_inv in Hr as (c3&R3&Hr). apply run_app_inv in Hr as (c4&R4&R5).
  pose proof R2 as R2'. apply (run_snoc_inv _ _ []) in R2 as (c1'&R2&N2). apply run_nil_inv in R2. subst c1'.
  apply (run_snoc_inv _ _ []) in R4 as (c3'&R4&N4). apply run_nil_inv in R4. subst c3'.
  apply query_end in N4 as [Hn ->].
  destruct (ct_run _ _ _ (ct_start _ H0) O1 R1) as [I1 _].
  destruct (ct_step _ _ _ I1 O2 N2) as [I2 _].
  destruct (ct_run _ _ _ I2 O3 R3) as [I3 _].
  destruct (ct_run _ _ _ I3 O4 R5) as [_ (X1&X2&X3)].
  pose proof (in_memory_run _ _ _ _ I2 O3 (in_memory_put _ _ _ O2 N2) Hk R3) as (a&Ha&Hend&Hm).
  split; [lia|]. intros lsn Hc Hlt Hs. unfold ct_inv in I3. rewrite Ha in I3. destruct I3 as ((E1&E2&E3)&Es&_).
  rewrite X3 by lia. rewrite <- E3 by lia. apply Hm; [done|lia].
Qed.

(** ** The two machines *)
Section Machines.
Context `{Geometry}.

Lemma aj_put_wf v v' m : alloc_inv v → AllocJournal.next v v' (AllocJournal.Put m) → mh_wf m.
Proof.
  intros Hi Hn. destruct (alloc_next_sim _ _ _ Hi Hn) as [Hl _]. simpl in Hl.
  destruct Hl as [[? Hl]|[[? Hl]|[Hl|[Hl|[[? Hl]|[(?&?&Hl)|Hl]]]]]].
  - by destruct Hl as (_&?&?&_).
  - by destruct Hl as (_&?&?&_).
  - by destruct Hl as (_&?&_).
  - by destruct Hl as (_&m'&[= <-]&Hm&_).
  - by destruct Hl as (_&?&?&?&_).
  - by destruct Hl as (_&_&?&_).
  - by destruct Hl as (_&?&_).
Qed.
Lemma ac_put_ok s s' l : ac_inv s → AllocCrash.next s s' l → put_ok (crash_event l).
Proof.
  intros (_&He&_) Hn. destruct l; try done. simpl.
  destruct Hn as [[j Hn]|[Hn|[Hn|[[j Hn]|[[j Hn]|[Hn|[[fz Hn]|[[j Hn]|Hn]]]]]]]].
  - by destruct Hn as (?&_).
  - by destruct Hn as (?&?&?&_).
  - by destruct Hn as (?&?&?&_).
  - destruct Hn as (m'&v&[= <-]&Hv&Hs&_). eapply aj_put_wf; [by apply He|exact Hs].
  - by destruct Hn as (?&?&?&?&_).
  - by destruct Hn as (?&?&_).
  - by destruct Hn as (?&?&?&?&_).
  - by destruct Hn as (?&?&?&?&?&_).
  - by destruct Hn as (?&?&_).
Qed.
Lemma uni_put_ok s s' l : uni_inv s → Unified.next s s' l → put_ok (crash_event l).
Proof.
  intros Hi Hn. destruct l; try done. simpl.
  destruct Hn as [[ne Hn]|[Hn|[Hn|[[ne Hn]|[(ne&nd&Hn)|[Hn|[(f&d&Hn)|[(ne&nd&Hn)|Hn]]]]]]]].
  - by destruct Hn as (?&_).
  - by destruct Hn as (?&?&?&_).
  - by destruct Hn as (?&?&?&_).
  - destruct Hn as (m'&v&[= <-]&Hv&Hs&_). unfold uni_inv in Hi. rewrite Hv in Hi. eapply aj_put_wf; [apply Hi|exact Hs].
  - by destruct Hn as (?&?&?&?&_).
  - by destruct Hn as (?&?&_).
  - by destruct Hn as (?&?&?&?&_).
  - by destruct Hn as (?&?&?&?&?&_).
  - by destruct Hn as (?&?&_).
Qed.
Lemma ac_run_ok s0 ls s : AllocCrash.init s0 → run AllocCrash.next s0 ls s → Forall put_ok (crash_event <$> ls).
Proof.
  intros H0 Hr. revert H0. induction Hr as [s|s ls s1 l s2 Hr IH Hn]; intros H0; [constructor|].
  rewrite fmap_app. apply stdpp.list.Forall_app. split; [by apply IH|]. apply stdpp.list.Forall_cons. split; [|constructor].
  eapply ac_put_ok; [|exact Hn]. by destruct (ac_run _ _ _ H0 Hr).
Qed.
Lemma uni_run_ok s0 ls s : Unified.init s0 → run Unified.next s0 ls s → Forall put_ok (crash_event <$> ls).
Proof.
  intros H0 Hr. revert H0. induction Hr as [s|s ls s1 l s2 Hr IH Hn]; intros H0; [constructor|].
  rewrite fmap_app. apply stdpp.list.Forall_app. split; [by apply IH|]. apply stdpp.list.Forall_cons. split; [|constructor].
  eapply uni_put_ok; [|exact Hn]. by destruct (uni_run _ _ _ H0 Hr).
Qed.
Lemma no_crash (ls : list AllocCrash.Label) : (∀ k, AllocCrash.Crash k ∉ ls) → ∀ k, CTJournal.CrashLabel k ∉ crash_event <$> ls.
Proof. intros Hk k (l&Hl&Hin)%elem_of_list_fmap. destruct l as [ | | | | | | | |kk]; try done. by apply (Hk kk). Qed.

Lemma ac_synced s0 l1 m l2 n l3 s : AllocCrash.init s0 → (∀ k, AllocCrash.Crash k ∉ l2) →
  run AllocCrash.next s0 (l1 ++ [AllocCrash.Put m] ++ l2 ++ [AllocCrash.QueryLsnPersistence n] ++ l3) s →
  ∃ h, linked_holds (img_tj (AllocCrash.persistent s)) h ∧ n ≤ seq_end h ∧
    ∀ lsn, mh_contains m lsn → lsn < n → seq_start h ≤ lsn → msgs h !! lsn = msgs m !! lsn.
Proof.
  intros H0 Hk Hr. pose proof (ac_run_ok _ _ _ H0 Hr) as Hok. destruct (ac_run _ _ _ H0 Hr) as (_&c0&c&Hc0&Hc&Hp&_).
  rewrite !fmap_app in Hok, Hc. destruct (ct_synced _ _ _ _ _ _ _ Hc0 Hok (no_crash _ Hk) Hc) as [H1 H2].
  by exists (CTJournal.persistent c).
Qed.
Lemma uni_synced s0 l1 m l2 n l3 s : Unified.init s0 → (∀ k, AllocCrash.Crash k ∉ l2) →
  run Unified.next s0 (l1 ++ [AllocCrash.Put m] ++ l2 ++ [AllocCrash.QueryLsnPersistence n] ++ l3) s →
  ∃ h, image_holds (Unified.dv s) (Unified.persistent s) h ∧ n ≤ seq_end h ∧
    ∀ lsn, mh_contains m lsn → lsn < n → seq_start h ≤ lsn → msgs h !! lsn = msgs m !! lsn.
Proof.
  intros H0 Hk Hr. pose proof (uni_run_ok _ _ _ H0 Hr) as Hok. destruct (uni_run _ _ _ H0 Hr) as (_&c0&c&Hc0&Hc&Hp&_).
  rewrite !fmap_app in Hok, Hc. destruct (ct_synced _ _ _ _ _ _ _ Hc0 Hok (no_crash _ Hk) Hc) as [H1 H2].
  by exists (CTJournal.persistent c).
Qed.
(** ** The persistent journal only grows at its end and loses old records *)
Lemma uni_extends s0 l1 s l2 s' : Unified.init s0 → run Unified.next s0 l1 s → run Unified.next s l2 s' →
  ∃ h h', image_holds (Unified.dv s) (Unified.persistent s) h ∧
    image_holds (Unified.dv s') (Unified.persistent s') h' ∧ extends h h'.
Proof.
  intros H0 R1 R2. destruct (uni_run _ _ _ H0 R1) as (Hi&c0&c&Hc0&C1&Hs).
  destruct (uni_run_from _ _ _ _ Hi Hs R2) as (_&c'&C2&Hs').
  pose proof (uni_run_ok _ _ _ H0 (run_app _ _ _ _ _ _ R1 R2)) as Hok. rewrite fmap_app in Hok. apply stdpp.list.Forall_app in Hok as [O1 O2].
  destruct (ct_run _ _ _ (ct_start _ Hc0) O1 C1) as [I1 _]. destruct (ct_run _ _ _ I1 O2 C2) as [_ He].
  exists (CTJournal.persistent c), (CTJournal.persistent c'). split_and!; [apply Hs|apply Hs'|done].
Qed.
Lemma ac_run_from s c ls s' : ac_inv s → alloc_crash_is s c → run AllocCrash.next s ls s' →
  ac_inv s' ∧ ∃ c', run CTJournal.next c (crash_event <$> ls) c' ∧ alloc_crash_is s' c'.
Proof.
  intros Hi Hs Hr. induction Hr as [s|s ls s1 l s2 Hr IH Hn].
  - split; [done|]. exists c. split; [constructor|done].
  - destruct (IH Hi Hs) as (Hi1&c1&Hc1&Hs1). destruct (ac_sim _ _ _ _ Hi1 Hs1 Hn) as (Hi2&c2&Hn2&Hs2).
    split; [done|]. exists c2. split; [|done]. rewrite fmap_app. by eapply run_snoc.
Qed.
Lemma ac_extends s0 l1 s l2 s' : AllocCrash.init s0 → run AllocCrash.next s0 l1 s → run AllocCrash.next s l2 s' →
  ∃ h h', linked_holds (img_tj (AllocCrash.persistent s)) h ∧
    linked_holds (img_tj (AllocCrash.persistent s')) h' ∧ extends h h'.
Proof.
  intros H0 R1 R2. destruct (ac_run _ _ _ H0 R1) as (Hi&c0&c&Hc0&C1&Hs).
  destruct (ac_run_from _ _ _ _ Hi Hs R2) as (_&c'&C2&Hs').
  pose proof (ac_run_ok _ _ _ H0 (run_app _ _ _ _ _ _ R1 R2)) as Hok. rewrite fmap_app in Hok. apply stdpp.list.Forall_app in Hok as [O1 O2].
  destruct (ct_run _ _ _ (ct_start _ Hc0) O1 C1) as [I1 _]. destruct (ct_run _ _ _ I1 O2 C2) as [_ He].
  exists (CTJournal.persistent c), (CTJournal.persistent c'). split_and!; [apply Hs|apply Hs'|done].
Qed.

End Machines.
