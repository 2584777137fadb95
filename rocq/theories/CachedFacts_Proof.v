(** Proofs: what runs of the cached journal mean, and what a crash leaves (C27). *)
From Verif Require Import Abs_Model Abs_Spec Abs_Proof Spec_Proof Journal_Model Journal_Spec Paged_Proof
  Linked_Proof AllocJournal_Model Likes_Proof Disk_Model Cache_Model Cache_Spec Cache_Proof
  CachedJournal_Model CachedJournal_Spec CachedJournal_Proof CachedSys_Proof.
Open Scope nat_scope.

Lemma linked_holds_wf tj h : Linked.tj_decodable tj → linked_holds tj h → mh_wf h.
Proof.
  intros [[Hw Hb] Hac] (Hs&He&Hm). destruct (path_exists _ (freshest_rec tj) Hw Hac) as [l Hl]; [apply Hb|].
  assert (seq_end h = Linked.dv_seq_end (disk_view tj) (freshest_rec tj)) as Hse.
  { destruct (freshest_rec tj) as [a|]; [|done]. destruct He as (r&Hr&->). simpl. by rewrite Hr. }
  split.
  - rewrite Hs, Hse. destruct (freshest_rec tj) as [a|]; [|done]. destruct He as (r&Hr&_). simpl. rewrite Hr.
    destruct Hb as [_ Hb]. specialize (Hb _ _ eq_refl Hr). lia.
  - intros lsn. unfold mh_contains. rewrite Hs, Hse. pose proof Hw as (Hew&_). split.
    + intros [km (Hle&a&r&Hre&Ha&Hk)%Hm]. apply (path_reaches _ _ _ Hl) in Hre as [r' Hin].
      pose proof (path_entries _ _ _ Hl _ _ Hin). simplify_eq.
      pose proof (path_chain _ _ _ Hw Hl Hb _ _ Hin). destruct (Hew _ _ Ha) as [[_ Hd] _].
      assert (mh_contains (message_seq r) lsn) as Hc by (apply Hd; by eexists). unfold mh_contains in Hc. lia.
    + intros Hr. destruct (path_located _ _ _ Hw Hl Hb) as [_ Hloc]. destruct (Hloc lsn Hr) as (a&r&Hin&Hc&_).
      pose proof (path_entries _ _ _ Hl _ _ Hin) as Ha. destruct (Hew _ _ Ha) as [[_ Hd] _].
      destruct (proj2 (Hd lsn) Hc) as [km Hkm]. exists km. apply Hm. split; [lia|]. exists a, r. split; [|done].
      apply (path_reaches _ _ _ Hl). by exists r.
Qed.

Lemma linked_history tj : Linked.tj_decodable tj → ∃ h, mh_wf h ∧ linked_holds tj h.
Proof.
  intros Hd. assert (Linked.initialize (Linked.mkState tj (empty_history_at (Linked.tj_seq_end tj))) tj) as Hi by done.
  destruct (linked_faithful _ _ _ _ Hi (run_nil _ _)) as (h0&a0&als&a&Hh&_). exists h0. split; [|done].
  by eapply linked_holds_wf.
Qed.
(** The pages of the chain of a journal, alone, are a journal. *)
Lemma tight_decodable f b E : Linked.tj_decodable (mkTJ f (mkDV b E)) →
  ∃ X, Linked.tj_decodable (mkTJ f (mkDV b (only X E))) ∧ X ⊆ dom E ∧
    (∀ a, a ∈ X ↔ reaches (mkDV b E) f a) ∧ (∀ a, a ∈ X ↔ reaches (mkDV b (only X E)) f a) ∧
    X = values (CachedJournal.build_lsn_addr_index_from_reads (only X E) b f (Linked.dv_seq_end (mkDV b (only X E)) f)).
Proof.
  intros [[Hw Hb] Hac]. simpl in *. destruct (path_exists _ f Hw Hac) as [l Hl]; [apply Hb|].
  pose proof (idx_of_ok id _ _ _ Hw Hl) as Hok. cbn [boundary_lsn] in Hok.
  set (X := values (idx_of id b l)).
  assert (∀ a, a ∈ X ↔ ∃ r, (a, r) ∈ l) as HX.
  { intros a. unfold X. rewrite elem_of_values. split.
    - intros [k (a'&r&Hin&_&<-)%Hok]. by exists r.
    - intros [r Hin]. exists (seq_end (message_seq r) - 1). by apply (in_path_index _ _ _ _ Hw Hl Hb Hok _ _ Hin). }
  assert (∀ a, a ∈ X ↔ a ∈ values (index_range (idx_of id b l) b (Linked.dv_seq_end (mkDV b E) f))) as HXr.
  { intros a. unfold X. rewrite !elem_of_values. setoid_rewrite lookup_index_range. split; [|naive_solver].
    intros [k Hk]. exists k. split; [|done]. apply (idx_ok_dom id _ _ _ _ Hw Hl Hb Hok). by eexists. }
  assert (path (mkDV b (only X E)) f l) as Hl'.
  { eapply path_transfer; [exact Hl|done|]. intros a r Hin. simpl. apply lookup_only. split; [apply HX; eauto|].
    exact (path_entries _ _ _ Hl _ _ Hin). }
  assert (Linked.dv_wf (mkDV b (only X E))) as Hw'.
  { eapply (range_view_wf _ _ _ (idx_of id b l) b (Linked.dv_seq_end (mkDV b E) f) Hw Hl Hb Hok); [done|].
    intros a r. rewrite lookup_only. by rewrite HXr. }
  assert (Linked.block_in_bounds (mkDV b (only X E)) f) as Hb'.
  { split.
    - intros a Hf. rewrite Hf in Hl'. inversion Hl' as [|? r ? He Hp' Ex Ey]; subst. by eexists.
    - intros a r Hf Hr. simpl in *. apply lookup_only in Hr as [_ Hr]. by eapply Hb. }
  exists X. split.
  { split; [by split|]. eapply acyclic_smaller; [exact Hac|done|apply only_sub]. }
  split. { intros a [r Hin]%HX. apply elem_of_dom. exists r. exact (path_entries _ _ _ Hl _ _ Hin). }
  split; [|split].
  - intros a. by rewrite HX, (path_reaches _ _ _ Hl).
  - intros a. by rewrite HX, (path_reaches _ _ _ Hl').
  - unfold CachedJournal.build_lsn_addr_index_from_reads.
    by rewrite (build_reads_path _ _ _ _ Hw' Hl' Hb' _ (Nat.lt_succ_diag_r _)).
Qed.

(** ** A snapshot means one history *)
Lemma reaches_linear b E E' : (∀ a r r', E !! a = Some r → E' !! a = Some r' → r = r') →
  ∀ ptr a, reaches (mkDV b E) ptr a → ¬ reaches (mkDV b E') ptr a →
  ∀ c, reaches (mkDV b E') ptr c → reaches (mkDV b E) ptr c.
Proof.
  intros Hag ptr a Hre. induction Hre as [a Ha|a r x Ha Hlt Hre IH]; intros Hno c Hc.
  - inversion Hc as [? Hs|? r' ? Hr' Hlt' Hc']; subst; exfalso; apply Hno; constructor; [done|]. by eexists.
  - inversion Hc as [? Hs|? r' ? Hr' Hlt' Hc']; subst.
    + constructor. by eexists.
    + simpl in *. pose proof (Hag _ _ _ Ha Hr') as <-. eapply reaches_prior; [done|done|]. apply IH; [|done].
      intros Hx. apply Hno. by eapply reaches_prior.
Qed.
Lemma snapshot_holds_det (C : PageCodec) (pages : Address → RawPage → Prop) snap h h' :
  (∀ a d d', pages a d → pages a d' → d = d') →
  snapshot_holds C pages snap h → snapshot_holds C pages snap h' → h = h'.
Proof.
  intros Hfun (Hw&E&HE&Hs&He&Hm) (Hw'&E'&HE'&Hs'&He'&Hm'). simpl in *.
  assert (∀ a r r', E !! a = Some r → E' !! a = Some r' → r = r') as Hag.
  { intros a r r' Hr Hr'. destruct (HE _ _ Hr) as (d&Hd&<-). destruct (HE' _ _ Hr') as (d'&Hd'&<-).
    by rewrite (Hfun _ _ _ Hd Hd'). }
  assert (seq_end h = seq_end h') as Hend.
  { destruct (snap_freshest snap) as [a|]; [|congruence]. destruct He as (r&Hr&->). destruct He' as (r'&Hr'&->).
    by rewrite (Hag _ _ _ Hr Hr'). }
  assert (∀ lsn km km', msgs h !! lsn = Some km → msgs h' !! lsn = Some km' → km = km') as Hsame.
  { intros lsn km km' Hk Hk'. destruct (decide (km = km')) as [|Hne]; [done|]. exfalso. apply Hne.
    pose proof (proj1 (Hm _ _) Hk) as (Hle&a&r&Hre&Ha&Hka).
    pose proof (proj1 (Hm' _ _) Hk') as (_&b&r'&Hre'&Hb&Hkb).
    assert (¬ reaches (mkDV (snap_boundary snap) E') (snap_freshest snap) a) as Hno.
    { intros Hx. assert (is_Some (E' !! a)) as [r2 Hr2].
      { clear -Hx. set (dv := mkDV _ E') in *. change E' with (entries dv). induction Hx; done. }
      pose proof (Hag _ _ _ Ha Hr2) as <-.
      assert (msgs h' !! lsn = Some km) as Hy by (apply Hm'; split; [done|]; by exists a, r). congruence. }
    pose proof (reaches_linear _ _ _ Hag _ _ Hre Hno _ Hre') as Hb2.
    assert (is_Some (E !! b)) as [r2 Hr2].
    { clear -Hb2. set (dv := mkDV _ E) in *. change E with (entries dv). induction Hb2; done. }
    pose proof (Hag _ _ _ Hr2 Hb) as <-.
    assert (msgs h !! lsn = Some km') as Hy by (apply Hm; split; [done|]; by exists b, r2). congruence. }
  assert (msgs h = msgs h').
  { apply map_eq. intros lsn. destruct Hw as [_ Hd], Hw' as [_ Hd'].
    destruct (msgs h !! lsn) as [km|] eqn:Ek, (msgs h' !! lsn) as [km'|] eqn:Ek'; [|exfalso..|done].
    - f_equal. by eapply Hsame.
    - assert (is_Some (msgs h' !! lsn)) as [? ?]; [|congruence]. apply Hd'. unfold mh_contains.
      rewrite Hs', <- Hend, <- Hs. apply Hd. by eexists.
    - assert (is_Some (msgs h !! lsn)) as [? ?]; [|congruence]. apply Hd. unfold mh_contains.
      rewrite Hs, Hend, <- Hs'. apply Hd'. by eexists. }
  destruct h, h'. simpl in *. congruence.
Qed.
Lemma page_now_fun st sg a d d' : cinv st sg → page_now st a d → page_now st a d' → d = d'.
Proof. intros I H1%(page_now_sg _ _ _ _ I) H2%(page_now_sg _ _ _ _ I). congruence. Qed.

Lemma frozen_wf a0 als a h : run AbstractJournal.next a0 als a → AbstractJournal.FreezeForCommitLabel h ∈ als → mh_wf h.
Proof.
  intros Hr. induction Hr as [|s ls s1 l s2 Hr IH Hn]; intros Hin; [by apply elem_of_nil in Hin|].
  apply elem_of_app in Hin as [Hin|Hin]; [by apply IH|]. apply elem_of_list_singleton in Hin as <-.
  destruct Hn as [Hn|[Hn|[Hn|[Hn|[Hn|Hn]]]]].
  - by destruct Hn as (_&?&?&_).
  - by destruct Hn as (_&?&[= <-]&Hw&_).
  - by destruct Hn as (_&?&?&_).
  - by destruct Hn as (_&?&?&_).
  - by destruct Hn as (_&?&?&?&_).
  - by destruct Hn as (_&?&_).
Qed.

Lemma reaches_path b E E' ptr a l : (∀ a r r', E !! a = Some r → E' !! a = Some r' → r = r') →
  reaches (mkDV b E) ptr a → path (mkDV b E') ptr l → ∃ r, (a, r) ∈ l.
Proof.
  intros Hag Hre. revert l. induction Hre as [a Ha|a r c Ha Hlt Hre IH]; intros l Hp.
  - inversion Hp as [|? r l' He Hp' E1 E2]; subst. exists r. left.
  - inversion Hp as [|? r' l' He Hp' E1 E2]; subst. cbn in *. assert (r = r') as <- by (by eapply Hag).
    unfold Linked.cropped_prior in Hp'. rewrite decide_True in Hp' by done. destruct (IH _ Hp') as [q Hq].
    exists q. by right.
Qed.
Lemma reaches_more b E E' ptr a : E ⊆ E' → reaches (mkDV b E) ptr a → reaches (mkDV b E') ptr a.
Proof.
  intros HE Hre. induction Hre as [a [r Ha]|a r c Ha Hlt Hre IH].
  - constructor. exists r. cbn in *. by eapply lookup_weaken.
  - econstructor; [cbn in *; by eapply lookup_weaken|done|done].
Qed.
(** A reader of a complete journal visits the same pages whatever else is there. *)
Lemma visits_part C P f (E F : gmap Address JournalRecord) snap X : (∀ a r, E !! a = Some r ↔ ∃ d, P a d ∧ raw_page_to_record d = r) →
  f = snap_freshest snap → Linked.tj_decodable (mkTJ f (mkDV (snap_boundary snap) F)) →
  (∀ a r, F !! a = Some r → ∃ d, P a d ∧ raw_page_to_record d = r) →
  (∀ a, a ∈ X ↔ reaches (mkDV (snap_boundary snap) F) f a) → visits C P snap X.
Proof.
  intros HE -> [[Hw Hb] Hac] HF HX. exists E. split; [done|]. simpl in *.
  assert (F ⊆ E) as Hs by (apply map_subseteq_spec; intros a r Ha; by apply HE, HF).
  intros a. rewrite HX. split; [by apply reaches_more|]. intros Hre.
  destruct (path_exists _ (snap_freshest snap) Hw Hac) as [l Hl]; [apply Hb|].
  apply (path_reaches _ _ _ Hl). eapply reaches_path; [|exact Hre|exact Hl].
  intros c r r' Hc Hc'. pose proof (lookup_weaken _ _ _ _ Hc' Hs). congruence.
Qed.

Section facts.
  Context `{Geometry} (C : PageCodec) (ps we : bool) (rt : codec_round_trip C) (ok : we = true ∨ ps = false).
  Notation snext := (JournalSys.next C true ps we).

  Lemma sys_init st sg s snap reads : cinv st sg → JournalSys.initialize C true s st snap reads →
    jinv C ps s sg (JournalSys.to_journal_reads C reads) ∧
    Likes.initialize (lk (JournalSys.journal s) (JournalSys.to_journal_reads C reads))
                     (mkTJ (snap_freshest snap) (mkDV (snap_boundary snap) (JournalSys.to_journal_reads C reads))) ∧
    sys_snapshot s = snap.
  Proof.
    intros I (<-&Ha&Hj&Hd&Hdec&Hsub&Hdom). destruct Hj as (e&He&Hj).
    set (E := JournalSys.to_journal_reads C reads) in *.
    assert (e = Linked.dv_seq_end (mkDV (snap_boundary snap) E) (snap_freshest snap)) as ->.
    { destruct (snap_freshest snap) as [a|]; [|done]. destruct He as (r&Hr&->&_). simpl. by rewrite Hr. }
    assert (Likes.initialize (lk (JournalSys.journal s) E) (mkTJ (snap_freshest snap) (mkDV (snap_boundary snap) E))) as Hli.
    { split; [exact Hdec|]. rewrite Hj. unfold lk. simpl. unfold Linked.tj_seq_end. simpl. f_equal.
      destruct (tj_path_exists _ Hdec) as [l Hl]. destruct Hdec as [[Hw Hb] _]. simpl in *.
      unfold Likes.build_lsn_addr_index. simpl. rewrite (build_index_path _ _ _ Hl) by (by eapply path_length).
      unfold CachedJournal.build_lsn_addr_index_from_reads.
      exact (build_reads_path _ _ _ _ Hw Hl Hb _ (Nat.lt_succ_diag_r _)). }
    split; [|split; [done|]].
    - constructor.
      + done.
      + unfold E, JournalSys.to_journal_reads. by rewrite dom_fmap_L.
      + intros a r Hr. unfold E, JournalSys.to_journal_reads in Hr. apply lookup_fmap_Some in Hr as (d&<-&Hr).
        destruct (sg a) as [d'|] eqn:Hs.
        * exists d'. split; [done|]. by rewrite (access_reads _ _ _ I Ha _ _ Hr _ Hs).
        * exfalso. assert (a ∈ dom (sdisk s)) as [x Hx]%elem_of_dom by (apply Hsub, elem_of_dom; by eexists).
          rewrite (i_disk _ _ I a) in Hx; [congruence|]. intros (k&d2&He2&Hs2).
          assert (sg a = Some d2) by (apply (i_dirty _ _ I _ _ _ He2); destruct Hs2; congruence). congruence.
      + by apply likes_init in Hli as [_ ?].
      + intros a (k&d&Hk&Hst). apply (Hd a k); [|tauto]. apply (w_lookup _ (i_wf _ _ I)). by eapply slot_for_filled.
      + right. rewrite Hj. done.
    - unfold sys_snapshot. rewrite Hj. by destruct snap.
  Qed.

  (** The event of the indexed journal that stands for an event of the system. *)
  Definition erel (e : JournalSys.State * JournalSys.Label) (ll : Linked.Label) : Prop :=
    match e.2 with
    | JournalSys.ReadForRecovery m => ll = Linked.ReadForRecovery m
    | JournalSys.FreezeForCommit snap => ∃ E,
        ll = Linked.FreezeForCommit (mkTJ (snap_freshest snap) (mkDV (snap_boundary snap) E)) ∧
        ∀ a r, E !! a = Some r → ∃ d, page_now (JournalSys.store e.1) a d ∧
          page_saved (JournalSys.store e.1) a d ∧ raw_page_to_record d = r
    | JournalSys.QueryEndLsn n => ll = Linked.QueryEndLsn n
    | JournalSys.Put m => ll = Linked.Put m
    | JournalSys.DiscardOld x y => ll = Linked.DiscardOld x y
    | JournalSys.Internal => ll = Linked.Internal
    end.
  Lemma lrel_erel s sg E l ll : jinv C ps s sg E → lrel s E l ll → erel (s, l) ll.
  Proof.
    intros J. destruct l; try done. intros (X&->&_&HX). eexists. split; [reflexivity|]. intros a r Hr.
    apply lookup_only in Hr as [HaX Hr]. destruct (j_pg _ _ _ _ _ J _ _ Hr) as (d&Hd&Hdr). exists d.
    apply (page_now_sg _ _ _ _ (j_c _ _ _ _ _ J)) in Hd. split; [done|]. split; [by apply HX|done].
  Qed.
  Lemma sys_run s0 sg0 E0 tr s : jinv C ps s0 sg0 E0 → run (observed snext) s0 tr s →
    ∃ sg E lls, jinv C ps s sg E ∧
      run Likes.next (lk (JournalSys.journal s0) E0) lls (lk (JournalSys.journal s) E) ∧ Forall2 erel tr lls.
  Proof using ok rt.
    intros J Hr. induction Hr as [s|s tr s1 e s2 Hr IH Hn].
    - exists sg0, E0, []. split; [done|]. split; constructor.
    - destruct (IH J) as (sg&E&lls&J1&Hr1&HF). destruct e as [se l]. destruct Hn as [Heq Hn]. cbn in Heq, Hn. subst se.
      destruct (sys_step C ps we rt ok _ _ _ _ _ J1 Hn) as (sg'&E'&ll&J2&Hl&Hrel&_).
      exists sg', E', (lls ++ [ll]). split; [done|]. split; [by eapply run_snoc|].
      apply Forall2_app; [done|]. constructor; [by eapply lrel_erel|constructor].
  Qed.
  Lemma unobserve s0 tr s : run (observed snext) s0 tr s → run snext s0 tr.*2 s.
  Proof.
    intros Hr. induction Hr as [s|s tr s1 e s2 Hr IH Hn]; [constructor|]. rewrite fmap_app.
    eapply run_snoc; [done|]. apply Hn.
  Qed.
  Lemma observe s0 ls s : run snext s0 ls s → ∃ tr, tr.*2 = ls ∧ run (observed snext) s0 tr s.
  Proof.
    intros Hr. induction Hr as [s|s ls s1 l s2 Hr (tr&<-&IH) Hn].
    - exists []. split; [done|constructor].
    - exists (tr ++ [(s1, l)]). rewrite fmap_app. split; [done|]. eapply run_snoc; [done|]. by split.
  Qed.

  Lemma jinv_holds s sg E h : jinv C ps s sg E →
    linked_journal_is (Likes.journal (lk (JournalSys.journal s) E)) h → sys_journal_is C s h.
  Proof.
    intros J (p&Hp&->). exists p. split; [|done]. split.
    { eapply linked_holds_wf; [|exact Hp]. apply linked_wf_inv, (j_l _ _ _ _ _ J). }
    exists E. split; [|exact Hp]. intros a r Hr. destruct (j_pg _ _ _ _ _ J _ _ Hr) as (d&Hd&Hdr). exists d.
    split; [|done]. by apply (page_now_sg _ _ _ _ (j_c _ _ _ _ _ J)).
  Qed.

  Section from_start.
    Context (n : SlotRange) (c0 : gmap Address RawPage) (cs0 st : CacheSys.State) (ctr : list CacheSys.Label)
      (Hi : CacheSys.init n cs0 c0) (Hc : run (CacheSys.next true n) cs0 ctr st)
      (snap : JournalSnapShot) (reads : gmap Address RawPage) (s0 : JournalSys.State)
      (Hs : JournalSys.initialize C true s0 st snap reads).

    Lemma sys_faithful tr s : run (observed snext) s0 tr s →
      ∃ h0 a0 als a, snapshot_holds C (page_now st) snap h0 ∧ AbstractJournal.initialize a0 h0 ∧
        run AbstractJournal.next a0 als a ∧ Forall2 (sys_event C) tr als ∧
        sys_journal_is C s (AbstractJournal.journal a).
    Proof using Hc Hi Hs ok rt.
      intros Hr. destruct (reach_inv _ _ _ _ _ Hi Hc) as [sg I].
      destruct (sys_init _ _ _ _ _ I Hs) as (J0&Hli&_).
      destruct (sys_run _ _ _ _ _ J0 Hr) as (sg'&E&lls&J&Hlr&HF).
      destruct (likes_run _ _ _ _ Hli Hlr) as (Hini&Hrun&_).
      destruct (linked_faithful _ _ _ _ Hini Hrun) as (h0&a0&als&a&Hh0&Ha0&Har&HF2&Hj).
      exists h0, a0, als, a. split_and!; [|done|done| |by eapply jinv_holds].
      - split; [apply Ha0|]. eexists. split; [|exact Hh0]. intros b r Hbr.
        destruct (j_pg _ _ _ _ _ J0 _ _ Hbr) as (d&Hd&Hdr). exists d. split; [|done]. by apply (page_now_sg _ _ _ _ I).
      - pose proof (λ h, frozen_wf _ _ _ h Har) as Hwf. clear -HF HF2 Hwf.
        revert als HF2 Hwf. induction HF as [|e ll tr lls He HF IH]; intros als HF2 Hwf.
        { inversion HF2; subst. constructor. }
        inversion HF2 as [|? al ? als' Hev HF2' E1 E2]; subst. constructor.
        2: { apply IH; [done|]. intros h Hin. apply Hwf. by right. }
        destruct e as [se l]. destruct l; cbn in He |- *; try (by subst ll).
        destruct He as (E&->&HE). destruct Hev as (h&->&Hh). exists h. split; [done|].
        assert (mh_wf h) as Hh' by (apply Hwf; by left).
        split; (split; [done|]; exists E; split; [|exact Hh]); intros b r Hb; destruct (HE _ _ Hb) as (d&?&?&?); eauto.
    Qed.
    Lemma sys_reach ls s : run snext s0 ls s → ∃ sg E, jinv C ps s sg E.
    Proof using Hc Hi Hs ok rt.
      intros Hr. destruct (observe _ _ _ Hr) as (tr&_&Ht). destruct (reach_inv _ _ _ _ _ Hi Hc) as [sg I].
      destruct (sys_init _ _ _ _ _ I Hs) as (J0&Hli&_).
      destruct (sys_run _ _ _ _ _ J0 Ht) as (sg'&E&lls&J&_). eauto.
    Qed.
  End from_start.
  (** ** The structure of reachable states *)
  Lemma ephemeral s sg E : jinv C ps s sg E → entries (JournalSys.ephemeral_disk C s) = E.
  Proof.
    intros J. pose proof (j_c _ _ _ _ _ J) as I. pose proof (i_wf _ _ I) as W. cbn [JournalSys.ephemeral_disk entries].
    apply map_eq. intros a. rewrite lookup_union. unfold JournalSys.dirty_journal_cache, JournalSys.persistent_journal_disk.
    rewrite lookup_omap, lookup_fmap, map_filter_lookup.
    assert (∀ k d, Cache.lookup_map (scache s) !! a = Some k → JournalSys.dirty_page (scache s) k = Some d →
      is_dirty (scache s) a ∧ sg a = Some d) as Hdp.
    { intros k d Hk Hd. unfold JournalSys.dirty_page in Hd. apply (w_lookup _ W) in Hk as (e&He&Hea).
      rewrite He in Hd. destruct (Cache.status_map (scache s) !! k) as [[]|] eqn:Hst; try done.
      all: destruct e as [| | |a' d']; try done; simplify_eq; cbn in Hea; simplify_eq.
      all: split; [exists k, d; split; [done|]; auto|]; apply (i_dirty _ _ I _ _ _ He); congruence. }
    assert (is_dirty (scache s) a → ∃ k d, Cache.lookup_map (scache s) !! a = Some k ∧
      JournalSys.dirty_page (scache s) k = Some d) as Hdp'.
    { intros (k&d&He&Hst). exists k, d. split; [apply (w_lookup _ W); by eapply slot_for_filled|].
      unfold JournalSys.dirty_page. rewrite He. by destruct Hst as [->| ->]. }
    destruct (E !! a) as [r|] eqn:HE.
    - destruct (j_pg _ _ _ _ _ J _ _ HE) as (d&Hsg&<-).
      destruct (Cache.lookup_map (scache s) !! a) as [k|] eqn:Hk; cbn.
      1: destruct (JournalSys.dirty_page (scache s) k) as [d'|] eqn:Hd; cbn.
      1: { destruct (Hdp _ _ eq_refl Hd) as [_ Hs]. simplify_eq. by destruct (_ <$> _). }
      all: assert (¬ is_dirty (scache s) a) as Hnd by (intros (?&?&?&?)%Hdp'; congruence).
      all: rewrite (i_disk _ _ I a Hnd), Hsg; cbn.
      all: rewrite option_guard_True; [done|]; rewrite <- (j_dom _ _ _ _ _ J); apply elem_of_dom; by eexists.
    - assert (a ∉ values (idx_of_sys s)) as Hna by (rewrite <- (j_dom _ _ _ _ _ J); by apply not_elem_of_dom).
      assert (¬ is_dirty (scache s) a) as Hnd by (intros Hx; by apply Hna, (j_dirty _ _ _ _ _ J)).
      replace (Cache.lookup_map (scache s) !! a ≫= _) with (@None JournalRecord).
      2: { destruct (Cache.lookup_map (scache s) !! a) as [k|] eqn:Hk; [cbn|done].
           destruct (JournalSys.dirty_page (scache s) k) as [d'|] eqn:Hd; [|done].
           by destruct (Hdp _ _ eq_refl Hd). }
      destruct (AsyncDisk.content _ !! a) as [x|]; [|done]. cbn. by rewrite option_guard_False by done.
  Qed.
  Lemma jinv_i s sg E : jinv C ps s sg E → JournalSys.i C s = lk (JournalSys.journal s) E.
  Proof.
    intros J. unfold JournalSys.i, lk, JournalSys.ephemeral_tj. do 3 f_equal.
    rewrite <- (ephemeral _ _ _ J). by destruct s as [[] ?].
  Qed.
  Lemma jinv_structure s sg E : jinv C ps s sg E →
    JournalSys.valid_journal_structure C s ∧
    JournalSys.dirty_pages_bounded_by_journal_index (scache s) (idx_of_sys s).
  Proof.
    intros J. pose proof (jinv_i _ _ _ J) as Hi. pose proof (j_l _ _ _ _ _ J) as HL. split.
    - assert (JournalSys.ephemeral_tj C s = mkTJ (CachedJournal.freshest_rec (JournalSys.journal s))
        (mkDV (CachedJournal.boundary_lsn (JournalSys.journal s)) E)) as Htj.
      { apply (f_equal Likes.tj) in Hi. exact Hi. }
      unfold JournalSys.valid_journal_structure. rewrite Htj. split; [|split; [|split]].
      + exact (linked_wf_inv _ (proj1 HL)).
      + exact (marshalled_end _ _ HL).
      + destruct HL as [Hli (l&Hl&Hok)]. pose proof (linked_wf_inv _ Hli) as [[Hw _] _]. unfold Likes.build_lsn_addr_index.
        rewrite (build_index_path _ _ _ Hl) by (by eapply path_length).
        eapply idx_ok_eq; [exact Hok|]. exact (idx_of_ok id _ _ _ Hw Hl).
      + symmetry. exact (j_dom _ _ _ _ _ J).
    - intros a k Hk Hst. apply (j_dirty _ _ _ _ _ J). pose proof (i_wf _ _ (j_c _ _ _ _ _ J)) as W.
      apply (w_lookup _ W) in Hk as (e&He&Hea).
      destruct Hst as [Hst|Hst].
      all: destruct (status_filled _ _ _ W Hst) as (a'&d&He'); [done|]; rewrite He in He'; simplify_eq; cbn in Hea; simplify_eq.
      all: exists k, d; tauto.
  Qed.
  Lemma jinv_index s sg E : jinv C ps s sg E →
    (∀ lsn, is_Some (idx_of_sys s !! lsn) ↔
       CachedJournal.boundary_lsn (JournalSys.journal s) ≤ lsn <
       seq_start (CachedJournal.unmarshalled_tail (JournalSys.journal s))) ∧
    ∀ lsn a, idx_of_sys s !! lsn = Some a → ∃ d, page_now (JournalSys.store s) a d ∧
      seq_start (message_seq (raw_page_to_record d)) ≤ lsn < seq_end (message_seq (raw_page_to_record d)).
  Proof.
    intros J. pose proof (j_l _ _ _ _ _ J) as HL. destruct (lk_facts _ _ HL) as (l&Hw&Hp&Hb&Hok).
    pose proof (marshalled_end _ _ HL) as Hme. split.
    - intros lsn. rewrite (idx_ok_dom id _ _ _ _ Hw Hp Hb Hok lsn).
      unfold Likes.tj, Linked.tj_seq_end, CachedJournal.marshalled_seq_end in Hme. cbn in Hme. cbn. by rewrite Hme.
    - intros lsn a (a'&r&Hin&Hc&<-)%Hok. unfold id. pose proof (path_entries _ _ _ Hp _ _ Hin) as He. cbn in He.
      destruct (j_pg _ _ _ _ _ J _ _ He) as (d&Hd&<-). exists d.
      split; [by apply (page_now_sg _ _ _ _ (j_c _ _ _ _ _ J))|]. destruct Hc. lia.
  Qed.

  (** ** Frozen snapshots survive *)
  Lemma sys_kept fb s sg E ls s' : jinv C ps s sg E → run snext s ls s' → truncates_below fb ls →
    ∃ sg' E', jinv C ps s' sg' E' ∧ ∀ a d, kept fb s sg a d → kept fb s' sg' a d.
  Proof using ok rt.
    intros J Hr. induction Hr as [s|s ls s1 l s2 Hr IH Hn]; intros Ht.
    - exists sg, E. done.
    - destruct (IH J) as (sg1&E1&J1&Hk1). { intros x y Hin. eapply Ht, elem_of_app. by left. }
      destruct (sys_step C ps we rt ok _ _ _ _ _ J1 Hn) as (sg'&E'&ll&J2&_&_&Hk2).
      exists sg', E'. split; [done|]. intros a d Hkk. apply Hk2; [|by apply Hk1].
      destruct l; try done. cbn. eapply Ht, elem_of_app. right. by apply elem_of_list_singleton.
  Qed.
  (** The frozen snapshot is a journal on the disk, and stays one. *)
  Lemma frozen_kept s sg E s1 snap ls' s' : jinv C ps s sg E → snext s s1 (JournalSys.FreezeForCommit snap) →
    run snext s1 ls' s' → truncates_below (snap_boundary snap) ls' →
    ∃ F, Linked.tj_decodable (mkTJ (snap_freshest snap) (mkDV (snap_boundary snap) F)) ∧
      ∀ a r, F !! a = Some r → ∃ d, page_now (JournalSys.store s) a d ∧ page_saved (JournalSys.store s) a d ∧
        page_saved (JournalSys.store s') a d ∧ raw_page_to_record d = r.
  Proof using ok rt.
    intros J Hn Hr Ht. destruct (sys_step C ps we rt ok _ _ _ _ _ J Hn) as (sg1&E1&ll&J1&Hl&(X&->&HX&Hsv)&Hk).
    destruct (sys_kept _ _ _ _ _ _ J1 Hr Ht) as (sg'&E'&J'&Hk'). exists (only X E). split.
    { destruct Hl as [Hl|[[d Hl]|[Hl|[[nj Hl]|[[nj Hl]|[(cut&a&nj&Hl)|Hl]]]]]].
      - by destruct Hl as [[? ?] _].
      - destruct Hl as (fj&[= <-]&Hd&_). exact Hd.
      - by destruct Hl as [[? ?] _].
      - by destruct Hl as [[? ?] _].
      - by destruct Hl as (?&?&?&_).
      - by destruct Hl as (?&?&_).
      - destruct Hl. congruence. }
    intros a r [HaX Hr']%lookup_only. destruct (j_pg _ _ _ _ _ J _ _ Hr') as (d&Hd&Hdr).
    assert (page_now (JournalSys.store s) a d) as Hpn by (by apply (page_now_sg _ _ _ _ (j_c _ _ _ _ _ J))).
    exists d. split; [done|]. split; [by apply Hsv|]. split; [|done].
    apply (Hk' a d), Hk; [done|]. split; [done|]. split; [by apply Hsv|by apply HX].
  Qed.

  (** ** Starting again from the disk *)
  Lemma calm_reads n c1 cs0 tr cs1 : CacheSys.init n cs0 c1 → run (CacheSys.next true n) cs0 tr cs1 → reads_only tr →
    ∃ sg, cinv cs1 sg ∧ (∀ a, sg a = c1 !! a) ∧ AsyncDisk.content (CacheSys.disk cs1) = c1 ∧
    ∀ a, ¬ is_dirty (CacheSys.cache cs1) a.
  Proof.
    clear ok rt. intros Hi Hr Hro. assert (CacheSys.Crash ∉ tr) as Hnc by (intros Hx; exact (Hro _ Hx)).
    assert (∀ a, page_after c1 tr a = c1 !! a) as Heq.
    { intros a. clear -Hro. unfold page_after. generalize (c1 !! a). induction tr as [|l tr IH]; [done|].
      intros o. simpl. rewrite IH by (intros l' Hl'; apply Hro; by right). pose proof (Hro l ltac:(by left)) as Hl.
      destruct l as [r w| | |]; try done. cbn in Hl. subst w. by rewrite lookup_empty. }
    pose proof (calm_run _ _ _ _ _ Hi Hr Hnc) as I.
    assert (∀ a, ¬ is_dirty (CacheSys.cache cs1) a) as Hnd.
    { clear I. clear Heq. induction Hr as [s|s tr s1 l s2 Hr IH Hn].
      - intros a (k&d&He&_). destruct Hi as [(HE&_) _]. rewrite HE in He. by destruct (decide _).
      - assert (reads_only tr) as Hro1 by (intros l' Hl'; apply Hro, elem_of_app; by left).
        assert (CacheSys.Crash ∉ tr) as Hnc1 by (intros Hx; apply Hnc, elem_of_app; by left).
        specialize (IH Hi Hro1 Hnc1). destruct (reach_inv _ _ _ _ _ Hi Hr) as [sg I]. pose proof (i_wf _ _ I) as W.
        intros a Ha. apply (IH a).
        assert (l ∈ tr ++ [l]) as Hin by (apply elem_of_app; right; by apply elem_of_list_singleton).
        pose proof (Hro _ Hin) as Hl.
        destruct Hn as [Hn|[Hn|[Hn|[Hn|[Hn|Hn]]]]].
        + destruct Hn as (r&w&c'&->&Hc&->). cbn in Hl, Ha. subst w. apply next_access_inv in Hc.
          destruct (dirty_access _ _ _ _ _ W Hc Ha) as [|Hx]; [done|]. by rewrite dom_empty_L in Hx.
        + by destruct Hn as (X&_&_&->).
        + destruct Hn as (_&q&r&c'&d'&Hc&_&->). exact (dirty_ops _ _ _ _ _ a W Hc Ha).
        + destruct Hn as (_&c'&Hc&->). exact (dirty_internal _ _ _ a W Hc Ha).
        + by destruct Hn as (_&d'&_&->).
        + destruct Hn as (->&_). done. }
    eexists. split; [exact I|]. split; [done|]. split; [|done]. apply map_eq. intros a. by rewrite (i_disk _ _ I a (Hnd a)).
  Qed.

  Section restart.
    Context (n : SlotRange) (c1 : gmap Address RawPage) (cs0 cs1 : CacheSys.State) (tr : list CacheSys.Label)
      (Hi : CacheSys.init n cs0 c1) (Hr : run (CacheSys.next true n) cs0 tr cs1) (Hro : reads_only tr).

    Lemma restart_page a d : page_now cs1 a d ↔ c1 !! a = Some d.
    Proof using Hi Hr Hro.
      destruct (calm_reads _ _ _ _ _ Hi Hr Hro) as (sg&I&Hsg&_). by rewrite (page_now_sg _ _ _ _ I), Hsg.
    Qed.
    Lemma restart_recovers snap h reads s1 : snapshot_holds C (λ a d, c1 !! a = Some d) snap h →
      JournalSys.initialize C true s1 cs1 snap reads → sys_journal_is C s1 h ∧ sys_snapshot s1 = snap.
    Proof using Hi Hr Hro ok rt.
      intros Hh Hs. destruct (sys_faithful n c1 cs0 cs1 tr Hi Hr snap reads s1 Hs [] s1 (run_nil _ _))
        as (h0&a0&als&a&Hh0&Ha0&Har&HF&Hj).
      inversion HF; subst als. apply run_nil_inv in Har as <-. destruct Ha0 as [_ ->]. cbn in Hj.
      assert (h0 = h) as ->.
      { eapply (snapshot_holds_det C (λ a d, c1 !! a = Some d) snap); [intros; congruence| |done].
        destruct Hh0 as (Hw&E&HE&Hl). split; [done|]. exists E. split; [|done]. intros b r Hb.
        destruct (HE _ _ Hb) as (d&Hd&?). exists d. split; [by apply restart_page|done]. }
      split; [done|]. destruct (calm_reads _ _ _ _ _ Hi Hr Hro) as (sg&I&_).
      by destruct (sys_init _ _ _ _ _ I Hs) as (_&_&?).
    Qed.
    Lemma restart_possible snap F :
      Linked.tj_decodable (mkTJ (snap_freshest snap) (mkDV (snap_boundary snap) F)) →
      (∀ a r, F !! a = Some r → ∃ d, c1 !! a = Some d ∧ raw_page_to_record d = r) →
      ∀ X, (∀ a, reaches (mkDV (snap_boundary snap) F) (snap_freshest snap) a → a ∈ X) →
      loaded (CacheSys.cache cs1) X →
      ∃ reads s1, JournalSys.initialize C true s1 cs1 snap reads.
    Proof using Hi Hr Hro.
      clear ok rt. intros Hdec HF X HX Hld. destruct (tight_decodable _ _ _ Hdec) as (Y&Hd&HYs&HY&HY'&HYv).
      destruct (calm_reads _ _ _ _ _ Hi Hr Hro) as (sg&I&Hsg&Hcon&Hnd). pose proof (i_wf _ _ I) as W.
      set (reads := filter (λ kv, kv.1 ∈ Y) c1). 
      assert (∀ a d, reads !! a = Some d ↔ c1 !! a = Some d ∧ a ∈ Y) as Hrd.
      { intros a d. unfold reads. by rewrite map_filter_lookup_Some. }
      assert (JournalSys.to_journal_reads C reads = only Y F) as Htj.
      { apply map_eq. intros a. apply option_eq. intros r. unfold JournalSys.to_journal_reads.
        rewrite lookup_fmap_Some, lookup_only. split.
        - intros (d&<-&[Hd1 Ha]%Hrd). split; [done|]. apply HYs in Ha as [r Hr']%elem_of_dom.
          destruct (HF _ _ Hr') as (d'&Hd'&<-). by simplify_eq.
        - intros [Ha Hf]. destruct (HF _ _ Hf) as (d&Hd1&Hr1). exists d. split; [done|]. by apply Hrd. }
      assert (dom reads = Y) as Hdr.
      { apply set_eq. intros a. rewrite elem_of_dom. split.
        - intros [d [_ ?]%Hrd]. done.
        - intros Ha. pose proof Ha as Ha2. apply HYs in Ha2 as [r Hr']%elem_of_dom.
          destruct (HF _ _ Hr') as (d'&Hd'&_). exists d'. by apply Hrd. }
      set (e := Linked.dv_seq_end (mkDV (snap_boundary snap) (only Y F)) (snap_freshest snap)) in *.
      exists reads, (JournalSys.mkState (CachedJournal.mkState (snap_boundary snap) (snap_freshest snap) (empty_history_at e)
        (CachedJournal.build_lsn_addr_index_from_reads (only Y F) (snap_boundary snap) (snap_freshest snap) e)) cs1).
      split; [done|]. split; [|split; [|split; [|split; [|split]]]].
      - exists reads, ∅, (CacheSys.cache cs1). split; [done|]. split; [|by destruct cs1].
        do 3 right. left. exists reads, ∅. split; [done|]. split.
        { intros a d [Hcd Ha]%Hrd. assert (a ∈ X) as HaX by (by apply HX, HY).
          destruct (Hld _ HaX) as (k&d'&Hk). exists k, a.
          split; [apply (w_lookup _ W); by eapply slot_for_filled|].
          assert (d' = d) as ->; [|done].
          destruct (filled_status _ _ _ _ W Hk) as (st&Hst&Hne).
          destruct st; [done|..].
          all: try (pose proof Hcd as Hcd'; rewrite <- Hsg in Hcd'; pose proof (i_clean _ _ I _ _ _ Hk Hst _ Hcd'); congruence).
          all: exfalso; apply (Hnd a); exists k, d'; split; [done|]; auto. }
        split; [intros ? ? Hx; by rewrite lookup_empty in Hx|].
        assert (Hws : map_values (restrict (Cache.lookup_map (CacheSys.cache cs1)) (dom (∅ : gmap Address RawPage))) = ∅).
        { apply set_eq. intros x. rewrite elem_of_map_values. split; [|set_solver]. intros [y Hy].
          apply lookup_restrict in Hy as [_ Hy]. set_solver. }
        cbv zeta. rewrite Hws, gset_to_gmap_empty, (left_id_L ∅ (∪)).
        assert (Hm : map_imap (Cache.written ∅ ∅) (Cache.entries (CacheSys.cache cs1)) = ∅).
        { apply map_eq. intros x. rewrite map_lookup_imap, lookup_empty.
          destruct (Cache.entries (CacheSys.cache cs1) !! x); [|done]. cbn. unfold Cache.written.
          by rewrite decide_False by set_solver. }
        rewrite Hm, (left_id_L ∅ (∪)). by destruct (CacheSys.cache cs1).
      - exists e. rewrite Htj. split; [|done]. destruct Hd as [[_ [Hb1 Hb2]] _]. cbn in Hb1, Hb2.
        destruct (snap_freshest snap) as [a|] eqn:Ef; [|done]. destruct (Hb1 a eq_refl) as [r Hr1].
        exists r. split; [done|]. assert (e = seq_end (message_seq r)) as Hee by (unfold e; cbn; cbn in Hr1; by rewrite Hr1).
        split; [done|]. pose proof (Hb2 a r eq_refl Hr1). lia.
      - intros a k Hk Hst. exfalso. apply (Hnd a). apply (w_lookup _ W) in Hk as (en&He&Hea).
        destruct Hst as [Hst|Hst].
        all: destruct (status_filled _ _ _ W Hst) as (a'&d&He'); [done|]; rewrite He in He'; simplify_eq; cbn in Hea; simplify_eq.
        all: exists k, d; tauto.
      - unfold JournalSys.tj_from_reads_and_snapshot. rewrite Htj. exact Hd.
      - intros a [d [Hcd _]%Hrd]%elem_of_dom. rewrite Hcon. apply elem_of_dom. by eexists.
      - rewrite Hdr. exact HYv.
    Qed.
  End restart.

  (** ** The theorems *)
  Section theorems.
    Context (n : SlotRange) (c0 : gmap Address RawPage) (cs0 st : CacheSys.State) (ctr : list CacheSys.Label)
      (Hi : CacheSys.init n cs0 c0) (Hc : run (CacheSys.next true n) cs0 ctr st)
      (snap0 : JournalSnapShot) (reads0 : gmap Address RawPage) (s0 : JournalSys.State)
      (Hs : JournalSys.initialize C true s0 st snap0 reads0).
    Lemma sys_structure ls s : run snext s0 ls s →
      JournalSys.valid_journal_structure C s ∧
      JournalSys.dirty_pages_bounded_by_journal_index (scache s) (idx_of_sys s).
    Proof using Hc Hi Hs ok rt.
      intros Hr. destruct (sys_reach n c0 cs0 st ctr Hi Hc _ _ _ Hs _ _ Hr) as (sg&E&J). by eapply jinv_structure.
    Qed.
    Lemma sys_index ls s : run snext s0 ls s →
      (∀ lsn, is_Some (idx_of_sys s !! lsn) ↔
         CachedJournal.boundary_lsn (JournalSys.journal s) ≤ lsn <
         seq_start (CachedJournal.unmarshalled_tail (JournalSys.journal s))) ∧
      ∀ lsn a, idx_of_sys s !! lsn = Some a → ∃ d, page_now (JournalSys.store s) a d ∧
        seq_start (message_seq (raw_page_to_record d)) ≤ lsn < seq_end (message_seq (raw_page_to_record d)).
    Proof using Hc Hi Hs ok rt.
      intros Hr. destruct (sys_reach n c0 cs0 st ctr Hi Hc _ _ _ Hs _ _ Hr) as (sg&E&J). by eapply jinv_index.
    Qed.
    Lemma sys_refines ls s : run snext s0 ls s →
      Likes.initialize (JournalSys.i C s0) (JournalSys.tj_from_reads_and_snapshot C snap0 reads0) ∧
      ∃ lls, length lls = length ls ∧ run Likes.next (JournalSys.i C s0) lls (JournalSys.i C s).
    Proof using Hc Hi Hs ok rt.
      intros Hr. destruct (observe _ _ _ Hr) as (tr&<-&Ht). destruct (reach_inv _ _ _ _ _ Hi Hc) as [sg I].
      destruct (sys_init _ _ _ _ _ I Hs) as (J0&Hli&_).
      destruct (sys_run _ _ _ _ _ J0 Ht) as (sg'&E&lls&J&Hlr&HF).
      rewrite (jinv_i _ _ _ J0), (jinv_i _ _ _ J). split; [done|]. exists lls. split; [|done].
      rewrite fmap_length. symmetry. by eapply Forall2_length.
    Qed.
    Lemma sys_frozen ls s s1 snap ls' s' : run snext s0 ls s → snext s s1 (JournalSys.FreezeForCommit snap) →
      run snext s1 ls' s' → truncates_below (snap_boundary snap) ls' →
      ∃ F h, Linked.tj_decodable (mkTJ (snap_freshest snap) (mkDV (snap_boundary snap) F)) ∧
        (∀ a r, F !! a = Some r → ∃ d, page_saved (JournalSys.store s') a d ∧ raw_page_to_record d = r) ∧
        snapshot_holds C (page_now (JournalSys.store s)) snap h ∧
        snapshot_holds C (page_saved (JournalSys.store s')) snap h ∧
        ∀ h', snapshot_holds C (page_now (JournalSys.store s)) snap h' → h' = h.
    Proof using Hc Hi Hs ok rt.
      intros Hr Hn Hr' Ht. destruct (sys_reach n c0 cs0 st ctr Hi Hc _ _ _ Hs _ _ Hr) as (sg&E&J).
      destruct (frozen_kept _ _ _ _ _ _ _ J Hn Hr' Ht) as (F&Hd&HF). destruct (linked_history _ Hd) as (h&Hw&Hh).
      assert (snapshot_holds C (page_now (JournalSys.store s)) snap h) as Hnow.
      { split; [done|]. exists F. split; [|exact Hh]. intros a r Ha. destruct (HF _ _ Ha) as (d&?&_&_&?). eauto. }
      exists F, h. split; [done|]. split; [|split; [done|split]].
      - intros a r Ha. destruct (HF _ _ Ha) as (d&_&_&?&?). eauto.
      - split; [done|]. exists F. split; [|exact Hh]. intros a r Ha. destruct (HF _ _ Ha) as (d&_&_&?&?). eauto.
      - intros h' Hh'. eapply snapshot_holds_det; [|exact Hh'|exact Hnow]. intros a d d'.
        apply (page_now_fun _ _ _ _ _ (j_c _ _ _ _ _ J)).
    Qed.
    Lemma sys_frozen_survives ls s s1 snap ls' s' : run snext s0 ls s → snext s s1 (JournalSys.FreezeForCommit snap) →
      run snext s1 ls' s' → truncates_below (snap_boundary snap) ls' →
      (∃ h, snapshot_holds C (page_now (JournalSys.store s)) snap h) ∧
      ∀ h, snapshot_holds C (page_now (JournalSys.store s)) snap h →
        snapshot_holds C (page_saved (JournalSys.store s')) snap h.
    Proof using Hc Hi Hs ok rt.
      intros Hr Hn Hr' Ht. destruct (sys_frozen _ _ _ _ _ _ Hr Hn Hr' Ht) as (F&h&_&_&Hnow&Hsv&Hu).
      split; [by exists h|]. intros h' Hh'. by rewrite (Hu _ Hh').
    Qed.
    Lemma sys_restart ls s s1 snap ls' s' h : run snext s0 ls s → snext s s1 (JournalSys.FreezeForCommit snap) →
      run snext s1 ls' s' → truncates_below (snap_boundary snap) ls' →
      snapshot_holds C (page_now (JournalSys.store s)) snap h →
      ∀ n' rs0 rtr rs reads sr, CacheSys.init n' rs0 (sdisk s') → run (CacheSys.next true n') rs0 rtr rs →
        reads_only rtr → JournalSys.initialize C true sr rs snap reads →
        sys_journal_is C sr h ∧ sys_snapshot sr = snap.
    Proof using Hc Hi Hs ok rt.
      intros Hr Hn Hr' Ht Hh n' rs0 rtr rs reads sr Hi' Hc' Hro Hsr.
      destruct (sys_frozen_survives _ _ _ _ _ _ Hr Hn Hr' Ht) as [_ Hsv].
      exact (restart_recovers _ _ _ _ _ Hi' Hc' Hro _ _ _ _ (Hsv _ Hh) Hsr).
    Qed.
    Lemma sys_restart_possible ls s s1 snap ls' s' : run snext s0 ls s → snext s s1 (JournalSys.FreezeForCommit snap) →
      run snext s1 ls' s' → truncates_below (snap_boundary snap) ls' →
      ∃ X, visits C (page_saved (JournalSys.store s')) snap X ∧
        ∀ n' rs0 rtr rs, CacheSys.init n' rs0 (sdisk s') → run (CacheSys.next true n') rs0 rtr rs →
          reads_only rtr → loaded (CacheSys.cache rs) X →
          ∃ reads sr, JournalSys.initialize C true sr rs snap reads.
    Proof using Hc Hi Hs ok rt.
      intros Hr Hn Hr' Ht. destruct (sys_frozen _ _ _ _ _ _ Hr Hn Hr' Ht) as (F&h&Hd&HF&_).
      destruct (tight_decodable _ _ _ Hd) as (X&_&_&HX&_). exists X. split.
      { eapply (visits_part C _ _ (raw_page_to_record <$> sdisk s') F); [|reflexivity|exact Hd|exact HF|exact HX].
        intros a r. rewrite lookup_fmap_Some. unfold page_saved. naive_solver. }
      intros n' rs0 rtr rs Hi' Hc' Hro Hld.
      eapply (restart_possible _ _ _ _ _ Hi' Hc' Hro snap F Hd HF X); [|done]. intros a. apply HX.
    Qed.
  End theorems.
End facts.
