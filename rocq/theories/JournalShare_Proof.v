(** Proofs: the images of the journal whose images have pages of their own fit on
    one disk, and its books (C55). *)
From Verif Require Import Abs_Model Abs_Spec Abs_Proof Spec_Proof Journal_Model Journal_Spec Paged_Proof
  Linked_Proof AllocJournal_Model AllocJournal_Spec Likes_Proof AllocJournal_Proof AllocJournal_Facts
  CachedFacts_Proof CrashJournal_Model CrashJournal_Spec CrashJournal_Proof CrashJournal_Facts CrashJournal_Durable
  JournalLive_Spec JournalLive_Proof JournalLive_Facts JournalSpace_Spec JournalSpace_Proof.
Open Scope nat_scope.

Section Share.
Context `{Geometry}.

(** All pages of the image are on the disk of the journal. *)
Definition pages_on (v : AllocJournal.State) (i : JournalImage) : Prop :=
  ∀ a r, entries (disk_view (img_tj i)) !! a = Some r → on_disk v a r.
(** They are in units with records the image does not truncate. *)
Definition units_on (v : AllocJournal.State) (i : JournalImage) : Prop :=
  ∀ a, is_Some (entries (disk_view (img_tj i)) !! a) →
    ∃ lsn, Linked.tj_seq_start (img_tj i) ≤ lsn ∧ AllocJournal.lsn_au_index v !! lsn = Some (au a).

Lemma freeze_on v v' i : alloc_inv v → AllocJournal.next v v' (AllocJournal.FreezeForCommit i) → v' = v ∧ pages_on v i ∧ units_on v i.
Proof.
  intros Hi Hn. destruct (alloc_freeze _ _ _ Hi Hn) as (_&_&Hp).
  apply freeze_only in Hn as [d Hn]. destruct Hn as (img'&frozen&[= <-]&Hcc&Hcd&Hfr&Hdt&Hnf&->).
  split; [done|]. split; [done|]. intros a Ha. destruct Hdt as [_ Hkd].
  assert (a ∈ frozen) as Hin by (rewrite Hkd; by apply elem_of_dom). apply Hfr in Hin as (_&Hv&_).
  apply elem_of_values in Hv as [lsn Hl]. apply lookup_index_range in Hl as [[Hb _] Hl]. by exists lsn.
Qed.
Lemma step_keeps v v' l : alloc_inv v → AllocJournal.next v v' l → (∀ x y z, l ≠ AllocJournal.DiscardOld x y z) →
  (∀ a r, on_disk v a r → on_disk v' a r) ∧
  (∀ lsn u, AllocJournal.lsn_au_index v !! lsn = Some u → AllocJournal.lsn_au_index v' !! lsn = Some u).
Proof.
  intros Hinv Hn Hno. split.
  - intros a r Ha. destruct (alloc_step_pages _ _ _ Hinv Hn) as [Hp _].
    destruct (Hp a r Ha) as [?|(_&_&x&y&z&->&_)]; [done|]. by destruct (Hno x y z).
  - pose proof Hinv as (Hi&(pl&Hst)&_). pose proof Hi as [Hwf Hac]. pose proof Hwf as (Htw&Hmw&Hse&Hee).
    destruct Hn as [Hn|[[d Hn]|[Hn|[[nj Hn]|[[nj Hn]|[(cut&a&Hn)|[Hn|[Hn|Hn]]]]]]]].
    + by destruct Hn as ([m ->]&Hn&->).
    + by destruct Hn as (img&frozen&->&Hcc&Hcd&Hfr&Hdt&Hnf&->).
    + by destruct Hn as ([m ->]&Hn&->).
    + by destruct Hn as ([m ->]&Hn&->).
    + destruct Hn as (lsn&re&deallocs&keep&nfirst&->&_). by destruct (Hno lsn re deallocs).
    + destruct Hn as (->&Htn&Hcut&Hcan&->). intros lsn u Hl. simpl. unfold index_append_record.
      apply lookup_union_singleton. right. split; [|done].
      destruct Hst as (Hp&Hok&_). pose proof Htw as [Hw Hb].
      apply (mk_is_Some _ _) in Hl. apply (idx_ok_dom au _ _ _ _ Hw Hp Hb Hok) in Hl.
      unfold Linked.tj_seq_end, AllocJournal.tj in *. simpl. lia.
    + by destruct Hn as (alls&->&Hd1&Hd2&->).
    + by destruct Hn as (deallocs&->&Hrm&->).
    + by destruct Hn as (->&->).
Qed.
Lemma discard_on v v' i e d : alloc_inv v → pages_on v i → units_on v i →
  AllocJournal.next v v' (AllocJournal.DiscardOld (Linked.tj_seq_start (img_tj i)) e d) → pages_on v' i.
Proof.
  intros Hinv Hp Hu Hn a r Ha.
  destruct Hn as [Hn|[[? Hn]|[Hn|[[nj Hn]|[[nj Hn]|[(cut&b&Hn)|[Hn|[Hn|Hn]]]]]]]].
  - by destruct Hn as ([? ?]&_).
  - by destruct Hn as (?&?&?&_).
  - by destruct Hn as ([? ?]&_).
  - by destruct Hn as ([? ?]&_).
  - destruct Hn as (lsn&re&deallocs&keep&nfirst&[= <- <- <-]&_&Hcd&Hnf&Hkeep&Hde&Hdt&Hut&->).
    destruct (Hu a (ex_intro _ r Ha)) as (k&Hk1&Hk2). pose proof Hdt as [(_&_&Hsub&_) Hkd].
    assert (a ∈ keep) as Hin.
    { apply Hkeep. split; [exists r; exact (Hp _ _ Ha)|]. apply elem_of_values. exists k. by apply lookup_discard_up_to. }
    rewrite Hkd in Hin. apply elem_of_dom in Hin as [r' Hr']. pose proof (lookup_weaken _ _ _ _ Hr' Hsub) as Hold.
    pose proof (Hp _ _ Ha) as Hold'. unfold on_disk, AllocJournal.tj in *. simpl in *. congruence.
  - by destruct Hn as (?&_).
  - by destruct Hn as (?&?&_).
  - by destruct Hn as (?&?&_).
  - by destruct Hn as (?&_).
Qed.

(** ** Along the runs of the crash-aware journal *)
Definition ac_share (s : AllocCrash.State) : Prop :=
  match AllocCrash.ephemeral s with
  | Some v => pages_on v (AllocCrash.persistent s) ∧
      ∀ f, AllocCrash.inflight s = Some f → pages_on v f ∧ units_on v f
  | None => AllocCrash.inflight s = None
  end.
Lemma ac_share_step s s' l : ac_inv s → ac_share s → AllocCrash.next s s' l → ac_share s'.
Proof.
  intros (_&Hinv&_) Hs Hn. unfold ac_share in Hs.
  assert (∀ v nj L, alloc_inv v → AllocJournal.next v nj L → (∀ x y z, L ≠ AllocJournal.DiscardOld x y z) →
    ∀ i, (pages_on v i → pages_on nj i) ∧ (units_on v i → units_on nj i)) as Hk.
  { intros v nj L Hv Hj Hno i. destruct (step_keeps _ _ _ Hv Hj Hno) as [K1 K2]. split.
    - intros Hp a r Ha. by apply K1, Hp.
    - intros Hu a Ha. destruct (Hu a Ha) as (lsn&?&?). exists lsn. split; [done|]. by apply K2. }
  destruct Hn as [[nj Hn]|[Hn|[Hn|[[nj Hn]|[[nj Hn]|[Hn|[[f Hn]|[[nj Hn]|Hn]]]]]]]].
  - destruct Hn as (->&Hu&[_ ->]&->). rewrite Hu in Hs. split; [by intros a r Ha|]. simpl. by rewrite Hs.
  - by destruct Hn as (m&v&->&Hv&_&->).
  - by destruct Hn as (m&v&->&Hv&_&->).
  - destruct Hn as (m&v&->&Hv&Hj&->). rewrite Hv in Hs. destruct Hs as [S1 S2].
    pose proof (Hk _ _ _ (Hinv _ Hv) Hj ltac:(done)) as K. split; [by apply K|].
    intros f Hf. destruct (S2 f Hf). split; by apply K.
  - destruct Hn as (x&y&v&->&Hv&_&Hj&->). rewrite Hv in Hs. destruct Hs as [S1 S2].
    pose proof (Hk _ _ _ (Hinv _ Hv) Hj ltac:(done)) as K. split; [by apply K|].
    intros f Hf. destruct (S2 f Hf). split; by apply K.
  - by destruct Hn as (m&->&_&->).
  - destruct Hn as (nb&mx&v&->&Hv&Hno&_&_&_&Hj&->). rewrite Hv in Hs. destruct Hs as [S1 _].
    destruct (freeze_on _ _ _ (Hinv _ Hv) Hj) as (_&K1&K2). unfold ac_share. simpl. rewrite Hv. split; [done|].
    by intros ? [= <-].
  - destruct Hn as (re&dd&v&f&->&Hv&Hff&Hj&->). rewrite Hv in Hs. destruct Hs as [_ S2].
    destruct (S2 f Hff) as [K1 K2]. unfold ac_share. simpl. split; [|done]. exact (discard_on _ _ _ _ _ (Hinv _ Hv) K1 K2 Hj).
  - by destruct Hn as (k&->&->).
Qed.
Lemma ac_share_run s0 ls s : AllocCrash.init s0 → run AllocCrash.next s0 ls s → ac_inv s ∧ ac_share s.
Proof.
  intros H0 Hr. split; [by apply (ac_run s0 ls s)|]. revert H0. induction Hr as [s|s ls s1 l s2 Hr IH Hn]; intros H0.
  - by rewrite H0.
  - eapply ac_share_step; [|by apply IH|exact Hn]. by apply (ac_run s ls s1).
Qed.
Lemma ac_one_disk s0 ls s v i a r : AllocCrash.init s0 → run AllocCrash.next s0 ls s → AllocCrash.ephemeral s = Some v →
  (i = AllocCrash.persistent s ∨ AllocCrash.inflight s = Some i) →
  entries (disk_view (img_tj i)) !! a = Some r → on_disk v a r.
Proof.
  intros H0 Hr Hv Hd. destruct (ac_share_run _ _ _ H0 Hr) as [_ Hs]. unfold ac_share in Hs. rewrite Hv in Hs.
  destruct Hs as [S1 S2]. destruct Hd as [->|Hf]; [apply S1|by apply S2].
Qed.

(** ** The books *)
Definition ac_space (s : AllocCrash.State) (held : gset AU) : Prop :=
  ∃ v, AllocCrash.ephemeral s = Some v ∧ unused_new v ∧ held = AllocJournal.accessible_aus v.
Lemma ac_space_load s s' : AllocCrash.next s s' AllocCrash.LoadEphemeralFromPersistent →
  ∃ us, chain_units (disk_view (img_tj (AllocCrash.persistent s))) (freshest_rec (img_tj (AllocCrash.persistent s))) us ∧ ac_space s' us.
Proof.
  intros Hn.
  destruct Hn as [[nj Hn]|[Hn|[Hn|[[nj Hn]|[[nj Hn]|[Hn|[[f Hn]|[[nj Hn]|Hn]]]]]]]].
  2: by destruct Hn as (?&?&?&_).
  2: by destruct Hn as (?&?&?&_).
  2: by destruct Hn as (?&?&?&_).
  2: by destruct Hn as (?&?&?&?&_).
  2: by destruct Hn as (?&?&_).
  2: by destruct Hn as (?&?&?&?&_).
  2: by destruct Hn as (?&?&?&?&?&_).
  2: by destruct Hn as (?&?&_).
  destruct Hn as (_&Hu&Hi&->). destruct (init_by_inv _ _ Hi) as (Hinv&_). destruct Hi as [_ Enj].
  exists (AllocJournal.accessible_aus nj).
  assert (AllocJournal.accessible_aus nj = values (AllocJournal.lsn_au_index nj)) as Hacc.
  { rewrite Enj. unfold AllocJournal.accessible_aus. simpl. set_solver. }
  split.
  - rewrite Hacc. pose proof (indexed_chain _ Hinv) as Hc. rewrite Enj in Hc |- *. exact Hc.
  - exists nj. split; [done|]. split; [|done]. rewrite Enj. by intros u p.
Qed.
Lemma ac_space_step s s' l held : ac_inv s → ac_space s held → AllocCrash.next s s' l → (∀ k, l ≠ AllocCrash.Crash k) →
  ac_space s' ((held ∪ crash_taken l) ∖ crash_given_back l) ∧ crash_taken l ## held ∧ crash_given_back l ⊆ held.
Proof.
  intros (_&Hinv&_) (e&He&Hu&->) Hn Hc. specialize (Hinv _ He).
  assert (crash_taken l = ∅ → crash_given_back l = ∅ → AllocCrash.ephemeral s' = AllocCrash.ephemeral s →
    ac_space s' ((AllocJournal.accessible_aus e ∪ crash_taken l) ∖ crash_given_back l) ∧
    crash_taken l ## AllocJournal.accessible_aus e ∧ crash_given_back l ⊆ AllocJournal.accessible_aus e) as Hsame.
  { intros -> -> Hs. split_and!; [|set_solver|set_solver]. exists e. split_and!; [congruence|done|set_solver]. }
  assert (∀ ne L, AllocJournal.next e ne L → taken L = crash_taken l → given_back L = crash_given_back l →
    AllocCrash.ephemeral s' = Some ne →
    ac_space s' ((AllocJournal.accessible_aus e ∪ crash_taken l) ∖ crash_given_back l) ∧
    crash_taken l ## AllocJournal.accessible_aus e ∧ crash_given_back l ⊆ AllocJournal.accessible_aus e) as Hstep.
  { intros ne L Hs <- <- Hne. destruct (alloc_step_space _ _ _ Hinv Hs) as (H1&H2&H3). split_and!; [|done|done].
    exists ne. split; [done|]. split; [by eapply unused_new_step|done]. }
  destruct Hn as [[nj Hn]|[Hn|[Hn|[[nj Hn]|[[nj Hn]|[Hn|[[f Hn]|[[nj Hn]|Hn]]]]]]]].
  - destruct Hn as (->&Hno&_). congruence.
  - destruct Hn as (m&v&->&Hv'&Hs&->). by apply Hsame.
  - destruct Hn as (m&v&->&Hv'&Hs&->). by apply Hsame.
  - destruct Hn as (m&v&->&Hv'&Hs&->). rewrite He in Hv'. injection Hv' as <-. by eapply Hstep.
  - destruct Hn as (x&y&v&->&Hv'&_&Hs&->). rewrite He in Hv'. injection Hv' as <-. by eapply Hstep.
  - destruct Hn as (m&->&Hle&->). by apply Hsame.
  - destruct Hn as (nb&mx&v&->&Hv'&Hno&_&_&_&_&->). by apply Hsame.
  - destruct Hn as (re&dd&v&f&->&Hv'&Hff&Hs&->). rewrite He in Hv'. injection Hv' as <-. by eapply Hstep.
  - destruct Hn as (k&->&_). by destruct (Hc k).
Qed.
Lemma ac_space_since s0 l1 s1 s2 l2 s : AllocCrash.init s0 → run AllocCrash.next s0 l1 s1 →
  AllocCrash.next s1 s2 AllocCrash.LoadEphemeralFromPersistent → run AllocCrash.next s2 l2 s → (∀ k, AllocCrash.Crash k ∉ l2) →
  ac_inv s ∧ ∃ us, chain_units (disk_view (img_tj (AllocCrash.persistent s1))) (freshest_rec (img_tj (AllocCrash.persistent s1))) us ∧
    ac_space s (ledger us l2).
Proof.
  intros H0 R1 N R2 Hno. destruct (ac_space_load _ _ N) as (us&Hus&Hs2).
  assert (∀ l2 s, run AllocCrash.next s2 l2 s → ac_inv s) as Hall.
  { intros l2' s' R2'. apply (ac_run s0 (l1 ++ AllocCrash.LoadEphemeralFromPersistent :: l2') s'); [done|].
    eapply run_app; [exact R1|]. by eapply run_cons. }
  split; [by eapply Hall|]. exists us. split; [done|].
  clear H0 R1 N. induction R2 as [s2|s2 l2 s3 l s4 R2 IH Hn]; [done|].
  pose proof (IH ltac:(intros k Hk; apply (Hno k), elem_of_app; by left) Hs2 Hall) as Hs3.
  unfold ledger in *. rewrite fold_left_app. simpl. eapply (ac_space_step s3); [by eapply Hall|done|done|].
  intros k ->. apply (Hno k), elem_of_app. right. by left.
Qed.
Lemma ac_units s0 l1 s1 s2 l2 s : AllocCrash.init s0 → run AllocCrash.next s0 l1 s1 →
  AllocCrash.next s1 s2 AllocCrash.LoadEphemeralFromPersistent → run AllocCrash.next s2 l2 s → (∀ k, AllocCrash.Crash k ∉ l2) →
  ∃ us v, chain_units (disk_view (img_tj (AllocCrash.persistent s1))) (freshest_rec (img_tj (AllocCrash.persistent s1))) us ∧
    AllocCrash.ephemeral s = Some v ∧
    (∀ a r, on_disk v a r → au a ∈ ledger us l2) ∧
    (∀ u, u ∈ ledger us l2 →
      unit_needed (disk_view (Linked.truncated_journal (AllocJournal.journal v)))
        (freshest_rec (Linked.truncated_journal (AllocJournal.journal v))) u ∨
      ((∀ a r, on_disk v a r → au a ≠ u) ∧ ∃ s', AllocCrash.next s s' (AllocCrash.Internal ∅ {[u]}))) ∧
    (∀ l s', AllocCrash.next s s' l → crash_taken l ## ledger us l2 ∧ crash_given_back l ⊆ ledger us l2).
Proof.
  intros H0 R1 N R2 Hno. destruct (ac_space_since _ _ _ _ _ _ H0 R1 N R2 Hno) as (Hinv&us&Hus&Hs).
  pose proof Hs as (v&Hv&Hu&Hl). pose proof Hinv as (_&Hi&_). specialize (Hi _ Hv).
  exists us, v. split; [done|]. split; [done|]. split_and!.
  - rewrite Hl. by apply alloc_pages_accessible.
  - rewrite Hl. intros u Hin. destruct (decide (u ∈ values (AllocJournal.lsn_au_index v))) as [Hx|Hx];
      [left; exact (indexed_needed _ _ Hi Hx)|right].
    destruct (idle_unit _ _ Hi Hu Hin Hx) as [Hc Hd]. split; [exact Hd|].
    eexists. do 4 right; left. eexists. exists ∅, {[u]}, v. split; [done|]. split; [done|]. split.
    { split_and!; [set_solver|set_solver|]. intros f _. set_solver. }
    split; [|reflexivity]. apply give_back. intros w ->%elem_of_singleton. exact Hc.
  - intros l s' Hn. destruct l; try (split; [apply disjoint_empty_l|apply empty_subseteq]).
    all: eapply (ac_space_step s s'); [done|done|done|done].
Qed.
Lemma ac_can_empty s0 l1 s1 s2 l2 s n : AllocCrash.init s0 → run AllocCrash.next s0 l1 s1 →
  AllocCrash.next s1 s2 AllocCrash.LoadEphemeralFromPersistent → run AllocCrash.next s2 l2 s → (∀ k, AllocCrash.Crash k ∉ l2) →
  alloc_room s → AllocCrash.next s s (AllocCrash.QueryEndLsn n) →
  ∃ us l3 s', chain_units (disk_view (img_tj (AllocCrash.persistent s1))) (freshest_rec (img_tj (AllocCrash.persistent s1))) us ∧
    run AllocCrash.next s l3 s' ∧ Forall quiet l3 ∧
    AllocCrash.next s' s' (AllocCrash.QueryLsnPersistence n) ∧ Linked.tj_seq_start (img_tj (AllocCrash.persistent s')) = n ∧
    ledger us (l2 ++ l3) = ∅ ∧ entries (disk_view (img_tj (AllocCrash.persistent s'))) = ∅ ∧
    ∃ v, AllocCrash.ephemeral s' = Some v ∧ ∀ a r, ¬ on_disk v a r.
Proof.
  intros H0 R1 N R2 Hno Hroom Hq.
  assert (run AllocCrash.next s0 (l1 ++ AllocCrash.LoadEphemeralFromPersistent :: l2) s) as R.
  { eapply run_app; [exact R1|]. by eapply run_cons. }
  destruct (own_alive _ _ _ H0 R) as (c&(Hi&Hc)&_&Hok).
  destruct (ac_sim _ _ _ _ Hi Hc Hq) as (_&c'&Hc'&_). apply ct_query_end in Hc' as (a&Ea&->).
  set (n := seq_end (AbstractJournal.journal a)) in *.
  assert (alloc_durable_from s n) as Hd.
  { pose proof Hok as [Hci Hcw]. unfold ct_inv in Hci. rewrite Ea in Hci. destruct Hci as ((E1&E2&E3)&Es&Ef).
    pose proof Hc as (Rp&_&Rf). pose proof Hi as (Hip&_&Hif). intros i [->|Hfi].
    - assert (Linked.tj_decodable (img_tj (AllocCrash.persistent s))) as Hpd by (by apply valid_image_struct).
      pose proof Rp as (Eb&_). unfold Linked.tj_seq_start. rewrite <-Eb. pose proof (linked_holds_wf _ _ Hpd Rp) as [Hle _]. unfold n. lia.
    - rewrite Hfi in Rf. destruct (CTJournal.in_flight c) as [h|] eqn:Eh; [|done]. simpl in Rf.
      destruct Rf as (Eb&_). unfold Linked.tj_seq_start. rewrite <-Eb.
      destruct (Ef h eq_refl) as [_ (I1&I2&_)]. pose proof (Hcw h eq_refl) as [Hle _]. unfold n. lia. }
  destruct (own_sync _ _ _ n n H0 R Hroom Hq Hd (le_n _)) as (l3&s3&R3&Q3&A3&B3).
  destruct (ac_space_since s0 l1 s1 s2 (l2 ++ l3) s3 H0 R1 N) as (Hi3&us&Hus&e&He&Hu&Hl).
  { by eapply run_app. }
  { intros k [?|?]%elem_of_app; [by eapply Hno|by eapply quiet_no_crash]. }
  destruct (ac_run_from _ _ _ _ Hi Hc R3) as (_&c3&C3&S3).
  destruct (quiet_end _ _ _ _ Q3 C3 Ea) as (a3&Ea3&En3).
  assert (ct_ok c3) as Hok3.
  { eapply ct_ok_run; [exact Hok| |exact C3]. pose proof (ac_run_ok _ _ _ H0 (run_app _ _ _ _ _ _ R R3)) as Hall.
    rewrite fmap_app in Hall. by apply stdpp.list.Forall_app in Hall as [_ ?]. }
  pose proof Hok3 as [Hci3 _]. unfold ct_inv in Hci3. rewrite Ea3 in Hci3. destruct Hci3 as (_&Es3&_).
  pose proof S3 as (Rp3&Re3&_). rewrite He, Ea3 in Re3. simpl in Re3.
  pose proof Hi3 as (_&Hai&_). specialize (Hai _ He).
  destruct (journal_is_bounds _ _ Hai Re3) as [Hb1 Hb2].
  assert (seq_start (CTJournal.persistent c3) = n) as Hps.
  { destruct Rp3 as (->&_). exact B3. }
  assert (∀ u, u ∉ values (AllocJournal.lsn_au_index e)) as Hnone.
  { intros u [lsn Hk]%elem_of_values. pose proof Hai as ([(Htw&Hmw&Hse&Hee) _]&(pl&Hst)&_). destruct Hst as (Hp&Hxok&_).
    pose proof Htw as [Hw Hb]. apply (mk_is_Some _ _) in Hk. apply (idx_ok_dom au _ _ _ _ Hw Hp Hb Hxok) in Hk.
    destruct Hmw as [Hle _]. unfold Linked.st_end, Linked.tj_seq_end, Linked.tj_seq_start, AllocJournal.tj in *. lia. }
  set (all := AllocJournal.accessible_aus e) in *.
  assert (∀ b r, ¬ on_disk e b r) as Hdv.
  { intros b r Eb. eapply (Hnone (au b)). destruct Hai as (_&(pl&Hst)&_). destruct Hst as (_&_&_&Ht&_). apply (Ht b). by exists r. }
  exists us, (l3 ++ [AllocCrash.Internal ∅ all]).
  exists (AllocCrash.mkState (AllocCrash.persistent s3)
    (Some (AllocJournal.mkState (AllocJournal.journal e) (AllocJournal.lsn_au_index e) (AllocJournal.first e) (prune (AllocJournal.mini_allocator e) all)))
    (AllocCrash.inflight s3)).
  split; [done|]. split; [|split; [|split; [|split; [done|split; [|split]]]]].
  - eapply run_snoc; [exact R3|]. do 4 right; left. eexists. exists ∅, all, e. split; [done|]. split; [done|]. split.
    { split_and!; [set_solver|set_solver|]. intros f _. set_solver. }
    split; [|reflexivity]. apply (give_back e). intros u Hin. by apply (idle_unit e).
  - apply stdpp.list.Forall_app. split; [done|]. by repeat constructor.
  - destruct A3 as [[? A]|[A|[A|[[? A]|[[? A]|[A|[[? A]|[[? A]|A]]]]]]]].
    + by destruct A as (?&_).
    + by destruct A as (?&?&?&_).
    + by destruct A as (?&?&?&_).
    + by destruct A as (?&?&?&_).
    + by destruct A as (?&?&?&?&_).
    + destruct A as (m&[= <-]&?&_). do 5 right; left. exists n. by split_and!.
    + by destruct A as (?&?&?&?&_).
    + by destruct A as (?&?&?&?&?&_).
    + by destruct A as (?&?&_).
  - rewrite app_assoc. unfold ledger in *. rewrite fold_left_app, Hl. simpl. fold all. set_solver.
  - simpl. apply map_empty. intros b. destruct (entries _ !! b) as [r|] eqn:Eb; [exfalso|done].
    apply (Hdv b r). eapply (ac_one_disk s0 _ s3); [done|by eapply run_app|done|by left|exact Eb].
  - eexists. split; [reflexivity|]. intros b r. exact (Hdv b r).
Qed.
End Share.
