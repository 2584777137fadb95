(** Proofs: the journal keeps no space it does not need (C55). *)
From Verif Require Import Abs_Model Abs_Spec Abs_Proof Spec_Proof Journal_Model Journal_Spec Paged_Proof
  Linked_Proof AllocJournal_Model AllocJournal_Spec Likes_Proof AllocJournal_Proof AllocJournal_Facts
  CachedFacts_Proof CrashJournal_Model CrashJournal_Spec CrashJournal_Proof CrashJournal_Facts CrashJournal_Durable
  JournalLive_Spec JournalLive_Proof JournalLive_Facts JournalSpace_Spec.
Open Scope nat_scope.

Section Space.
Context `{Geometry}.

(** A unit the journal holds and has no records in was never written to. *)
Definition unused_new (s : AllocJournal.State) : Prop :=
  ∀ u p, allocs (AllocJournal.mini_allocator s) !! u = Some p → u ∉ values (AllocJournal.lsn_au_index s) → p = pa_new u.
Lemma unused_new_step pre post l : alloc_inv pre → unused_new pre → AllocJournal.next pre post l → unused_new post.
Proof.
  intros Hinv Hu Hn. pose proof Hinv as (Hi&(pl&Hst)&Hfirst&Hma). pose proof Hi as [Hwf Hac].
  pose proof Hwf as (Htw&Hmw&Hse&Hee).
  destruct Hn as [Hn|[[d Hn]|[Hn|[[nj Hn]|[[nj Hn]|[(cut&a&Hn)|[Hn|[Hn|Hn]]]]]]]].
  - by destruct Hn as ([m ->]&Hn&->).
  - by destruct Hn as (img&frozen&->&Hcc&Hcd&Hfr&Hdt&Hnf&->).
  - by destruct Hn as ([m ->]&Hn&->).
  - destruct Hn as ([m ->]&Hn&->). intros u p Hp Hv. by apply Hu.
  - destruct Hn as (lsn&re&deallocs&keep&nfirst&->&->&Hcd&Hnf&Hkeep&->&Hdt&Hut&->).
    intros u p. cbn [AllocJournal.mini_allocator AllocJournal.lsn_au_index].
    intros [Hp Hnd]%lookup_prune Hv. apply Hu; [done|]. set_solver.
  - destruct Hn as (->&Htn&Hcut&Hcan&->). destruct Htn as [(p0&Hp0&_) _].
    intros u p. cbn [AllocJournal.mini_allocator AllocJournal.lsn_au_index].
    destruct Hst as (Hpth&Hok&_). pose proof Htw as [Hw Hb].
    rewrite (idx_values_append _ _ _ _ _ _ Hw Hpth Hb Hok); [|done|simpl; lia].
    intros Hp Hv. apply (lookup_alloc_observe _ _ _ Hp0) in Hp as [[-> _]|[Hne Hp]]; [set_solver|].
    apply Hu; [done|]. set_solver.
  - destruct Hn as (alls&->&Hd1&Hd2&->). intros u p. cbn [AllocJournal.mini_allocator AllocJournal.lsn_au_index].
    intros [Hp|(_&_&->)]%lookup_add_aus Hv; [by apply Hu|done].
  - destruct Hn as (deallocs&->&Hrm&->). intros u p. cbn [AllocJournal.mini_allocator AllocJournal.lsn_au_index].
    intros [Hp _]%lookup_prune Hv. by apply Hu.
  - by destruct Hn as (->&->).
Qed.

(** The units with records are those of the pages in reach; each has one that is needed. *)
Lemma indexed_needed s u : alloc_inv s → u ∈ values (AllocJournal.lsn_au_index s) →
  unit_needed (disk_view (AllocJournal.tj s)) (freshest_rec (AllocJournal.tj s)) u.
Proof.
  intros Hinv [lsn Hl]%elem_of_values. apply (proj1 (alloc_index _ Hinv)) in Hl as (Hb&a&r&<-&Hre&He&Hr).
  exists a, r, lsn. by split_and!.
Qed.
Lemma reached_indexed s a : alloc_inv s → reaches (disk_view (AllocJournal.tj s)) (freshest_rec (AllocJournal.tj s)) a →
  au a ∈ values (AllocJournal.lsn_au_index s).
Proof.
  intros (Hi&(pl&Hst)&_) Hre. destruct Hst as (Hp&_&_&Ht&_). unfold tj_path in Hp.
  destruct (proj1 (path_reaches _ _ _ Hp a) Hre) as [r Hin]. apply (Ht a). exists r. exact (path_entries _ _ _ Hp _ _ Hin).
Qed.
Lemma indexed_chain s : alloc_inv s →
  chain_units (disk_view (AllocJournal.tj s)) (freshest_rec (AllocJournal.tj s)) (values (AllocJournal.lsn_au_index s)).
Proof.
  intros Hinv u. split.
  - intros Hu. destruct (indexed_needed _ _ Hinv Hu) as (a&r&lsn&?&?&_). by exists a.
  - intros (a&<-&Hre). by apply reached_indexed.
Qed.
(** A unit without records can be given back, and holds no page. *)
Lemma idle_unit s u : alloc_inv s → unused_new s → u ∈ AllocJournal.accessible_aus s →
  u ∉ values (AllocJournal.lsn_au_index s) →
  can_remove (AllocJournal.mini_allocator s) u ∧ ∀ a r, on_disk s a r → au a ≠ u.
Proof.
  intros Hinv Hu Ha Hv. unfold AllocJournal.accessible_aus in Ha. apply elem_of_union in Ha as [?|[p Hp]%elem_of_dom]; [done|].
  pose proof (Hu _ _ Hp Hv) as ->. split; [by exists (pa_new u)|].
  intros a r Hd <-. destruct Hinv as (_&_&_&_&Hres&_). assert (a ∈ reserved (pa_new (au a))) by (eapply Hres; [by eexists|done]). set_solver.
Qed.
Lemma give_back s (us : gset AU) : (∀ u, u ∈ us → can_remove (AllocJournal.mini_allocator s) u) →
  AllocJournal.next s (AllocJournal.mkState (AllocJournal.journal s) (AllocJournal.lsn_au_index s) (AllocJournal.first s)
    (prune (AllocJournal.mini_allocator s) us)) (AllocJournal.InternalAllocations ∅ us).
Proof. intros Hus. do 7 right; left. by exists us. Qed.

(** The journal by itself. *)
Lemma journal_space s0 j img ls s : AllocJournal.initialize s0 j img → run AllocJournal.next s0 ls s →
  alloc_inv s ∧ unused_new s ∧
  ∃ us, chain_units (disk_view (img_tj img)) (freshest_rec (img_tj img)) us ∧ journal_ledger us ls = AllocJournal.accessible_aus s.
Proof.
  intros Hi Hr. destruct (alloc_init _ _ _ Hi) as [_ Hinv].
  assert (AllocJournal.tj s0 = img_tj img) as Htj.
  { destruct Hi as (_&Hj&->). unfold AllocJournal.tj. simpl. by destruct Hj as [_ ->]. }
  assert (unused_new s0) as Hu0 by (destruct Hi as (_&_&->); done).
  assert (AllocJournal.accessible_aus s0 = values (AllocJournal.lsn_au_index s0)) as Hacc.
  { destruct Hi as (_&_&->). unfold AllocJournal.accessible_aus. simpl. set_solver. }
  pose proof (indexed_chain _ Hinv) as Hch. rewrite Htj, <- Hacc in Hch. clear Hacc Htj Hi.
  induction Hr as [s|s ls s1 l s2 Hr IH Hn]; [split_and!; try done; by exists (AllocJournal.accessible_aus s)|].
  destruct (IH Hinv Hu0 Hch) as (Hi1&Hu1&us&Hus&Hl1). split_and!.
  - by destruct (alloc_next_sim _ _ _ Hi1 Hn).
  - by eapply unused_new_step.
  - exists us. split; [done|]. unfold journal_ledger in *. rewrite fold_left_app, Hl1. simpl. symmetry. by apply alloc_step_space.
Qed.
Lemma journal_units s0 j img ls s : AllocJournal.initialize s0 j img → run AllocJournal.next s0 ls s →
  ∃ us, chain_units (disk_view (img_tj img)) (freshest_rec (img_tj img)) us ∧
    let dv := disk_view (Linked.truncated_journal (AllocJournal.journal s)) in
    let newest := freshest_rec (Linked.truncated_journal (AllocJournal.journal s)) in
    (∀ a r, on_disk s a r → au a ∈ journal_ledger us ls) ∧
    (∀ u, u ∈ journal_ledger us ls → unit_needed dv newest u ∨
      ((∀ a r, on_disk s a r → au a ≠ u) ∧ ∃ s', AllocJournal.next s s' (AllocJournal.InternalAllocations ∅ {[u]}))) ∧
    (∀ l s', AllocJournal.next s s' l → taken l ## journal_ledger us ls ∧ given_back l ⊆ journal_ledger us ls).
Proof.
  intros Hi Hr. destruct (journal_space _ _ _ _ _ Hi Hr) as (Hinv&Hu&us&Hus&Hl). exists us. split; [done|]. cbv zeta. rewrite Hl. split_and!.
  - by apply alloc_pages_accessible.
  - intros u Hin. destruct (decide (u ∈ values (AllocJournal.lsn_au_index s))) as [Hv|Hv]; [left; by apply indexed_needed|right].
    destruct (idle_unit _ _ Hinv Hu Hin Hv) as [Hc Hd]. split; [done|]. eexists. apply give_back. intros v ->%elem_of_singleton. done.
  - intros l s' Hn. destruct (alloc_step_space _ _ _ Hinv Hn) as (?&?&_). done.
Qed.

(** ** On the shared disk *)
Definition uni_space_inv (s : Unified.State) (held : gset AU) : Prop :=
  ∃ e, Unified.ephemeral s = Some e ∧ unused_new (to_aj e (Unified.dv s)) ∧
    held = AllocJournal.accessible_aus (to_aj e (Unified.dv s)).
Lemma uni_space_load s s' : uni_inv s → Unified.next s s' AllocCrash.LoadEphemeralFromPersistent →
  ∃ us, image_units (Unified.dv s) (Unified.persistent s) us ∧ uni_space_inv s' us.
Proof.
  intros Hinv Hn.
  destruct Hn as [[ne Hn]|[Hn|[Hn|[[ne Hn]|[(ne&nd&Hn)|[Hn|[(f&d&Hn)|[(ne&nd&Hn)|Hn]]]]]]]].
  2: by destruct Hn as (?&?&?&_).
  2: by destruct Hn as (?&?&?&_).
  2: by destruct Hn as (?&?&?&_).
  2: by destruct Hn as (?&?&?&?&_).
  2: by destruct Hn as (?&?&_).
  2: by destruct Hn as (?&?&?&?&_).
  2: by destruct Hn as (?&?&?&?&?&_).
  2: by destruct Hn as (?&?&_).
  destruct Hn as (_&Hu&Hpv&[_ ->]&->).
  destruct (tight_struct _ _ Hpv) as (Hdt&(l&Hl&Hst)&Hfst).
  exists (values (build_lsn_au_index (to_tj (Unified.persistent s) (Unified.dv s)) (is_first (Unified.persistent s)))). split.
  - intros u. unfold tj_path, to_tj in Hl. simpl in Hl. destruct Hst as (Hp&Hok&_&Ht&_).
    pose proof (is_valid_decodable _ _ Hpv) as [[Hw Hb] _]. rewrite elem_of_values. split.
    + intros [lsn Hk]. apply Hok in Hk as (a&r&Hin&_&<-). exists a. split; [done|]. apply (path_reaches _ _ _ Hl). by eexists.
    + intros (a&<-&Hre). destruct (proj1 (path_reaches _ _ _ Hl a) Hre) as [r Hin]. apply elem_of_values.
      apply (Ht a). exists r. exact (path_entries _ _ _ Hp _ _ Hin).
  - eexists. split; [done|]. split; [done|]. unfold AllocJournal.accessible_aus. simpl. set_solver.
Qed.
Lemma uni_space_step s s' l held : uni_inv s → uni_space_inv s held → Unified.next s s' l → (∀ k, l ≠ AllocCrash.Crash k) →
  uni_space_inv s' ((held ∪ crash_taken l) ∖ crash_given_back l) ∧ crash_taken l ## held ∧ crash_given_back l ⊆ held.
Proof.
  intros Hinv (e&He&Hu&->) Hn Hc. unfold uni_inv in Hinv. rewrite He in Hinv. destruct Hinv as [Hi _].
  assert (crash_taken l = ∅ → crash_given_back l = ∅ → s' = s ∨ (∃ F, s' = Unified.mkState (Unified.ephemeral s) F (Unified.persistent s) (Unified.dv s)) →
    uni_space_inv s' ((AllocJournal.accessible_aus (to_aj e (Unified.dv s)) ∪ crash_taken l) ∖ crash_given_back l) ∧
    crash_taken l ## AllocJournal.accessible_aus (to_aj e (Unified.dv s)) ∧
    crash_given_back l ⊆ AllocJournal.accessible_aus (to_aj e (Unified.dv s))) as Hsame.
  { intros -> -> Hs. split_and!; [|set_solver|set_solver]. exists e. split_and!; [by destruct Hs as [->|[F ->]]| |].
    - by destruct Hs as [->|[F ->]].
    - destruct Hs as [->|[F ->]]; simpl; set_solver. }
  assert (∀ ne E' L F P, AllocJournal.next (to_aj e (Unified.dv s)) (to_aj ne E') L → taken L = crash_taken l → given_back L = crash_given_back l →
    s' = Unified.mkState (Some ne) F P E' →
    uni_space_inv s' ((AllocJournal.accessible_aus (to_aj e (Unified.dv s)) ∪ crash_taken l) ∖ crash_given_back l) ∧
    crash_taken l ## AllocJournal.accessible_aus (to_aj e (Unified.dv s)) ∧
    crash_given_back l ⊆ AllocJournal.accessible_aus (to_aj e (Unified.dv s))) as Hstep.
  { intros ne E' L F P Hs <- <- ->. destruct (alloc_step_space _ _ _ Hi Hs) as (H1&H2&H3). split_and!; [|done|done].
    exists ne. split; [done|]. split; [by eapply unused_new_step|done]. }
  destruct Hn as [[ne Hn]|[Hn|[Hn|[[ne Hn]|[(ne&nd&Hn)|[Hn|[(f&d&Hn)|[(ne&nd&Hn)|Hn]]]]]]]].
  - destruct Hn as (->&Hno&_). congruence.
  - destruct Hn as (m&v&->&Hv'&Hs&->). apply Hsame; [done|done|by left].
  - destruct Hn as (m&v&->&Hv'&Hs&->). apply Hsame; [done|done|by left].
  - destruct Hn as (m&v&->&Hv'&Hs&->). rewrite He in Hv'. injection Hv' as <-. by eapply Hstep.
  - destruct Hn as (x&y&v&->&Hv'&Hs&->). rewrite He in Hv'. injection Hv' as <-. by eapply Hstep.
  - destruct Hn as (m&->&Hle&->). apply Hsame; [done|done|by left].
  - destruct Hn as (nb&mx&v&->&Hv'&Hno&Hend&Hmx&Hst&Hcc&Hcd&Hfst&Hfr&->). apply Hsame; [done|done|right; by eexists].
  - destruct Hn as (re&dd&v&f&->&Hv'&Hff&Hs&->). rewrite He in Hv'. injection Hv' as <-. by eapply Hstep.
  - destruct Hn as (k&->&_). by destruct (Hc k).
Qed.
Lemma uni_space_run s c held ls s' : uni_inv s → unified_is s c → uni_space_inv s held → run Unified.next s ls s' →
  (∀ k, AllocCrash.Crash k ∉ ls) → uni_space_inv s' (ledger held ls).
Proof.
  intros Hi Hc Hs Hr. induction Hr as [s|s ls s1 l s2 Hr IH Hn]; intros Hno; [done|].
  destruct (uni_run_from _ _ _ _ Hi Hc Hr) as (Hi1&_).
  pose proof (IH Hi Hc Hs ltac:(intros k Hk; apply (Hno k), elem_of_app; by left)) as Hs1.
  unfold ledger in *. rewrite fold_left_app. simpl. eapply (uni_space_step s1); [done|done|done|].
  intros k ->. apply (Hno k), elem_of_app. right. by left.
Qed.
Lemma uni_space_since s0 l1 s1 s2 l2 s : Unified.init s0 → run Unified.next s0 l1 s1 →
  Unified.next s1 s2 AllocCrash.LoadEphemeralFromPersistent → run Unified.next s2 l2 s → (∀ k, AllocCrash.Crash k ∉ l2) →
  uni_inv s ∧ ∃ us, image_units (Unified.dv s1) (Unified.persistent s1) us ∧ uni_space_inv s (ledger us l2).
Proof.
  intros H0 R1 N R2 Hno. destruct (uni_run _ _ _ H0 R1) as (Hi1&_&c1&_&_&Hc1).
  destruct (uni_sim _ _ _ _ Hi1 Hc1 N) as (Hi2&c2&_&Hc2). destruct (uni_run_from _ _ _ _ Hi2 Hc2 R2) as (Hi&_).
  split; [done|]. destruct (uni_space_load _ _ Hi1 N) as (us&Hus&Hs). exists us. split; [done|]. exact (uni_space_run _ _ _ _ _ Hi2 Hc2 Hs R2 Hno).
Qed.
Lemma uni_units s0 l1 s1 s2 l2 s : Unified.init s0 → run Unified.next s0 l1 s1 →
  Unified.next s1 s2 AllocCrash.LoadEphemeralFromPersistent → run Unified.next s2 l2 s → (∀ k, AllocCrash.Crash k ∉ l2) →
  ∃ us e, image_units (Unified.dv s1) (Unified.persistent s1) us ∧ Unified.ephemeral s = Some e ∧
    (∀ a r, Unified.dv s !! a = Some r → au a ∈ ledger us l2) ∧
    (∀ u, u ∈ ledger us l2 →
      unit_needed (mkDV (is_boundary (es_image e)) (Unified.dv s)) (is_freshest (es_image e)) u ∨
      ((∀ a r, Unified.dv s !! a = Some r → au a ≠ u) ∧ ∃ s', Unified.next s s' (AllocCrash.Internal ∅ {[u]}))) ∧
    (∀ l s', Unified.next s s' l → crash_taken l ## ledger us l2 ∧ crash_given_back l ⊆ ledger us l2).
Proof.
  intros H0 R1 N R2 Hno. destruct (uni_space_since _ _ _ _ _ _ H0 R1 N R2 Hno) as (Hinv&us&Hus&Hs).
  pose proof Hs as (e&He&Hu&Hl). pose proof Hinv as Hi. unfold uni_inv in Hi. rewrite He in Hi. destruct Hi as [Hi _].
  exists us, e. split; [done|]. split; [done|]. split_and!.
  - rewrite Hl. intros a r Ha. eapply alloc_pages_accessible; [exact Hi|exact Ha].
  - rewrite Hl. intros u Hin. destruct (decide (u ∈ values (AllocJournal.lsn_au_index (to_aj e (Unified.dv s))))) as [Hv|Hv];
      [left; exact (indexed_needed _ _ Hi Hv)|right].
    destruct (idle_unit _ _ Hi Hu Hin Hv) as [Hc Hd]. split; [exact Hd|].
    eexists (Unified.mkState (Some (mkES (es_image e) (es_tail e) (es_index e) (prune (es_alloc e) {[u]}))) (Unified.inflight s)
      (Unified.persistent s) (Unified.dv s)).
    do 4 right; left. eexists _, _. exists ∅, {[u]}, e. split; [done|]. split; [done|]. split; [|done].
    apply (give_back (to_aj e (Unified.dv s))). intros v ->%elem_of_singleton. exact Hc.
  - intros l s' Hn. destruct l; try (split; [apply disjoint_empty_l|apply empty_subseteq]).
    all: eapply (uni_space_step s s'); [done|done|done|done].
Qed.

(** ** Everything can be given back *)
Lemma quiet_end c ls c' a : Forall quiet ls → run CTJournal.next c (crash_event <$> ls) c' → CTJournal.ephemeral c = Some a →
  ∃ a', CTJournal.ephemeral c' = Some a' ∧ seq_end (AbstractJournal.journal a') = seq_end (AbstractJournal.journal a).
Proof.
  revert c'. induction ls as [|l ls IH] using rev_ind; intros c' Hq Hr Ha.
  - apply run_nil_inv in Hr as <-. by exists a.
  - rewrite fmap_app in Hr. apply run_snoc_inv in Hr as (c1&Hr&Hn). apply stdpp.list.Forall_app in Hq as [Hq Hl].
    destruct (IH c1 Hq Hr Ha) as (a1&Ha1&He1). apply Forall_inv in Hl. destruct l; try done; simpl in Hn.
    + apply ct_internal in Hn as ->. by exists a1.
    + apply ct_commit_start in Hn as [h ->]. by exists a1.
    + apply ct_commit_complete in Hn as (a2&f&E2&Ef&->). eexists. split; [done|]. simpl.
      assert (a2 = a1) as -> by congruence. done.
Qed.
Lemma quiet_no_crash ls : Forall quiet ls → ∀ k, AllocCrash.Crash k ∉ ls.
Proof. intros Hq k Hk. apply elem_of_list_In in Hk. rewrite List.Forall_forall in Hq. exact (Hq _ Hk). Qed.
Lemma uni_can_empty s0 l1 s1 s2 l2 s n : Unified.init s0 → run Unified.next s0 l1 s1 →
  Unified.next s1 s2 AllocCrash.LoadEphemeralFromPersistent → run Unified.next s2 l2 s → (∀ k, AllocCrash.Crash k ∉ l2) →
  unified_room s → Unified.next s s (AllocCrash.QueryEndLsn n) →
  ∃ us l3 s', image_units (Unified.dv s1) (Unified.persistent s1) us ∧ run Unified.next s l3 s' ∧ Forall quiet l3 ∧
    Unified.next s' s' (AllocCrash.QueryLsnPersistence n) ∧ is_boundary (Unified.persistent s') = n ∧
    ledger us (l2 ++ l3) = ∅ ∧ Unified.dv s' = ∅.
Proof.
  intros H0 R1 N R2 Hno Hroom Hq.
  assert (run Unified.next s0 (l1 ++ AllocCrash.LoadEphemeralFromPersistent :: l2) s) as R.
  { eapply run_app; [exact R1|]. by eapply run_cons. }
  destruct (shared_alive _ _ _ H0 R) as (c&(Hi&Hc)&_&Hok).
  destruct (uni_sim _ _ _ _ Hi Hc Hq) as (_&c'&Hc'&_). apply ct_query_end in Hc' as (a&Ea&->).
  set (n := seq_end (AbstractJournal.journal a)) in *.
  assert (unified_durable_from s n) as Hd.
  { pose proof Hok as [Hci Hcw]. unfold ct_inv in Hci. rewrite Ea in Hci. destruct Hci as ((E1&E2&E3)&Es&Ef).
    pose proof Hc as (Rp&_&Rf). intros i [->|Hfi].
    - pose proof (is_valid_decodable _ _ (uni_valid _ _ Hi (or_introl eq_refl))) as Hpd.
      destruct (image_end _ _ _ Hpd Rp) as [<- _]. pose proof (linked_holds_wf _ _ Hpd Rp) as [Hle _]. unfold n. lia.
    - rewrite Hfi in Rf. destruct (CTJournal.in_flight c) as [h|] eqn:Eh; [|done]. simpl in Rf.
      destruct Rf as (Eb&_). simpl in Eb. destruct (Ef h eq_refl) as [_ (I1&I2&_)]. pose proof (Hcw h eq_refl) as [Hle _]. unfold n. lia. }
  destruct (shared_sync _ _ _ n n H0 R Hroom Hq Hd (le_n _)) as (l3&s3&R3&Q3&A3&B3).
  destruct (uni_space_since s0 l1 s1 s2 (l2 ++ l3) s3 H0 R1 N) as (Hi3&us&Hus&e&He&Hu&Hl).
  { by eapply run_app. }
  { intros k [?|?]%elem_of_app; [by eapply Hno|by eapply quiet_no_crash]. }
  destruct (uni_run_from _ _ _ _ Hi Hc R3) as (_&c3&C3&S3).
  destruct (quiet_end _ _ _ _ Q3 C3 Ea) as (a3&Ea3&En3).
  assert (ct_ok c3) as Hok3.
  { eapply ct_ok_run; [exact Hok| |exact C3]. pose proof (uni_run_ok _ _ _ H0 (run_app _ _ _ _ _ _ R R3)) as Hall.
    rewrite fmap_app in Hall. by apply stdpp.list.Forall_app in Hall as [_ ?]. }
  pose proof Hok3 as [Hci3 _]. unfold ct_inv in Hci3. rewrite Ea3 in Hci3. destruct Hci3 as (_&Es3&_).
  pose proof S3 as (Rp3&Re3&_). rewrite He, Ea3 in Re3. simpl in Re3. apply memory_is in Re3.
  pose proof Hi3 as Hai. unfold uni_inv in Hai. rewrite He in Hai. destruct Hai as [Hai _].
  destruct (journal_is_bounds _ _ Hai Re3) as [Hb1 Hb2].
  assert (seq_start (CTJournal.persistent c3) = n) as Hps.
  { destruct Rp3 as (->&_). exact B3. }
  assert (∀ u, u ∉ values (AllocJournal.lsn_au_index (to_aj e (Unified.dv s3)))) as Hnone.
  { intros u [lsn Hk]%elem_of_values. pose proof Hai as ([(Htw&Hmw&Hse&Hee) _]&(pl&Hst)&_). destruct Hst as (Hp&Hxok&_).
    pose proof Htw as [Hw Hb]. apply (mk_is_Some _ _) in Hk. apply (idx_ok_dom au _ _ _ _ Hw Hp Hb Hxok) in Hk.
    destruct Hmw as [Hle _]. unfold Linked.st_end, Linked.tj_seq_end, Linked.tj_seq_start, AllocJournal.tj in *. lia. }
  set (all := AllocJournal.accessible_aus (to_aj e (Unified.dv s3))) in *.
  exists us, (l3 ++ [AllocCrash.Internal ∅ all]).
  exists (Unified.mkState (Some (mkES (es_image e) (es_tail e) (es_index e) (prune (es_alloc e) all))) (Unified.inflight s3)
      (Unified.persistent s3) (Unified.dv s3)).
  assert (Unified.dv s3 = ∅) as Hdv.
  { apply map_empty. intros b. destruct (Unified.dv s3 !! b) as [r|] eqn:Eb; [exfalso|done].
    eapply (Hnone (au b)). destruct Hai as (_&(pl&Hst)&_). destruct Hst as (_&_&_&Ht&_). apply (Ht b). by exists r. }
  split; [done|]. split; [|split; [|split; [|split; [done|split; [|done]]]]].
  - eapply run_snoc; [exact R3|]. do 4 right; left. eexists _, _. exists ∅, all, e. split; [done|]. split; [done|]. split; [|done].
    apply (give_back (to_aj e (Unified.dv s3))). intros u Hin. by apply (idle_unit (to_aj e (Unified.dv s3))).
  - apply stdpp.list.Forall_app. split; [done|]. by repeat constructor.
  - assert (n ≤ is_seq_end (Unified.persistent s3) (Unified.dv s3)) as Hle.
    { destruct A3 as [[? A]|[A|[A|[[? A]|[(?&?&A)|[A|[(?&?&A)|[(?&?&A)|A]]]]]]]].
      - by destruct A as (?&_).
      - by destruct A as (?&?&?&_).
      - by destruct A as (?&?&?&_).
      - by destruct A as (?&?&?&_).
      - by destruct A as (?&?&?&?&_).
      - destruct A as (m&[= <-]&?&_). done.
      - by destruct A as (?&?&?&?&_).
      - by destruct A as (?&?&?&?&?&_).
      - by destruct A as (?&?&_). }
    do 5 right; left. exists n. by split_and!.
  - rewrite app_assoc. unfold ledger in *. rewrite fold_left_app, Hl. simpl. fold all. set_solver.
Qed.
End Space.
