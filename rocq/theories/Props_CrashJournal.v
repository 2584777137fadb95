(** C41: the journals that survive crashes. Two machines are covered: the one
    where every image has its own pages and the one where the running journal, the
    image being committed and the persistent image share one disk. *)
From Verif Require Import Abs_Model Spec_Model Journal_Model Journal_Spec AllocJournal_Model
  CrashJournal_Model CrashJournal_Spec CrashJournal_Proof CrashJournal_Facts CrashJournal_Durable CrashJournal_Space
  AllocJournal_Example CrashJournal_Example Journal_Example.

(** Every run is, event by event, a run of the crash-aware journal of plain
    histories, and in its last state the persistent image, the journal in memory and
    the image in flight store exactly the histories of that run. *)
Theorem C41_alloc_faithful `{Geometry} (s0 s : AllocCrash.State) (ls : list AllocCrash.Label) :
  AllocCrash.init s0 → run AllocCrash.next s0 ls s →
  ∃ c0 c, CTJournal.init c0 ∧ run CTJournal.next c0 (crash_event <$> ls) c ∧ alloc_crash_is s c.
Proof. exact (λ H0 Hr, proj2 (ac_run s0 ls s H0 Hr)). Qed.
Print Assumptions C41_alloc_faithful.
Theorem C41_faithful `{Geometry} (s0 s : Unified.State) (ls : list AllocCrash.Label) :
  Unified.init s0 → run Unified.next s0 ls s →
  ∃ c0 c, CTJournal.init c0 ∧ run CTJournal.next c0 (crash_event <$> ls) c ∧ unified_is s c.
Proof. exact (λ H0 Hr, proj2 (uni_run s0 ls s H0 Hr)). Qed.
Print Assumptions C41_faithful.

(** Whenever the machine crashes, loading then succeeds, on the old image or on
    the one in flight, and the journal in memory is exactly what that image held
    before the crash. *)
Theorem C41_alloc_recovery `{Geometry} (s0 s : AllocCrash.State) (ls : list AllocCrash.Label) (keep : bool) :
  AllocCrash.init s0 → run AllocCrash.next s0 ls s →
  ∃ s1 s2 v h, AllocCrash.next s s1 (AllocCrash.Crash keep) ∧
    AllocCrash.next s1 s2 AllocCrash.LoadEphemeralFromPersistent ∧
    (AllocCrash.persistent s2 = AllocCrash.persistent s ∨ AllocCrash.inflight s = Some (AllocCrash.persistent s2)) ∧
    AllocCrash.ephemeral s2 = Some v ∧
    linked_holds (img_tj (AllocCrash.persistent s2)) h ∧ linked_journal_is (AllocJournal.journal v) h.
Proof. exact (ac_recover s0 ls s keep). Qed.
Print Assumptions C41_alloc_recovery.
Theorem C41_recovery `{Geometry} (s0 s : Unified.State) (ls : list AllocCrash.Label) (keep : bool) :
  Unified.init s0 → run Unified.next s0 ls s →
  ∃ s1 s2 e h, Unified.next s s1 (AllocCrash.Crash keep) ∧
    Unified.next s1 s2 AllocCrash.LoadEphemeralFromPersistent ∧
    durable_image s (Unified.persistent s2) ∧ Unified.ephemeral s2 = Some e ∧
    image_holds (Unified.dv s) (Unified.persistent s2) h ∧ memory_holds (Unified.dv s2) e h.
Proof. exact (uni_recover s0 ls s keep). Qed.
Print Assumptions C41_recovery.

(** As a run goes on, crashes included, the persistent journal keeps every record
    it has, except that a commit may drop old ones from its front. *)
Theorem C41_alloc_persistent_grows `{Geometry} (s0 s s' : AllocCrash.State) (l1 l2 : list AllocCrash.Label) :
  AllocCrash.init s0 → run AllocCrash.next s0 l1 s → run AllocCrash.next s l2 s' →
  ∃ h h', linked_holds (img_tj (AllocCrash.persistent s)) h ∧
    linked_holds (img_tj (AllocCrash.persistent s')) h' ∧ extends h h'.
Proof. exact (ac_extends s0 l1 s l2 s'). Qed.
Print Assumptions C41_alloc_persistent_grows.
Theorem C41_persistent_grows `{Geometry} (s0 s s' : Unified.State) (l1 l2 : list AllocCrash.Label) :
  Unified.init s0 → run Unified.next s0 l1 s → run Unified.next s l2 s' →
  ∃ h h', image_holds (Unified.dv s) (Unified.persistent s) h ∧
    image_holds (Unified.dv s') (Unified.persistent s') h' ∧ extends h h'.
Proof. exact (uni_extends s0 l1 s l2 s'). Qed.
Print Assumptions C41_persistent_grows.

(** Records put before a sync answer [n] (with no crash in between) and numbered
    below [n] are in the persistent journal ever after, unless a commit dropped them
    as old; the persistent journal never again ends below [n]. *)
Theorem C41_alloc_synced_put_survives `{Geometry} (s0 s : AllocCrash.State) (m : MsgHistory) (n : LSN)
    (l1 l2 l3 : list AllocCrash.Label) :
  AllocCrash.init s0 → (∀ k, AllocCrash.Crash k ∉ l2) →
  run AllocCrash.next s0 (l1 ++ [AllocCrash.Put m] ++ l2 ++ [AllocCrash.QueryLsnPersistence n] ++ l3) s →
  ∃ h, linked_holds (img_tj (AllocCrash.persistent s)) h ∧ n ≤ seq_end h ∧
    ∀ lsn, mh_contains m lsn → lsn < n → seq_start h ≤ lsn → msgs h !! lsn = msgs m !! lsn.
Proof. exact (ac_synced s0 l1 m l2 n l3 s). Qed.
Print Assumptions C41_alloc_synced_put_survives.
Theorem C41_synced_put_survives `{Geometry} (s0 s : Unified.State) (m : MsgHistory) (n : LSN)
    (l1 l2 l3 : list AllocCrash.Label) :
  Unified.init s0 → (∀ k, AllocCrash.Crash k ∉ l2) →
  run Unified.next s0 (l1 ++ [AllocCrash.Put m] ++ l2 ++ [AllocCrash.QueryLsnPersistence n] ++ l3) s →
  ∃ h, image_holds (Unified.dv s) (Unified.persistent s) h ∧ n ≤ seq_end h ∧
    ∀ lsn, mh_contains m lsn → lsn < n → seq_start h ≤ lsn → msgs h !! lsn = msgs m !! lsn.
Proof. exact (uni_synced s0 l1 m l2 n l3 s). Qed.
Print Assumptions C41_synced_put_survives.

(** On the shared disk, a step never changes or drops a page of an image a crash
    could still need. *)
Theorem C41_durable_pages `{Geometry} (s0 s s' : Unified.State) (ls : list AllocCrash.Label) (l : AllocCrash.Label)
    (i : ImageState) (a : Address) (r : JournalRecord) :
  Unified.init s0 → run Unified.next s0 ls s → Unified.next s s' l →
  durable_image s i → durable_image s' i →
  reaches (mkDV (is_boundary i) (Unified.dv s)) (is_freshest i) a → Unified.dv s !! a = Some r →
  Unified.dv s' !! a = Some r.
Proof. exact (λ H0 Hr, uni_pages s l s' i a r (proj1 (uni_run s0 ls s H0 Hr))). Qed.
Print Assumptions C41_durable_pages.

(** A step never overwrites a page with another one, takes only units with no
    page on disk, and gives back only units with no page left on disk. *)
Theorem C41_space `{Geometry} (s0 s s' : Unified.State) (ls : list AllocCrash.Label) (l : AllocCrash.Label) :
  Unified.init s0 → run Unified.next s0 ls s → Unified.next s s' l →
  (∀ a r, Unified.dv s !! a = Some r → au a ∉ crash_taken l) ∧
  (∀ a r, Unified.dv s' !! a = Some r → au a ∉ crash_given_back l) ∧
  (∀ a r r', Unified.dv s !! a = Some r → Unified.dv s' !! a = Some r' → r' = r).
Proof. exact (λ H0 Hr, uni_space s l s' (proj1 (uni_run s0 ls s H0 Hr))). Qed.
Print Assumptions C41_space.

(** The same where every image has its own pages, for the pages of all images: no
    unit taken has a page of any of them, no unit given back has a page of any image
    that is left, and no address is written twice. *)
Theorem C41_alloc_space `{Geometry} (s0 s s' : AllocCrash.State) (ls : list AllocCrash.Label) (l : AllocCrash.Label) :
  AllocCrash.init s0 → run AllocCrash.next s0 ls s → AllocCrash.next s s' l →
  (∀ a r, alloc_page s a r → au a ∉ crash_taken l) ∧
  (∀ a r, alloc_page s' a r → au a ∉ crash_given_back l) ∧
  (∀ a r r', alloc_page s a r → alloc_page s' a r' → r' = r).
Proof. exact (ac_space s0 ls s l s'). Qed.
Print Assumptions C41_alloc_space.

(** Non-vacuity: a run with three puts, a commit that drops two of them, a sync
    answer of 3 and a crash. *)
Example C41_example : Unified.init us0 ∧ (∀ k, AllocCrash.Crash k ∉ crash_trace2 ++ [AllocCrash.CommitComplete 3 {[3]}]) ∧
  run (@Unified.next exg) us0 (crash_trace1 ++ [AllocCrash.Put jm2] ++ (crash_trace2 ++ [AllocCrash.CommitComplete 3 {[3]}]) ++
    [AllocCrash.QueryLsnPersistence 3] ++ [AllocCrash.Crash false]) us_crashed.
Proof. exact (conj (proj1 unified_example) (conj trace2_no_crash (proj2 unified_example))). Qed.
Example C41_example_alloc : AllocCrash.init as0 ∧
  run (@AllocCrash.next exg) as0 (crash_trace1 ++ [AllocCrash.Put jm2] ++ (crash_trace2 ++ [AllocCrash.CommitComplete 3 {[3]}]) ++
    [AllocCrash.QueryLsnPersistence 3] ++ [AllocCrash.Crash false]) as_crashed.
Proof. exact alloc_crash_example. Qed.
Example C41_durable_pages_example : run (@Unified.next exg) us0 (crash_trace1 ++ [AllocCrash.Put jm2] ++ crash_trace2) us_committing ∧
  @Unified.next exg us_committing us_committed (AllocCrash.CommitComplete 3 {[3]}) ∧
  durable_image us_committing cis2 ∧ durable_image us_committed cis2 ∧
  Unified.dv us_committing !! ja2 = Some (mkRec jpage2 (Some ja1)).
Proof. exact (conj unified_example1 (conj us_complete (conj (or_intror eq_refl) (conj (or_introl eq_refl) eq_refl)))). Qed.
(** A commit that gives back unit 3 while the image in flight has a page in another. *)
Example C41_alloc_space_example : run (@AllocCrash.next exg) as0 (crash_trace1 ++ [AllocCrash.Put jm2] ++ crash_trace2) as_committing ∧
  @AllocCrash.next exg as_committing as_committed (AllocCrash.CommitComplete 3 {[3]}) ∧
  alloc_page as_committing ja2 (mkRec jpage2 (Some ja1)).
Proof.
  exact (conj alloc_crash_example1 (conj as_complete (or_intror (or_introl (ex_intro _ _ (conj eq_refl eq_refl)))))).
Qed.
