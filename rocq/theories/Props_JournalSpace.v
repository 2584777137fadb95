(** C55: the journal's space is in the books, and it keeps none it does not need. *)
From Verif Require Import Abs_Model Spec_Model Spec_Proof Journal_Model Journal_Spec AllocJournal_Model
  CrashJournal_Model CrashJournal_Spec JournalLive_Spec JournalSpace_Spec JournalSpace_Proof JournalShare_Proof JournalSpace_Example
  Journal_Example AllocJournal_Example CrashJournal_Example.

(** When the journal is loaded it holds exactly the units of the pages of the
    persistent image. From then on, until a crash, it holds what the books say: every
    page on disk is in such a unit; every such unit has a record that is needed, or
    has no page and can be given back at once; no step takes a unit that is held or
    gives back one that is not. *)
Theorem C55_books `{Geometry} (s0 s1 s2 s : Unified.State) (l1 l2 : list AllocCrash.Label) :
  Unified.init s0 → run Unified.next s0 l1 s1 →
  Unified.next s1 s2 AllocCrash.LoadEphemeralFromPersistent → run Unified.next s2 l2 s → (∀ k, AllocCrash.Crash k ∉ l2) →
  ∃ us e, image_units (Unified.dv s1) (Unified.persistent s1) us ∧ Unified.ephemeral s = Some e ∧
    (∀ a r, Unified.dv s !! a = Some r → au a ∈ ledger us l2) ∧
    (∀ u, u ∈ ledger us l2 →
      unit_needed (mkDV (is_boundary (es_image e)) (Unified.dv s)) (is_freshest (es_image e)) u ∨
      ((∀ a r, Unified.dv s !! a = Some r → au a ≠ u) ∧ ∃ s', Unified.next s s' (AllocCrash.Internal ∅ {[u]}))) ∧
    (∀ l s', Unified.next s s' l → crash_taken l ## ledger us l2 ∧ crash_given_back l ⊆ ledger us l2).
Proof. exact (uni_units s0 l1 s1 s2 l2 s). Qed.
Print Assumptions C55_books.
(** The same for a journal that is started from an image and has its pages for itself. *)
Theorem C55_own_books `{Geometry} (s0 s : AllocJournal.State) (j : Linked.State) (img : JournalImage) (ls : list AllocJournal.Label) :
  AllocJournal.initialize s0 j img → run AllocJournal.next s0 ls s →
  ∃ us, chain_units (disk_view (img_tj img)) (freshest_rec (img_tj img)) us ∧
    let dv := disk_view (Linked.truncated_journal (AllocJournal.journal s)) in
    let newest := freshest_rec (Linked.truncated_journal (AllocJournal.journal s)) in
    (∀ a r, on_disk s a r → au a ∈ journal_ledger us ls) ∧
    (∀ u, u ∈ journal_ledger us ls → unit_needed dv newest u ∨
      ((∀ a r, on_disk s a r → au a ≠ u) ∧ ∃ s', AllocJournal.next s s' (AllocJournal.InternalAllocations ∅ {[u]}))) ∧
    (∀ l s', AllocJournal.next s s' l → taken l ## journal_ledger us ls ∧ given_back l ⊆ journal_ledger us ls).
Proof. exact (journal_units s0 j img ls s). Qed.
Print Assumptions C55_own_books.
(** The same for the journal whose images have pages of their own. *)
Theorem C55_alloc_books `{Geometry} (s0 s1 s2 s : AllocCrash.State) (l1 l2 : list AllocCrash.Label) :
  AllocCrash.init s0 → run AllocCrash.next s0 l1 s1 →
  AllocCrash.next s1 s2 AllocCrash.LoadEphemeralFromPersistent → run AllocCrash.next s2 l2 s → (∀ k, AllocCrash.Crash k ∉ l2) →
  ∃ us v, chain_units (disk_view (img_tj (AllocCrash.persistent s1))) (freshest_rec (img_tj (AllocCrash.persistent s1))) us ∧
    AllocCrash.ephemeral s = Some v ∧
    (∀ a r, on_disk v a r → au a ∈ ledger us l2) ∧
    (∀ u, u ∈ ledger us l2 →
      unit_needed (disk_view (Linked.truncated_journal (AllocJournal.journal v)))
        (freshest_rec (Linked.truncated_journal (AllocJournal.journal v))) u ∨
      ((∀ a r, on_disk v a r → au a ≠ u) ∧ ∃ s', AllocCrash.next s s' (AllocCrash.Internal ∅ {[u]}))) ∧
    (∀ l s', AllocCrash.next s s' l → crash_taken l ## ledger us l2 ∧ crash_given_back l ⊆ ledger us l2).
Proof. exact (ac_units s0 l1 s1 s2 l2 s). Qed.
Print Assumptions C55_alloc_books.
(** The images of that journal need no space of their own: while the journal is
    loaded, each page of the persistent image and of the image in flight is, with the
    same contents at the same address, a page of the journal. *)
Theorem C55_images_share_pages `{Geometry} (s0 s : AllocCrash.State) (ls : list AllocCrash.Label) (v : AllocJournal.State)
  (i : JournalImage) (a : Address) (r : JournalRecord) :
  AllocCrash.init s0 → run AllocCrash.next s0 ls s → AllocCrash.ephemeral s = Some v →
  (i = AllocCrash.persistent s ∨ AllocCrash.inflight s = Some i) →
  entries (disk_view (img_tj i)) !! a = Some r → on_disk v a r.
Proof. exact (ac_one_disk s0 ls s v i a r). Qed.
Print Assumptions C55_images_share_pages.
(** Whenever there is room to write what is in memory, the journal can, without
    client or crash, make everything durable, truncate it and give back every unit. *)
Theorem C55_can_give_back_all `{Geometry} (s0 s1 s2 s : Unified.State) (l1 l2 : list AllocCrash.Label) (n : LSN) :
  Unified.init s0 → run Unified.next s0 l1 s1 →
  Unified.next s1 s2 AllocCrash.LoadEphemeralFromPersistent → run Unified.next s2 l2 s → (∀ k, AllocCrash.Crash k ∉ l2) →
  unified_room s → Unified.next s s (AllocCrash.QueryEndLsn n) →
  ∃ us l3 s', image_units (Unified.dv s1) (Unified.persistent s1) us ∧ run Unified.next s l3 s' ∧ Forall quiet l3 ∧
    Unified.next s' s' (AllocCrash.QueryLsnPersistence n) ∧ is_boundary (Unified.persistent s') = n ∧
    ledger us (l2 ++ l3) = ∅ ∧ Unified.dv s' = ∅.
Proof. exact (uni_can_empty s0 l1 s1 s2 l2 s n). Qed.
Print Assumptions C55_can_give_back_all.
Theorem C55_alloc_can_give_back_all `{Geometry} (s0 s1 s2 s : AllocCrash.State) (l1 l2 : list AllocCrash.Label) (n : LSN) :
  AllocCrash.init s0 → run AllocCrash.next s0 l1 s1 →
  AllocCrash.next s1 s2 AllocCrash.LoadEphemeralFromPersistent → run AllocCrash.next s2 l2 s → (∀ k, AllocCrash.Crash k ∉ l2) →
  alloc_room s → AllocCrash.next s s (AllocCrash.QueryEndLsn n) →
  ∃ us l3 s', chain_units (disk_view (img_tj (AllocCrash.persistent s1))) (freshest_rec (img_tj (AllocCrash.persistent s1))) us ∧
    run AllocCrash.next s l3 s' ∧ Forall quiet l3 ∧
    AllocCrash.next s' s' (AllocCrash.QueryLsnPersistence n) ∧ Linked.tj_seq_start (img_tj (AllocCrash.persistent s')) = n ∧
    ledger us (l2 ++ l3) = ∅ ∧ entries (disk_view (img_tj (AllocCrash.persistent s'))) = ∅ ∧
    ∃ v, AllocCrash.ephemeral s' = Some v ∧ ∀ a r, ¬ on_disk v a r.
Proof. exact (ac_can_empty s0 l1 s1 s2 l2 s n). Qed.
Print Assumptions C55_alloc_can_give_back_all.

Local Existing Instance exg.
(** A fresh journal that took two units and wrote two pages. *)
Example C55_example : ∃ s, Unified.init us0 ∧ run Unified.next us0 [] us0 ∧
  Unified.next us0 us_loaded AllocCrash.LoadEphemeralFromPersistent ∧ run Unified.next us_loaded space_trace s ∧
  (∀ k, AllocCrash.Crash k ∉ space_trace) ∧ unified_room s ∧ Unified.next s s (AllocCrash.QueryEndLsn 3) ∧
  ledger ∅ space_trace = {[3; 4]}.
Proof. exact space_example. Qed.
(** A journal loaded after a crash; its image is in unit 4. *)
Example C55_reload_example : ∃ l s, Unified.init us0 ∧ run Unified.next us0 l us_crashed ∧
  Unified.next us_crashed s AllocCrash.LoadEphemeralFromPersistent ∧
  image_units (Unified.dv us_crashed) (Unified.persistent us_crashed) {[4]}.
Proof. exact reload_example. Qed.
Example C55_own_example :
  AllocJournal.initialize es0 (Linked.mkState Linked.mkfs (empty_history_at 0)) img_empty ∧
  run AllocJournal.next es0 alloc_trace es8.
Proof. exact alloc_example. Qed.
(** The machine with separate images takes the same steps; its commit is under way. *)
Example C55_alloc_example : ∃ s2, AllocCrash.init as0 ∧ run AllocCrash.next as0 [] as0 ∧
  AllocCrash.next as0 s2 AllocCrash.LoadEphemeralFromPersistent ∧
  run AllocCrash.next s2 (space_trace ++ crash_trace2) as_committing ∧ (∀ k, AllocCrash.Crash k ∉ space_trace ++ crash_trace2).
Proof. exact alloc_space_example. Qed.
Example C55_share_example : run AllocCrash.next as0 (crash_trace1 ++ [AllocCrash.Put jm2] ++ crash_trace2) as_committing ∧
  AllocCrash.ephemeral as_committing = Some es7 ∧ AllocCrash.inflight as_committing = Some cjimg ∧
  entries (disk_view (img_tj cjimg)) !! ja2 = Some (mkRec jpage2 (Some ja1)).
Proof. exact (conj alloc_crash_example1 (conj eq_refl (conj eq_refl eq_refl))). Qed.
Example C55_alloc_empty_example : ∃ s2 s, AllocCrash.init as0 ∧ run AllocCrash.next as0 [] as0 ∧
  AllocCrash.next as0 s2 AllocCrash.LoadEphemeralFromPersistent ∧ run AllocCrash.next s2 space_trace s ∧
  (∀ k, AllocCrash.Crash k ∉ space_trace) ∧ alloc_room s ∧ AllocCrash.next s s (AllocCrash.QueryEndLsn 3).
Proof. exact alloc_empty_example. Qed.
