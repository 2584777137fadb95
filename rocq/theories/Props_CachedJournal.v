(** Properties of the journal whose pages live in the page cache (C27).
    [JournalSys.next C strict put_stored whole_end]: [C] turns records into pages
    and back; [strict] is the repair of the cache (C26); [put_stored] and
    [whole_end] are repairs of the journal, and the code has [false] for both. The
    theorems hold with both repairs, and without either. *)
From Verif Require Import Abs_Model Spec_Model Spec_Proof Journal_Model Journal_Spec Journal_Example AllocJournal_Model
  Disk_Model Cache_Model Cache_Spec Cache_Example CachedJournal_Model CachedJournal_Spec CachedFacts_Proof
  CachedJournal_Example.
Open Scope nat_scope.

(** Started from any snapshot on any store the cache can reach, the journal behaves
    as the log of the messages that the snapshot holds: every event is an event of
    the log, every frozen snapshot holds the history the log froze, in the cache
    and on the disk alone, and the pages and the tail together are the log. *)
Theorem C27_faithful `{Geometry} C ps we n c0 cs0 st ctr snap reads s0 tr s :
  codec_round_trip C → we = true ∨ ps = false →
  CacheSys.init n cs0 c0 → run (CacheSys.next true n) cs0 ctr st →
  JournalSys.initialize C true s0 st snap reads →
  run (observed (JournalSys.next C true ps we)) s0 tr s →
  ∃ h0 a0 als a, snapshot_holds C (page_now st) snap h0 ∧ AbstractJournal.initialize a0 h0 ∧
    run AbstractJournal.next a0 als a ∧ Forall2 (sys_event C) tr als ∧
    sys_journal_is C s (AbstractJournal.journal a).
Proof. intros rt ok Hi Hc Hs. exact (sys_faithful C ps we rt ok n c0 cs0 st ctr Hi Hc snap reads s0 Hs tr s). Qed.
Print Assumptions C27_faithful.
Example C27_faithful_example :
  codec_round_trip num_codec ∧ ∃ s0 tr s, CacheSys.init 2%nat s0 ∅ ∧
    JournalSys.initialize num_codec true (JournalSys.mkState xj0 s0) s0 xsnap0 ∅ ∧
    run (observed (@JournalSys.next geo num_codec true true true)) (JournalSys.mkState xj0 s0) tr (JournalSys.mkState xj2 s).
Proof.
  split; [exact num_codec_ok|]. destruct x_all as (s0&ls&s&_&_&_&_&_&Hi&Hj&Hr&_).
  destruct (observe _ _ _ _ _ _ Hr) as (tr&_&Ht). exists s0, tr, s. exact (conj Hi (conj Hj Ht)).
Qed.

(** What it freezes, reads and truncates is what the journal on the full disk
    image does: it runs as the indexed linked journal over all its pages. *)
Theorem C27_runs_as_the_linked_journal `{Geometry} C ps we n c0 cs0 st ctr snap reads s0 ls s :
  codec_round_trip C → we = true ∨ ps = false →
  CacheSys.init n cs0 c0 → run (CacheSys.next true n) cs0 ctr st →
  JournalSys.initialize C true s0 st snap reads →
  run (JournalSys.next C true ps we) s0 ls s →
  Likes.initialize (JournalSys.i C s0) (JournalSys.tj_from_reads_and_snapshot C snap reads) ∧
  ∃ lls, length lls = length ls ∧ run Likes.next (JournalSys.i C s0) lls (JournalSys.i C s).
Proof. intros rt ok Hi Hc Hs. exact (sys_refines C ps we rt ok n c0 cs0 st ctr Hi Hc snap reads s0 Hs ls s). Qed.
Print Assumptions C27_runs_as_the_linked_journal.
Example C27_runs_as_the_linked_journal_example :
  ∃ s0 ls s, CacheSys.init 2%nat s0 ∅ ∧
    JournalSys.initialize num_codec true (JournalSys.mkState xj0 s0) s0 xsnap0 ∅ ∧
    run (@JournalSys.next geo num_codec true true true) (JournalSys.mkState xj0 s0) ls (JournalSys.mkState xj2 s).
Proof. destruct x_all as (s0&ls&s&_&_&_&_&_&Hi&Hj&Hr&_). exists s0, ls, s. exact (conj Hi (conj Hj Hr)). Qed.

(** The structure the code declares: the pages decode to a chain that ends where
    the tail starts, the index is the one the chain has, and every page the cache
    still has to write belongs to the journal. *)
Theorem C27_structure `{Geometry} C ps we n c0 cs0 st ctr snap reads s0 ls s :
  codec_round_trip C → we = true ∨ ps = false →
  CacheSys.init n cs0 c0 → run (CacheSys.next true n) cs0 ctr st →
  JournalSys.initialize C true s0 st snap reads →
  run (JournalSys.next C true ps we) s0 ls s →
  JournalSys.valid_journal_structure C s ∧
  JournalSys.dirty_pages_bounded_by_journal_index (CacheSys.cache (JournalSys.store s))
    (CachedJournal.lsn_addr_index (JournalSys.journal s)).
Proof. intros rt ok Hi Hc Hs. exact (sys_structure C ps we rt ok n c0 cs0 st ctr Hi Hc snap reads s0 Hs ls s). Qed.
Print Assumptions C27_structure.
Example C27_structure_example :
  ∃ s0 ls s, CacheSys.init 2%nat s0 ∅ ∧
    JournalSys.initialize num_codec true (JournalSys.mkState xj0 s0) s0 xsnap0 ∅ ∧
    run (@JournalSys.next geo num_codec true true true) (JournalSys.mkState xj0 s0) ls (JournalSys.mkState xj2 s).
Proof. destruct x_all as (s0&ls&s&_&_&_&_&_&Hi&Hj&Hr&_). exists s0, ls, s. exact (conj Hi (conj Hj Hr)). Qed.

(** The index has an entry exactly for the marshalled sequence numbers, and the
    page it names holds that sequence number. *)
Theorem C27_index_finds_the_page `{Geometry} C ps we n c0 cs0 st ctr snap reads s0 ls s :
  codec_round_trip C → we = true ∨ ps = false →
  CacheSys.init n cs0 c0 → run (CacheSys.next true n) cs0 ctr st →
  JournalSys.initialize C true s0 st snap reads →
  run (JournalSys.next C true ps we) s0 ls s →
  (∀ lsn, is_Some (CachedJournal.lsn_addr_index (JournalSys.journal s) !! lsn) ↔
     CachedJournal.boundary_lsn (JournalSys.journal s) ≤ lsn <
     seq_start (CachedJournal.unmarshalled_tail (JournalSys.journal s))) ∧
  ∀ lsn a, CachedJournal.lsn_addr_index (JournalSys.journal s) !! lsn = Some a →
    ∃ d, page_now (JournalSys.store s) a d ∧
      seq_start (message_seq (raw_page_to_record d)) ≤ lsn < seq_end (message_seq (raw_page_to_record d)).
Proof. intros rt ok Hi Hc Hs. exact (sys_index C ps we rt ok n c0 cs0 st ctr Hi Hc snap reads s0 Hs ls s). Qed.
Print Assumptions C27_index_finds_the_page.
Example C27_index_finds_the_page_example :
  (∃ s0 ls s, CacheSys.init 2%nat s0 ∅ ∧
    JournalSys.initialize num_codec true (JournalSys.mkState xj0 s0) s0 xsnap0 ∅ ∧
    run (@JournalSys.next geo num_codec true true true) (JournalSys.mkState xj0 s0) ls (JournalSys.mkState xj2 s)) ∧
  CachedJournal.lsn_addr_index xj2 !! 0 = Some pg.
Proof.
  split; [|reflexivity]. destruct x_all as (s0&ls&s&_&_&_&_&_&Hi&Hj&Hr&_). exists s0, ls, s. exact (conj Hi (conj Hj Hr)).
Qed.

(** A snapshot once frozen means one history, and as long as nothing truncates
    past it that history stays on the disk, whatever else the journal, the cache
    and the disk do. *)
Theorem C27_frozen_snapshot_survives `{Geometry} C ps we n c0 cs0 st ctr snap0 reads0 s0 ls s s1 snap ls' s' :
  codec_round_trip C → we = true ∨ ps = false →
  CacheSys.init n cs0 c0 → run (CacheSys.next true n) cs0 ctr st →
  JournalSys.initialize C true s0 st snap0 reads0 →
  run (JournalSys.next C true ps we) s0 ls s →
  JournalSys.next C true ps we s s1 (JournalSys.FreezeForCommit snap) →
  run (JournalSys.next C true ps we) s1 ls' s' → truncates_below (snap_boundary snap) ls' →
  (∃ h, snapshot_holds C (page_now (JournalSys.store s)) snap h) ∧
  ∀ h, snapshot_holds C (page_now (JournalSys.store s)) snap h →
    snapshot_holds C (page_saved (JournalSys.store s')) snap h.
Proof.
  intros rt ok Hi Hc Hs.
  exact (sys_frozen_survives C ps we rt ok n c0 cs0 st ctr Hi Hc snap0 reads0 s0 Hs ls s s1 snap ls' s').
Qed.
Print Assumptions C27_frozen_snapshot_survives.
Example C27_frozen_snapshot_survives_example :
  ∃ s0 ls s, CacheSys.init 2%nat s0 ∅ ∧
    JournalSys.initialize num_codec true (JournalSys.mkState xj0 s0) s0 xsnap0 ∅ ∧
    run (@JournalSys.next geo num_codec true true true) (JournalSys.mkState xj0 s0) ls (JournalSys.mkState xj2 s) ∧
    @JournalSys.next geo num_codec true true true (JournalSys.mkState xj2 s) (JournalSys.mkState xj2 s)
      (JournalSys.FreezeForCommit xsnap) ∧
    run (@JournalSys.next geo num_codec true true true) (JournalSys.mkState xj2 s) [JournalSys.Put jm1]
      (JournalSys.mkState xj3 s) ∧ truncates_below 0 [JournalSys.Put jm1].
Proof.
  destruct x_all as (s0&ls&s&_&_&_&_&_&Hi&Hj&Hr&Hf&Hp&Ht&_). exists s0, ls, s.
  exact (conj Hi (conj Hj (conj Hr (conj Hf (conj Hp Ht))))).
Qed.

(** After a crash at any later moment, a journal started from the frozen snapshot
    on what the disk kept is exactly the history that was frozen. *)
Theorem C27_restart_recovers `{Geometry} C ps we n c0 cs0 st ctr snap0 reads0 s0 ls s s1 snap ls' s' h
    n' rs0 rtr rs reads sr :
  codec_round_trip C → we = true ∨ ps = false →
  CacheSys.init n cs0 c0 → run (CacheSys.next true n) cs0 ctr st →
  JournalSys.initialize C true s0 st snap0 reads0 →
  run (JournalSys.next C true ps we) s0 ls s →
  JournalSys.next C true ps we s s1 (JournalSys.FreezeForCommit snap) →
  run (JournalSys.next C true ps we) s1 ls' s' → truncates_below (snap_boundary snap) ls' →
  snapshot_holds C (page_now (JournalSys.store s)) snap h →
  CacheSys.init n' rs0 (AsyncDisk.content (CacheSys.disk (JournalSys.store s'))) →
  run (CacheSys.next true n') rs0 rtr rs → reads_only rtr →
  JournalSys.initialize C true sr rs snap reads →
  sys_journal_is C sr h ∧ sys_snapshot sr = snap.
Proof.
  intros rt ok Hi Hc Hs Hr Hf Hr' Ht Hh.
  exact (sys_restart C ps we rt ok n c0 cs0 st ctr Hi Hc snap0 reads0 s0 Hs ls s s1 snap ls' s' h Hr Hf Hr' Ht Hh
           n' rs0 rtr rs reads sr).
Qed.
Print Assumptions C27_restart_recovers.
Example C27_restart_recovers_example :
  ∃ s0 ls s rs0 rtr rs reads sr,
    CacheSys.init 2%nat s0 ∅ ∧ JournalSys.initialize num_codec true (JournalSys.mkState xj0 s0) s0 xsnap0 ∅ ∧
    run (@JournalSys.next geo num_codec true true true) (JournalSys.mkState xj0 s0) ls (JournalSys.mkState xj2 s) ∧
    @JournalSys.next geo num_codec true true true (JournalSys.mkState xj2 s) (JournalSys.mkState xj2 s)
      (JournalSys.FreezeForCommit xsnap) ∧
    run (@JournalSys.next geo num_codec true true true) (JournalSys.mkState xj2 s) [JournalSys.Put jm1]
      (JournalSys.mkState xj3 s) ∧
    truncates_below 0 [JournalSys.Put jm1] ∧
    CacheSys.init 2%nat rs0 (AsyncDisk.content (CacheSys.disk s)) ∧ run (@CacheSys.next geo true 2%nat) rs0 rtr rs ∧
    reads_only rtr ∧ JournalSys.initialize num_codec true sr rs xsnap reads.
Proof. exact x_all. Qed.

(** And it can be started, as soon as the pages a reader visits are in the cache. *)
Theorem C27_restart_is_possible `{Geometry} C ps we n c0 cs0 st ctr snap0 reads0 s0 ls s s1 snap ls' s' :
  codec_round_trip C → we = true ∨ ps = false →
  CacheSys.init n cs0 c0 → run (CacheSys.next true n) cs0 ctr st →
  JournalSys.initialize C true s0 st snap0 reads0 →
  run (JournalSys.next C true ps we) s0 ls s →
  JournalSys.next C true ps we s s1 (JournalSys.FreezeForCommit snap) →
  run (JournalSys.next C true ps we) s1 ls' s' → truncates_below (snap_boundary snap) ls' →
  ∃ X, visits C (page_saved (JournalSys.store s')) snap X ∧
    ∀ n' rs0 rtr rs,
      CacheSys.init n' rs0 (AsyncDisk.content (CacheSys.disk (JournalSys.store s'))) →
      run (CacheSys.next true n') rs0 rtr rs → reads_only rtr → loaded (CacheSys.cache rs) X →
      ∃ reads sr, JournalSys.initialize C true sr rs snap reads.
Proof.
  intros rt ok Hi Hc Hs.
  exact (sys_restart_possible C ps we rt ok n c0 cs0 st ctr Hi Hc snap0 reads0 s0 Hs ls s s1 snap ls' s').
Qed.
Print Assumptions C27_restart_is_possible.
Example C27_restart_is_possible_example :
  (∃ s0 ls s, CacheSys.init 2%nat s0 ∅ ∧
    JournalSys.initialize num_codec true (JournalSys.mkState xj0 s0) s0 xsnap0 ∅ ∧
    run (@JournalSys.next geo num_codec true true true) (JournalSys.mkState xj0 s0) ls (JournalSys.mkState xj2 s) ∧
    @JournalSys.next geo num_codec true true true (JournalSys.mkState xj2 s) (JournalSys.mkState xj2 s)
      (JournalSys.FreezeForCommit xsnap)) ∧
  ∃ rs0 rs, CacheSys.init 2%nat rs0 {[pg := xd]} ∧
    run (@CacheSys.next geo true 2%nat) rs0 [CacheSys.Internal; CacheSys.Internal; CacheSys.Internal] rs ∧
    loaded (CacheSys.cache rs) {[pg]}.
Proof.
  split; [|exact x_reload]. destruct x_all as (s0&ls&s&_&_&_&_&_&Hi&Hj&Hr&Hf&_). exists s0, ls, s.
  exact (conj Hi (conj Hj (conj Hr Hf))).
Qed.

(** As written no message can be added: a put of a message is refused. *)
Theorem C27_put_refuted :
  ¬ (∀ (G : Geometry) C strict s m, mh_wf m →
      seq_start m = seq_end (CachedJournal.unmarshalled_tail (JournalSys.journal s)) →
      ∃ s', JournalSys.next C strict false false s s' (JournalSys.Put m)).
Proof.
  intros HF. destruct x_init as (s0&_). destruct (HF geo num_codec true (JournalSys.mkState xj0 s0) jm0) as [s' Hn].
  - apply Abs_Proof.singleton_wf.
  - reflexivity.
  - destruct (put_stores_nothing _ _ _ _ _ _ Hn) as [Hm _]. discriminate Hm.
Qed.
Print Assumptions C27_put_refuted.

(** With puts repaired alone, a truncation is accepted whose stated end is not the
    end of the log, so the journal does not behave as the log. *)
Theorem C27_truncation_end_refuted :
  ¬ (∀ (G : Geometry) C n c0 cs0 st ctr snap reads s0 tr s,
      codec_round_trip C →
      CacheSys.init n cs0 c0 → run (CacheSys.next true n) cs0 ctr st →
      JournalSys.initialize C true s0 st snap reads →
      run (observed (JournalSys.next C true true false)) s0 tr s →
      ∃ h0 a0 als a, snapshot_holds C (page_now st) snap h0 ∧ AbstractJournal.initialize a0 h0 ∧
        run AbstractJournal.next a0 als a ∧ Forall2 (sys_event C) tr als).
Proof.
  intros HF. destruct x_init as (s0&Hi&_&Hj).
  destruct (HF geo num_codec 2 ∅ s0 s0 [] xsnap0 ∅ (JournalSys.mkState xj0 s0)
    [(JournalSys.mkState xj0 s0, JournalSys.Put jm0); (JournalSys.mkState xj1 s0, JournalSys.DiscardOld 0 0)]
    (JournalSys.mkState xj1 s0) num_codec_ok Hi (run_nil _ _) Hj) as (h0&a0&als&a&Hh&Ha&Hr&Hev).
  - eapply run_cons; [exact (conj eq_refl (x_put false s0))|].
    eapply run_cons; [exact (conj eq_refl (x_discard s0))|]. constructor.
  - inversion Hev as [|? al1 ? als1 He1 Hev1]; subst. inversion Hev1 as [|? al2 ? als2 He2 Hev2]; subst.
    inversion Hev2; subst. exact (x_no_log _ _ _ _ _ _ Hh Ha Hr He1 He2).
Qed.
Print Assumptions C27_truncation_end_refuted.

(** Finding: the code assumes that every record can be read back from the page it
    was written to. If there are finitely many pages (as there are for pages of a
    fixed size), no encoding does that. So the theorems above are about journals
    that only write records that fit, and ask the encoding for those. *)
Theorem C27_every_record_refuted (C : PageCodec) (pages : list RawPage) :
  (∀ r, record_to_raw_page r ∈ pages) → (∀ r, record_fits r) → ¬ codec_round_trip C.
Proof. exact (finite_pages C pages). Qed.
Print Assumptions C27_every_record_refuted.
Example C27_every_record_refuted_example :
  (∀ r, @record_to_raw_page const_codec r ∈ [[] : RawPage]) ∧ (∀ r, @record_fits const_codec r).
Proof. exact (conj (λ r, elem_of_list_here [] []) (λ r, Logic.I)). Qed.
