(** C53: the journal in the page cache can always make its records durable, and be
    started again. The journal and the cache are those of C27, with its repairs; a
    slot is [usable] if it is neither reserved nor loading a page the disk does not
    have, and [background] events are those no client asked for (C52). *)
From Verif Require Import Abs_Model Spec_Model Spec_Proof Journal_Model Journal_Spec Journal_Example AllocJournal_Model
  Disk_Model Cache_Model Cache_Spec Cache_Live Cache_Example CachedJournal_Model CachedJournal_Spec CachedFacts_Proof
  CachedJournal_Example CachedLive_Proof CachedLive_Example.
Open Scope nat_scope.

(** At any moment, whatever is in flight, one usable slot is enough: background work
    alone leads to a freeze of the whole history, tail included, all of it on the
    disk. If the tail can be cut into pieces that fit a page each, as many pages
    outside the journal must exist, and the cache must not hold a reservation for a
    page of the journal. *)
Theorem C53_can_freeze `{Geometry} C ps we n c0 cs0 st ctr snap0 reads0 s0 ls s k h :
  codec_round_trip C → we = true ∨ ps = false →
  CacheSys.init n cs0 c0 → run (CacheSys.next true n) cs0 ctr st →
  JournalSys.initialize C true s0 st snap0 reads0 →
  run (JournalSys.next C true ps we) s0 ls s →
  (∀ a, journal_page s a → addr_wf a ∧ not_reserved (CacheSys.cache (JournalSys.store s)) a) →
  usable (CacheSys.cache (JournalSys.store s)) k →
  (∃ m (X : gset Address), cut_in C (CachedJournal.unmarshalled_tail (JournalSys.journal s)) m ∧ m ≤ size X ∧
     ∀ a, a ∈ X → addr_wf a ∧ ¬ journal_page s a) →
  sys_journal_is C s h →
  ∃ ls' s' snap, background ls' ∧ run (JournalSys.next C true ps we) s ls' s' ∧
    JournalSys.next C true ps we s' s' (JournalSys.FreezeForCommit snap) ∧
    snapshot_holds C (page_now (JournalSys.store s')) snap h ∧
    snapshot_holds C (page_saved (JournalSys.store s')) snap h.
Proof.
  intros rt ok Hi Hc Hs. exact (sys_can_freeze C ps we rt ok n c0 cs0 st ctr Hi Hc snap0 reads0 s0 Hs ls s k h).
Qed.
Print Assumptions C53_can_freeze.
Example C53_can_freeze_example :
  ∃ s0, CacheSys.init 2%nat s0 ∅ ∧ JournalSys.initialize num_codec true (JournalSys.mkState xj0 s0) s0 xsnap0 ∅ ∧
    run (@JournalSys.next geo num_codec true true true) (JournalSys.mkState xj0 s0) [JournalSys.Put jm0]
      (JournalSys.mkState xj1 s0) ∧
    (∀ a, journal_page (JournalSys.mkState xj1 s0) a → @addr_wf geo a ∧ not_reserved (CacheSys.cache s0) a) ∧
    @usable geo (CacheSys.cache s0) 0%Z ∧
    (cut_in num_codec xtail 1 ∧ 1 ≤ size ({[pg]} : gset Address) ∧
     ∀ a, a ∈ ({[pg]} : gset Address) → @addr_wf geo a ∧ ¬ journal_page (JournalSys.mkState xj1 s0) a) ∧
    sys_journal_is num_codec (JournalSys.mkState xj1 s0) (mh_concat (empty_history_at 0) xtail) ∧ xtail = jm0.
Proof. exact live_example. Qed.

(** After a crash at any moment after the freeze, a new cache of any size that the
    pages of the snapshot fit into loads them by its own work, the journal starts on
    it, and it holds the frozen history. *)
Theorem C53_can_restart `{Geometry} C ps we n c0 cs0 st ctr snap0 reads0 s0 ls s s1 snap ls' s' :
  codec_round_trip C → we = true ∨ ps = false →
  CacheSys.init n cs0 c0 → run (CacheSys.next true n) cs0 ctr st →
  JournalSys.initialize C true s0 st snap0 reads0 →
  run (JournalSys.next C true ps we) s0 ls s →
  JournalSys.next C true ps we s s1 (JournalSys.FreezeForCommit snap) →
  run (JournalSys.next C true ps we) s1 ls' s' → truncates_below (snap_boundary snap) ls' →
  ∃ X, visits C (page_saved (JournalSys.store s')) snap X ∧
    ∀ (n' : nat) rs0,
      CacheSys.init (from_zero n') rs0 (AsyncDisk.content (CacheSys.disk (JournalSys.store s'))) →
      (Z.of_nat n' ≤ slot_max + 1)%Z → (∀ a, a ∈ X → addr_wf a) → size X ≤ n' →
      ∃ rtr rs reads sr, only_internal rtr ∧ run (CacheSys.next true (from_zero n')) rs0 rtr rs ∧
        JournalSys.initialize C true sr rs snap reads ∧
        ∀ h, snapshot_holds C (page_now (JournalSys.store s)) snap h → sys_journal_is C sr h.
Proof.
  intros rt ok Hi Hc Hs. exact (sys_can_restart C ps we rt ok n c0 cs0 st ctr Hi Hc snap0 reads0 s0 Hs ls s s1 snap ls' s').
Qed.
Print Assumptions C53_can_restart.
Example C53_can_restart_example :
  ∃ s0 ls s, CacheSys.init 2%nat s0 ∅ ∧
    JournalSys.initialize num_codec true (JournalSys.mkState xj0 s0) s0 xsnap0 ∅ ∧
    run (@JournalSys.next geo num_codec true true true) (JournalSys.mkState xj0 s0) ls s ∧
    @JournalSys.next geo num_codec true true true s s (JournalSys.FreezeForCommit (sys_snapshot s)) ∧
    (∀ a, journal_page s a → @addr_wf geo a) ∧
    visits num_codec (page_saved (JournalSys.store s)) (sys_snapshot s) two_pages ∧
    (∀ a, a ∈ two_pages → @addr_wf geo a) ∧ size two_pages ≤ 2.
Proof.
  destruct two_pages_example as (s0 & ls & s & H1 & H2 & H3 & H4 & H5 & H6). exists s0, ls, s.
  exact (conj H1 (conj H2 (conj H3 (conj H4 (conj H5 (conj H6 (conj two_pages_wf two_pages_size))))))).
Qed.

(** The new cache must hold all the pages of the snapshot at once: the journal
    cannot be started on a cache with fewer slots, whatever that cache reads. *)
Theorem C53_restart_needs_room `{Geometry} C (n' : nat) c1 rs0 rtr rs snap reads sr X :
  CacheSys.init (from_zero n') rs0 c1 → run (CacheSys.next true (from_zero n')) rs0 rtr rs → reads_only rtr →
  JournalSys.initialize C true sr rs snap reads →
  visits C (λ a d, c1 !! a = Some d) snap X → size X ≤ n'.
Proof. exact (restart_room C n' c1 rs0 rtr rs snap reads sr X). Qed.
Print Assumptions C53_restart_needs_room.
Example C53_restart_needs_room_example :
  ∃ c1 rs0 rtr rs snap reads sr, CacheSys.init (from_zero 2) rs0 c1 ∧
    run (@CacheSys.next geo true (from_zero 2)) rs0 rtr rs ∧ reads_only rtr ∧
    JournalSys.initialize num_codec true sr rs snap reads ∧ visits num_codec (λ a d, c1 !! a = Some d) snap two_pages.
Proof. exact room_example. Qed.

(** So a journal that was written through a cache of some size cannot be restarted on
    every cache: whatever is read, one with fewer slots than the journal has pages
    will not do. *)
Theorem C53_small_cache_refuted :
  ¬ (∀ (G : Geometry) C n c0 cs0 snap0 reads0 s0 ls s snap (n' : nat) rs0,
      codec_round_trip C → CacheSys.init n cs0 c0 → JournalSys.initialize C true s0 cs0 snap0 reads0 →
      run (JournalSys.next C true true true) s0 ls s →
      JournalSys.next C true true true s s (JournalSys.FreezeForCommit snap) →
      (∀ a, journal_page s a → addr_wf a) → 0 < n' → (Z.of_nat n' ≤ slot_max + 1)%Z →
      CacheSys.init (from_zero n') rs0 (AsyncDisk.content (CacheSys.disk (JournalSys.store s))) →
      ∃ rtr rs reads sr, run (CacheSys.next true (from_zero n')) rs0 rtr rs ∧ reads_only rtr ∧
        JournalSys.initialize C true sr rs snap reads).
Proof. exact small_cache. Qed.
Print Assumptions C53_small_cache_refuted.

(** And a reservation for a page of the journal, which any cache may make, keeps the
    history from ever being frozen, however many slots are free. *)
Theorem C53_reserved_page_refuted :
  ¬ (∀ (G : Geometry) C n c0 cs0 snap0 reads0 s0 ls s k h,
      codec_round_trip C → CacheSys.init n cs0 c0 → JournalSys.initialize C true s0 cs0 snap0 reads0 →
      run (JournalSys.next C true true true) s0 ls s →
      (∀ a, journal_page s a → addr_wf a) → usable (CacheSys.cache (JournalSys.store s)) k →
      mh_is_empty (CachedJournal.unmarshalled_tail (JournalSys.journal s)) → sys_journal_is C s h →
      ∃ ls' s' s'' snap, background ls' ∧ run (JournalSys.next C true true true) s ls' s' ∧
        JournalSys.next C true true true s' s'' (JournalSys.FreezeForCommit snap) ∧
        snapshot_holds C (page_saved (JournalSys.store s')) snap h).
Proof.
  intros HF. destruct blocked_example as (s0&ls&s&h&Hi&Hj&Hr&Hw&Hu&Ht&Hh&Hno).
  destruct (HF geo num_codec 2%nat _ _ _ _ _ _ _ _ _ num_codec_ok Hi Hj Hr Hw Hu Ht Hh) as (ls'&s'&s''&snap&Hb&Hr'&Hf&Hs).
  exact (Hno _ _ _ _ Hb Hr' Hf Hs).
Qed.
Print Assumptions C53_reserved_page_refuted.
