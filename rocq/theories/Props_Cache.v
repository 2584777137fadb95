(** Properties of the page cache over the disk (C26, C38). [CacheSys.next true] is
    the cache whose write back batches hold no page twice; [CacheSys.next false] is
    the code as written. *)
From Verif Require Import Spec_Model Spec_Proof Disk_Model Cache_Model Cache_Spec Cache_Proof Cache_Example.
Open Scope Z_scope.

(** ** C26: no page content is lost or mixed up *)
(** Whatever a client reads from a page, at any point of any history with crashes,
    is what the page may hold there: the last write to it that no crash could
    have taken away (or, for a page that may never have been written, anything). *)
Theorem C26_reads_what_the_page_holds `{Geometry} n c0 s0 tr s j reads writes a d :
  CacheSys.init n s0 c0 → run (CacheSys.next true n) s0 tr s →
  tr !! j = Some (CacheSys.Access reads writes) → reads !! a = Some d →
  may_hold c0 tr j a d ∨ may_be_unwritten c0 tr j a.
Proof. exact (cache_reads n c0 s0 tr s j reads writes a d). Qed.
Print Assumptions C26_reads_what_the_page_holds.
Example C26_reads_what_the_page_holds_example :
  ∃ s0 s, CacheSys.init 2%nat s0 c0 ∧ run (@CacheSys.next geo true 2%nat) s0 (good_trace ++ [rd [1%N]]) s.
Proof. exact good_run. Qed.

(** Without crashes it is exactly the last write. *)
Theorem C26_reads_last_write `{Geometry} n c0 s0 tr s reads writes s' a d :
  CacheSys.init n s0 c0 → run (CacheSys.next true n) s0 tr s → CacheSys.Crash ∉ tr →
  CacheSys.next true n s s' (CacheSys.Access reads writes) → reads !! a = Some d →
  ∀ d', page_after c0 tr a = Some d' → d = d'.
Proof. exact (cache_reads_calm n c0 s0 tr s reads writes s' a d). Qed.
Print Assumptions C26_reads_last_write.
Example C26_reads_last_write_example :
  ∃ s0 s, CacheSys.init 2%nat s0 c0 ∧ run (@CacheSys.next geo true 2%nat) s0 calm_trace s ∧
    CacheSys.Crash ∉ calm_trace ∧ @CacheSys.next geo true 2%nat s s (rd [1%N]) ∧
    page_after c0 calm_trace pg = Some [1%N].
Proof.
  destruct calm_ex as (s0 & s & Hi & Hr & Hn & _). exists s0, s. split; [exact Hi|]. split; [exact Hr|].
  split; [exact calm_no_crash|]. split; [exact Hn|reflexivity].
Qed.

(** The lookup table finds exactly the slots that hold a page, and no two slots
    hold the same page. *)
Theorem C26_one_slot_per_page `{Geometry} n c0 s0 tr s :
  CacheSys.init n s0 c0 → run (CacheSys.next true n) s0 tr s →
  (∀ a k, Cache.lookup_map (CacheSys.cache s) !! a = Some k ↔ slot_for (CacheSys.cache s) k a) ∧
  (∀ k1 k2 a, slot_for (CacheSys.cache s) k1 a → slot_for (CacheSys.cache s) k2 a → k1 = k2).
Proof. exact (cache_slots n c0 s0 tr s). Qed.
Print Assumptions C26_one_slot_per_page.
Example C26_one_slot_per_page_example :
  ∃ s0 s, CacheSys.init 2%nat s0 c0 ∧ run (@CacheSys.next geo true 2%nat) s0 calm_trace s.
Proof. destruct calm_ex as (s0 & s & Hi & Hr & _). exists s0, s. exact (conj Hi Hr). Qed.

(** A page on its way to the disk has the content its slot holds now, and there is
    only one write of a page on its way. *)
Theorem C26_writes_back_the_latest `{Geometry} n c0 s0 tr s id a d :
  CacheSys.init n s0 c0 → run (CacheSys.next true n) s0 tr s →
  AsyncDisk.requests (CacheSys.disk s) !! id = Some (WriteReq a d) →
  (∃ k, slot_holds (CacheSys.cache s) k a d) ∧
  (∀ id' d', AsyncDisk.requests (CacheSys.disk s) !! id' = Some (WriteReq a d') → id' = id).
Proof. exact (cache_writeback n c0 s0 tr s id a d). Qed.
Print Assumptions C26_writes_back_the_latest.
Example C26_writes_back_the_latest_example :
  ∃ s0 s, CacheSys.init 2%nat s0 c0 ∧ run (@CacheSys.next geo true 2%nat) s0 calm_trace s ∧
    AsyncDisk.requests (CacheSys.disk s) !! 1%N = Some (WriteReq pg [1%N]).
Proof. destruct calm_ex as (s0 & s & Hi & Hr & _ & Hq). exists s0, s. exact (conj Hi (conj Hr Hq)). Qed.

(** A page on the disk only changes to the content last written to it. *)
Theorem C26_disk_gets_the_latest `{Geometry} n c0 s0 tr s s' l a :
  CacheSys.init n s0 c0 → run (CacheSys.next true n) s0 tr s → CacheSys.Crash ∉ tr → CacheSys.next true n s s' l →
  AsyncDisk.content (CacheSys.disk s') !! a = AsyncDisk.content (CacheSys.disk s) !! a ∨
  AsyncDisk.content (CacheSys.disk s') !! a = page_after c0 tr a.
Proof. exact (cache_disk_changes n c0 s0 tr s s' l a). Qed.
Print Assumptions C26_disk_gets_the_latest.
Example C26_disk_gets_the_latest_example :
  ∃ s0 s, CacheSys.init 2%nat s0 c0 ∧ run (@CacheSys.next geo true 2%nat) s0 calm_trace s ∧
    CacheSys.Crash ∉ calm_trace ∧ ∃ s' l, @CacheSys.next geo true 2%nat s s' l.
Proof.
  destruct calm_ex as (s0 & s & Hi & Hr & Hn & _). exists s0, s. split; [exact Hi|]. split; [exact Hr|].
  split; [exact calm_no_crash|]. exists s, (rd [1%N]). exact Hn.
Qed.

(** A page only leaves the cache when it is clean and the disk has its content. *)
Theorem C26_evicts_only_clean_pages `{Geometry} n c0 s0 tr s s' l k a d :
  CacheSys.init n s0 c0 → run (CacheSys.next true n) s0 tr s → CacheSys.next true n s s' l →
  slot_holds (CacheSys.cache s) k a d → ¬ slot_for (CacheSys.cache s') k a → l ≠ CacheSys.Crash →
  Cache.status_map (CacheSys.cache s) !! k = Some Clean ∧
  ∀ d', AsyncDisk.content (CacheSys.disk s) !! a = Some d' → d' = d.
Proof. exact (cache_evicts_clean n c0 s0 tr s s' l k a d). Qed.
Print Assumptions C26_evicts_only_clean_pages.
Example C26_evicts_only_clean_pages_example :
  ∃ s0 tr s s', CacheSys.init 2%nat s0 c0 ∧ run (@CacheSys.next geo true 2%nat) s0 tr s ∧
    @CacheSys.next geo true 2%nat s s' CacheSys.Internal ∧
    slot_holds (CacheSys.cache s) 0 pg [0%N] ∧ ¬ slot_for (CacheSys.cache s') 0 pg.
Proof. exact evict_ex. Qed.

(** Any page can be cleaned, whatever is in flight, unless a slot is reserved for a
    write to it that has not come yet. *)
Theorem C26_pages_can_be_cleaned `{Geometry} n c0 s0 tr s a :
  CacheSys.init n s0 c0 → run (CacheSys.next true n) s0 tr s → addr_wf a →
  (∀ k, Cache.entries (CacheSys.cache s) !! k ≠ Some (Reserved a)) →
  ∃ ls s', only_internal ls ∧ run (CacheSys.next true n) s ls s' ∧
    CacheSys.next true n s' s' (CacheSys.EvictableCheck {[a]}).
Proof. exact (cache_can_clean n c0 s0 tr s a). Qed.
Print Assumptions C26_pages_can_be_cleaned.
Example C26_pages_can_be_cleaned_example :
  ∃ s0, CacheSys.init 2%nat s0 c0 ∧ @addr_wf geo pg ∧
    ∀ k, Cache.entries (CacheSys.cache s0) !! k ≠ Some (Reserved pg).
Proof.
  destruct ex_init as (s0 & Hi & _). exists s0. split; [exact Hi|]. split; [exact pg_wf|].
  intros k. destruct Hi as [(E & _) _]. rewrite E. by destruct (decide _).
Qed.

(** Any page that is not cached can be loaded into an empty slot and read. *)
Theorem C26_pages_can_be_loaded `{Geometry} n c0 s0 tr s a k :
  CacheSys.init n s0 c0 → run (CacheSys.next true n) s0 tr s → addr_wf a →
  (∀ k', ¬ slot_for (CacheSys.cache s) k' a) → slot_empty (CacheSys.cache s) k →
  ∃ ls s' d, only_internal ls ∧ run (CacheSys.next true n) s ls s' ∧
    CacheSys.next true n s' s' (CacheSys.Access {[a := d]} ∅).
Proof. exact (cache_can_load n c0 s0 tr s a k). Qed.
Print Assumptions C26_pages_can_be_loaded.
Example C26_pages_can_be_loaded_example :
  ∃ s0, CacheSys.init 2%nat s0 c0 ∧ @addr_wf geo pg ∧
    (∀ k', ¬ slot_for (CacheSys.cache s0) k' pg) ∧ slot_empty (CacheSys.cache s0) 0.
Proof.
  destruct ex_init as (s0 & Hi & W). exists s0. split; [exact Hi|]. split; [exact pg_wf|].
  split; [|exact (proj1 W)]. intros k' (e & He & Ha). destruct Hi as [(E & _) _]. rewrite E in He.
  destruct (decide _); [|done]. injection He as <-. done.
Qed.

(** As written, a page that was written, written back and checked can come back
    with older content, with no crash at all. *)
Theorem C26_as_written_refuted :
  ¬ (∀ (G : Geometry) n c0 s0 tr s reads writes s' a d,
      CacheSys.init n s0 c0 → run (CacheSys.next false n) s0 tr s → CacheSys.Crash ∉ tr →
      CacheSys.next false n s s' (CacheSys.Access reads writes) → reads !! a = Some d →
      ∀ d', page_after c0 tr a = Some d' → d = d').
Proof.
  intros HF. destruct lost_run as (s0 & s & s' & Hi & Hr & Hn).
  discriminate (HF geo 2%nat c0 s0 lost_trace s _ _ s' pg [1%N] Hi Hr lost_no_crash Hn eq_refl [2%N] eq_refl).
Qed.
Print Assumptions C26_as_written_refuted.

(** The invariant the code declares for the cache is not preserved. *)
Theorem C26_declared_invariant_refuted :
  ¬ (∀ strict c c' l, Cache.inv c → Cache.next strict c c' l → Cache.inv c').
Proof.
  intros HF. destruct (reserve_breaks true) as (c & c' & _ & Hi & Hn & Hb). exact (Hb (HF _ _ _ _ Hi Hn)).
Qed.
Print Assumptions C26_declared_invariant_refuted.

(** ** C38: a cache of [n] slots holds at most [n] pages *)
(** With the slots numbered from zero. *)
Theorem C38_capacity `{Geometry} (n : nat) c0 s0 tr s X :
  CacheSys.init (from_zero n) s0 c0 → run (CacheSys.next true (from_zero n)) s0 tr s → in_cache (CacheSys.cache s) X →
  (size X ≤ n)%nat.
Proof. exact (cache_capacity_zero n c0 s0 tr s X). Qed.
Print Assumptions C38_capacity.
(** As written, slots are signed 32-bit numbers and the negative ones count too, so
    what holds is a bound 2^31 larger. *)
Theorem C38_capacity_as_written `{Geometry} (n : nat) c0 s0 tr s X :
  CacheSys.init n s0 c0 → run (CacheSys.next true n) s0 tr s → in_cache (CacheSys.cache s) X →
  Z.of_nat (size X) ≤ Z.of_nat n + 2147483648.
Proof. exact (cache_capacity_written n c0 s0 tr s X). Qed.
Print Assumptions C38_capacity_as_written.
Example C38_capacity_example :
  (∃ s0 s, CacheSys.init (from_zero 3) s0 c0 ∧ run (@CacheSys.next geo true (from_zero 3)) s0 [CacheSys.Internal] s ∧
    in_cache (CacheSys.cache s) three) ∧
  (∃ s0 s, CacheSys.init 2%nat s0 c0 ∧ run (@CacheSys.next geo true 2%nat) s0 [CacheSys.Internal] s ∧
    in_cache (CacheSys.cache s) three).
Proof. exact (conj (three_in_three true) (three_in_two true)). Qed.

Theorem C38_capacity_refuted :
  ¬ (∀ (G : Geometry) strict (n : nat) c0 s0 tr s X,
      CacheSys.init n s0 c0 → run (CacheSys.next strict n) s0 tr s → in_cache (CacheSys.cache s) X →
      (size X ≤ n)%nat).
Proof.
  intros HF. destruct (three_in_two false) as (s0 & s & Hi & Hr & HX).
  specialize (HF geo false 2%nat c0 s0 _ s three Hi Hr HX). vm_compute in HF. lia.
Qed.
Print Assumptions C38_capacity_refuted.
