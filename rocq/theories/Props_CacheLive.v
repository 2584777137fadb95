(** C52: the page cache never gets stuck. *)
From Verif Require Import Spec_Model Disk_Model Cache_Model Cache_Spec Cache_Live Cache_Example CacheLive_Example.
Open Scope nat_scope.

(** Whatever is in flight, any pages of the disk that are not more than the slots
    that can be used can be brought into the cache by steps of the cache and the
    disk alone, all together, to be read and written by one access. *)
Theorem C52_pages_can_be_held_together `{Geometry} n c0 s0 tr s (X : gset Address) (K : gset Slot) :
  CacheSys.init n s0 c0 → run (CacheSys.next true n) s0 tr s →
  (∀ a, a ∈ X → addr_wf a ∧ not_reserved (CacheSys.cache s) a) →
  (∀ k, k ∈ K → usable (CacheSys.cache s) k) → size X ≤ size K →
  ∃ ls s' reads, only_internal ls ∧ run (CacheSys.next true n) s ls s' ∧ dom reads = X ∧
    ∀ writes, dom writes ⊆ X → ∃ s'', CacheSys.next true n s' s'' (CacheSys.Access reads writes).
Proof. exact (cache_can_hold n c0 s0 tr s X K). Qed.
Print Assumptions C52_pages_can_be_held_together.
Example C52_pages_can_be_held_together_example :
  ∃ s0 tr s, CacheSys.init (from_zero 3) s0 c0 ∧ run (@CacheSys.next geo true (from_zero 3)) s0 tr s ∧
    (∃ k, slot_holds (CacheSys.cache s) k pg [1%N] ∧ Cache.status_map (CacheSys.cache s) !! k = Some Dirty) ∧
    (∀ a, a ∈ three → @addr_wf geo a ∧ not_reserved (CacheSys.cache s) a) ∧
    (∀ k, k ∈ slots012 → @usable geo (CacheSys.cache s) k) ∧ size three ≤ size slots012.
Proof. exact usable_example. Qed.

(** A page for which a slot is reserved can be written at once, and then its slot
    can be used like any other. *)
Theorem C52_reservations_can_be_used `{Geometry} n c0 s0 tr s a k d :
  CacheSys.init n s0 c0 → run (CacheSys.next true n) s0 tr s →
  Cache.entries (CacheSys.cache s) !! k = Some (Reserved a) →
  ∃ s', CacheSys.next true n s s' (CacheSys.Access ∅ {[a := d]}) ∧ (addr_wf a → usable (CacheSys.cache s') k).
Proof. exact (cache_reserved n c0 s0 tr s a k d). Qed.
Print Assumptions C52_reservations_can_be_used.
Example C52_reservations_can_be_used_example :
  ∃ s0 s, CacheSys.init (from_zero 1) s0 c0 ∧ run (@CacheSys.next geo true (from_zero 1)) s0 [CacheSys.Internal] s ∧
    Cache.entries (CacheSys.cache s) !! 0%Z = Some (Reserved other).
Proof. exact reserved_example. Qed.

(** A slot that is reserved is lost until that write comes: the cache reserves a
    slot by a step of its own, and has none to withdraw the reservation. *)
Theorem C52_reserved_slots_refuted :
  ¬ (∀ (G : Geometry) n c0 s0 tr s a,
      CacheSys.init (from_zero n) s0 c0 → run (CacheSys.next true (from_zero n)) s0 tr s → 0 < n →
      addr_wf a → not_reserved (CacheSys.cache s) a →
      ∃ ls s' d, only_internal ls ∧ run (CacheSys.next true (from_zero n)) s ls s' ∧
        CacheSys.next true (from_zero n) s' s' (CacheSys.Access {[a := d]} ∅)).
Proof.
  intros HF. destruct reserved_stuck as (s0 & s & Hi & Hr & Hn & Hno).
  destruct (HF geo 1 c0 s0 _ s pg Hi Hr (le_n 1) pg_wf Hn) as (ls & s' & d & Hl & Hr' & Hx).
  exact (Hno ls s' s' d Hl Hr' Hx).
Qed.
Print Assumptions C52_reserved_slots_refuted.

(** So is a slot for a page that the disk does not have: the cache starts to load
    any address, and the disk never answers. *)
Theorem C52_missing_pages_refuted :
  ¬ (∀ (G : Geometry) n c0 s0 tr s a,
      CacheSys.init (from_zero n) s0 c0 → run (CacheSys.next true (from_zero n)) s0 tr s → 0 < n →
      addr_wf a → (∀ b, not_reserved (CacheSys.cache s) b) →
      ∃ ls s' d, only_internal ls ∧ run (CacheSys.next true (from_zero n)) s ls s' ∧
        CacheSys.next true (from_zero n) s' s' (CacheSys.Access {[a := d]} ∅)).
Proof.
  intros HF. destruct loading_stuck as (s0 & s & Hi & Hr & Hn & Hno).
  destruct (HF geo 1 c0 s0 _ s pg Hi Hr (le_n 1) pg_wf Hn) as (ls & s' & d & Hl & Hr' & Hx).
  exact (Hno ls s' s' d Hl Hr' Hx).
Qed.
Print Assumptions C52_missing_pages_refuted.
