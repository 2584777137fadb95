(** C49: as long as the device has room for one more journal page, everything in
    memory can be made durable, and the log cut wherever the map asks. *)
From Verif Require Import Abs_Model Spec_Model Spec_Proof Journal_Model Journal_Spec AllocJournal_Model
  CrashJournal_Model CrashJournal_Spec JournalLive_Spec JournalLive_Facts JournalLive_Example
  Journal_Example AllocJournal_Example CrashJournal_Example.

(** From every reachable state, without any help from the client and without a
    crash, the journal reaches a state where it reports everything up to its
    present end as persistent and the persistent image starts at [b]. *)
Theorem C49_alloc_can_sync `{Geometry} (s0 s : AllocCrash.State) (ls : list AllocCrash.Label) (n b : LSN) :
  AllocCrash.init s0 → run AllocCrash.next s0 ls s → alloc_room s →
  AllocCrash.next s s (AllocCrash.QueryEndLsn n) → alloc_durable_from s b → b ≤ n →
  ∃ ls' s', run AllocCrash.next s ls' s' ∧ Forall quiet ls' ∧ AllocCrash.next s' s' (AllocCrash.QueryLsnPersistence n) ∧
    Linked.tj_seq_start (img_tj (AllocCrash.persistent s')) = b.
Proof. exact (own_sync s0 ls s n b). Qed.
Print Assumptions C49_alloc_can_sync.
Theorem C49_can_sync `{Geometry} (s0 s : Unified.State) (ls : list AllocCrash.Label) (n b : LSN) :
  Unified.init s0 → run Unified.next s0 ls s → unified_room s →
  Unified.next s s (AllocCrash.QueryEndLsn n) → unified_durable_from s b → b ≤ n →
  ∃ ls' s', run Unified.next s ls' s' ∧ Forall quiet ls' ∧ Unified.next s' s' (AllocCrash.QueryLsnPersistence n) ∧
    is_boundary (Unified.persistent s') = b.
Proof. exact (shared_sync s0 ls s n b). Qed.
Print Assumptions C49_can_sync.

Local Existing Instance exg.
(** Three puts, two of them on pages, nothing durable yet: the third can be made
    durable while the first two records are dropped. *)
Example C49_alloc_example : ∃ s, AllocCrash.init as0 ∧ run AllocCrash.next as0 (crash_trace1 ++ [AllocCrash.Put jm2]) s ∧
  alloc_room s ∧ AllocCrash.next s s (AllocCrash.QueryEndLsn 3) ∧ alloc_durable_from s 2 ∧ 2 ≤ 3 ∧
  ¬ AllocCrash.next s s (AllocCrash.QueryLsnPersistence 3).
Proof. exact alloc_room_example. Qed.
Example C49_example : ∃ s, Unified.init us0 ∧ run Unified.next us0 (crash_trace1 ++ [AllocCrash.Put jm2]) s ∧
  unified_room s ∧ Unified.next s s (AllocCrash.QueryEndLsn 3) ∧ unified_durable_from s 2 ∧ 2 ≤ 3 ∧
  ¬ Unified.next s s (AllocCrash.QueryLsnPersistence 3).
Proof. exact unified_room_example. Qed.
