(** A concrete store that waits for a sync (C50). *)
From Verif Require Import Spec_Model Spec_Proof Abs_Model Journal_Model AllocJournal_Model AllocJournal_Example
  CrashJournal_Model CrashJournal_Example JournalLive_Spec JournalLive_Example Store_Model Store_Example StoreLive_Spec.

Local Existing Instance exg.
Lemma waiting_example : Store.init ex_s0 ∧ run Store.next ex_s0 waiting_trace ex_waiting ∧
  Store.ephemeral ex_waiting = Some ex_e4 ∧ CoordSys.sync_reqs ex_e4 !! 8%N = Some 3 ∧
  @journal_room exg SharedPages (Store.journal ex_waiting).
Proof.
  split; [done|]. split; [exact store_waits|]. split; [done|]. split; [done|].
  exists ce6. split; [done|]. left. apply ema2_room.
Qed.
