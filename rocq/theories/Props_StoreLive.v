(** C50: a sync of the assembled store can always be carried through, as long as
    the device has room for one more journal page. *)
From Verif Require Import Spec_Model Spec_Spec Abs_Model Abs_Spec Journal_Model AllocJournal_Model AllocJournal_Example
  Store_Model Store_Example StoreLive_Spec Store_Live StoreLive_Example.

(** From every reachable state in which a sync is awaited, whatever the tree and
    whatever the pages of the journal, steps the store takes on its own lead to a
    state where it confirms that sync. *)
Theorem C50_assembled_store_can_sync `{Geometry} p t (s0 : Store.State (journal_layer p) (tree_layer t)) ls s e id lsn :
  Store.init s0 → run Store.next s0 ls s → Store.ephemeral s = Some e → CoordSys.sync_reqs e !! id = Some lsn →
  journal_room p (Store.journal s) →
  ∃ ls' s', run Store.next s (ls' ++ [CTAM.ReplySyncOp id]) s' ∧ Forall background ls'.
Proof. exact (store_can_sync p t s0 ls s e id lsn). Qed.
Print Assumptions C50_assembled_store_can_sync.

Local Existing Instance exg.
(** Three puts, one of them in memory only, the tree frozen after the second. *)
Example C50_example : Store.init ex_s0 ∧ run Store.next ex_s0 waiting_trace ex_waiting ∧
  Store.ephemeral ex_waiting = Some ex_e4 ∧ CoordSys.sync_reqs ex_e4 !! 8%N = Some 3 ∧
  journal_room SharedPages (Store.journal ex_waiting).
Proof. exact waiting_example. Qed.
