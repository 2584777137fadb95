(** C59: the store assembled from a journal and the be-tree whose buffers are
    branches. [grow] is as for C42 and C43; the queries of branches are corrected. *)
From Verif Require Import Spec_Model Spec_Spec Abs_Model Abs_Spec Betree_Model Betree_Spec BranchBetree_Model BranchBetree_Spec
  Journal_Model Journal_Spec AllocJournal_Model AllocJournal_Example Store_Model Store_Spec StoreLive_Spec Store_Proof Store_Boot Store_Live Store_Answer
  Store_Example StoreAnswer_Example BranchStore_Model BranchStore_Spec BranchStore_Proof BranchStore_Example.

(** What clients see is what a crash-tolerant map allows. *)
Theorem C59_branch_store_allowed `{Geometry} p grow (s0 : Store.State (journal_layer p) (branch_layer grow)) ls s :
  Store.init s0 → run Store.next s0 ls s →
  (∃ m, run CTAM.next CTAM.init ls m) ∧ ∃ logs, explained ls logs ∧ syncs_durable ls logs.
Proof. exact (store_allowed (pages_ok p) (branch_ok grow) s0 ls s). Qed.
Print Assumptions C59_branch_store_allowed.

(** After a crash the disk holds the writes of a log that explains the run and has
    lost no synced write, whatever compactions and half-built branches there were.
    No recovery leads to another answer, and some recovery answers every key. *)
Theorem C59_branch_store_recovers `{Geometry} p grow (s0 : Store.State (journal_layer p) (branch_layer grow)) ls s :
  Store.init s0 → run Store.next s0 ls s → Store.ephemeral s = None →
  ∃ logs log, explained ls logs ∧ syncs_durable ls logs ∧ logs !! length ls = Some log ∧
    (∃ base l, layer_on_disk p (branch_layer grow) branch_answers s base l) ∧
    (∀ base l, layer_on_disk p (branch_layer grow) branch_answers s base l → ∀ k, after l k (base k) = Define (last_write k log)) ∧
    (∀ ls' s' k v, run layer_boot_step s ls' s' → layer_can_reply s' k v → v = last_write k log) ∧
    ∃ ls' s', run layer_boot_step s ls' s' ∧ ∀ k, layer_can_reply s' k (last_write k log).
Proof. exact (layer_recovers p (branch_ok grow) s0 ls s). Qed.
Print Assumptions C59_branch_store_recovers.

(** Every query and put that waits can be answered. *)
Theorem C59_branch_store_can_answer `{Geometry} p grow (s0 : Store.State (journal_layer p) (branch_layer grow)) ls s e req :
  Store.init s0 → run Store.next s0 ls s → Store.ephemeral s = Some e →
  req ∈ requests (CoordSys.progress e) → req_input req ≠ NoopInput →
  (∀ y, y ∈ replies (CoordSys.progress e) → reply_id y ≠ req_id req) →
  ∃ ls' rep s', run Store.next s
      (ls' ++ [CTAM.OperateOp (AsyncMap.ExecuteOp req rep); CTAM.OperateOp (AsyncMap.ReplyOp rep)]) s' ∧
    Forall background ls' ∧ reply_id rep = req_id req.
Proof. exact (layer_can_answer p (branch_ok grow) s0 ls s e req). Qed.
Print Assumptions C59_branch_store_can_answer.

(** Every sync that is awaited can be carried through, as long as the journal has
    room for one more page and the tree finds three units it does not need. *)
Theorem C59_branch_store_can_sync `{Geometry} p grow (s0 : Store.State (journal_layer p) (branch_layer grow)) ls s e id lsn :
  Store.init s0 → run Store.next s0 ls s → Store.ephemeral s = Some e → CoordSys.sync_reqs e !! id = Some lsn →
  journal_room p (Store.journal s) → (∀ v, TreeMap.ephemeral (Store.mapadt s) = Some v → branch_room v) →
  ∃ ls' s', run Store.next s (ls' ++ [CTAM.ReplySyncOp id]) s' ∧ Forall background ls'.
Proof. exact (layer_can_sync p (branch_ok grow) s0 ls s e id lsn). Qed.
Print Assumptions C59_branch_store_can_sync.

Local Existing Instance exg.
(** Three puts, a branch being built, a sync and a query that wait. *)
Example C59_example : Store.init BranchStoreEx.s0 ∧ run Store.next BranchStoreEx.s0 BranchStoreEx.trace BranchStoreEx.waiting ∧
  Store.ephemeral BranchStoreEx.waiting = Some BranchStoreEx.e_waiting ∧
  CoordSys.sync_reqs BranchStoreEx.e_waiting !! 8%N = Some 3 ∧ @journal_room exg SharedPages (Store.journal BranchStoreEx.waiting) ∧
  TreeMap.ephemeral (Store.mapadt BranchStoreEx.waiting) = Some BranchStoreEx.b4 ∧ branch_room BranchStoreEx.b4 ∧
  ex_get ∈ requests (CoordSys.progress BranchStoreEx.e_waiting) ∧
  (∀ y, y ∈ replies (CoordSys.progress BranchStoreEx.e_waiting) → reply_id y ≠ req_id ex_get).
Proof. exact BranchStoreEx.example. Qed.
(** The same store, after the sync was carried through and the machine crashed. *)
Example C59_example_crashed : ∃ ls (s : Store.State (journal_layer SharedPages) (branch_layer true)),
  run Store.next BranchStoreEx.s0 (BranchStoreEx.trace ++ ls ++ [CTAM.ReplySyncOp 8%N; CTAM.CrashOp]) s ∧ Store.ephemeral s = None.
Proof. exact BranchStoreEx.crashed_example. Qed.
