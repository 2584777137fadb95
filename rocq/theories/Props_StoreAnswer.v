(** C51: the assembled store can always answer. *)
From Verif Require Import Spec_Model Spec_Spec Abs_Model Abs_Spec Journal_Model AllocJournal_Model AllocJournal_Example
  Store_Model Store_Example Store_Answer StoreAnswer_Example.

(** From every reachable state that holds a query or a put to be executed, also
    while the journal is being replayed, steps the store takes on its own lead to
    a state where it executes that request and delivers the reply. *)
Theorem C51_assembled_store_can_answer `{Geometry} p t (s0 : Store.State (journal_layer p) (tree_layer t)) ls s e req :
  Store.init s0 → run Store.next s0 ls s → Store.ephemeral s = Some e →
  req ∈ requests (CoordSys.progress e) → req_input req ≠ NoopInput →
  (∀ y, y ∈ replies (CoordSys.progress e) → reply_id y ≠ req_id req) →
  ∃ ls' rep s', run Store.next s
      (ls' ++ [CTAM.OperateOp (AsyncMap.ExecuteOp req rep); CTAM.OperateOp (AsyncMap.ReplyOp rep)]) s' ∧
    Forall background ls' ∧ reply_id rep = req_id req.
Proof. exact (store_can_answer p t s0 ls s e req). Qed.
Print Assumptions C51_assembled_store_can_answer.

Local Existing Instance exg.
(** A no-op is accepted and then no step ever executes it. *)
Theorem C51_noop_answered_refuted :
  ∃ (s : Store.State (journal_layer SharedPages) (tree_layer PagedTree)) ls e req,
    Store.init ex_s0 ∧ run Store.next ex_s0 ls s ∧ Store.ephemeral s = Some e ∧
    req ∈ requests (CoordSys.progress e) ∧ req_input req = NoopInput ∧
    ∀ ls' s' rep, run Store.next s ls' s' → CTAM.OperateOp (AsyncMap.ExecuteOp req rep) ∉ ls'.
Proof. exact noop_stuck. Qed.
Print Assumptions C51_noop_answered_refuted.

(** After a crash and a reload, before the journal is replayed: no answer yet. *)
Example C51_example : Store.init ex_s0 ∧
  ∃ s e, run (Store.next (J := journal_layer SharedPages)) ex_s0 reload_trace s ∧ Store.ephemeral s = Some e ∧
  ex_get ∈ requests (CoordSys.progress e) ∧ (∀ y, y ∈ replies (CoordSys.progress e) → reply_id y ≠ req_id ex_get) ∧
  ¬ ∃ rep s', Store.next s s' (CTAM.OperateOp (AsyncMap.ExecuteOp ex_get rep)).
Proof. split; [done|]. exact reload_example. Qed.
