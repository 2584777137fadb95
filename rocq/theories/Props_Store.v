(** Properties of the store assembled from its layers (C48). *)
From Verif Require Import Spec_Model Spec_Spec Abs_Model Abs_Spec Betree_Model Betree_Spec Journal_Model Journal_Spec
  AllocJournal_Model AllocJournal_Example Store_Model Store_Spec Store_Proof Store_Boot Store_Example.

(** ** C48: the store assembled from its layers *)
(** Whatever the tree and whatever the pages of the journal, what clients see of
    the assembled store is what a crash-tolerant map allows. *)
Theorem C48_assembled_store_allowed `{Geometry} p t (s0 : Store.State (journal_layer p) (tree_layer t)) ls s :
  Store.init s0 → run Store.next s0 ls s →
  (∃ m, run CTAM.next CTAM.init ls m) ∧ ∃ logs, explained ls logs ∧ syncs_durable ls logs.
Proof. exact (store_allowed (pages_ok p) (tree_ok t) s0 ls s). Qed.
Print Assumptions C48_assembled_store_allowed.
(** After a crash the disk holds the writes of a log that explains the run and has
    lost no synced write. Loading the images and replaying journal pages, however
    far and in whatever way, never leads to another answer; and some replay, page by page,
    leads to a store that answers every key. *)
Theorem C48_assembled_store_recovers `{Geometry} p t (s0 : Store.State (journal_layer p) (tree_layer t)) ls s :
  Store.init s0 → run Store.next s0 ls s → Store.ephemeral s = None →
  ∃ logs log, explained ls logs ∧ syncs_durable ls logs ∧ logs !! length ls = Some log ∧
    (∃ base l, on_disk p t s base l) ∧
    (∀ base l, on_disk p t s base l → ∀ k, after l k (base k) = Define (last_write k log)) ∧
    (∀ ls' s' k v, run (boot_step p t) s ls' s' → can_reply p t s' k v → v = last_write k log) ∧
    ∃ ls' s', run (boot_step p t) s ls' s' ∧ ∀ k, can_reply p t s' k (last_write k log).
Proof. exact (store_recovers p t s0 ls s). Qed.
Print Assumptions C48_assembled_store_recovers.
Example C48_example : Store.init ex_s0 ∧
  run (Store.next (J := @journal_layer exg SharedPages)) ex_s0 store_trace ex_crashed ∧ Store.ephemeral ex_crashed = None.
Proof. exact store_example. Qed.
