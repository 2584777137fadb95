(** Vocabulary of C59. *)
From Verif Require Import Betree_Model BranchBetree_Model BranchBetree_Spec Store_Model BranchStore_Model.

(** The tree in memory finds three units of the device that it does not need. *)
Definition branch_room `{Geometry} (s : ABB.State) : Prop :=
  0 < page_count ∧ ∃ u1 u2 u3, base.NoDup [u1; u2; u3] ∧ Forall (λ u, u < au_count ∧ ¬ needed s u) [u1; u2; u3].
