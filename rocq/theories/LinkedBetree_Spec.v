(** Small independent specification for the be-tree linked on disk (C18). *)
From Verif Require Import Abs_Model Betree_Model Betree_Spec LinkedBetree_Model.

(** What the disk stores under a key below a pointer: read the node the pointer
    names, take the child between whose pivots the key lies, and on the way back
    apply the messages of the node's buffers that were not yet flushed to that
    child, oldest first. A null pointer stores nothing. *)
Inductive disk_answers (dv : gmap Address LNode.t) (bdv : gmap Address (gmap N Message)) :
    option Address → Key → Message → Prop :=
  | disk_answers_null k : disk_answers dv bdv None k message_empty
  | disk_answers_node a n k i lo hi p ofs bs m :
      dv !! a = Some n →
      LNode.pivots n !! i = Some lo → LNode.pivots n !! S i = Some hi →
      elt_lte lo (Elem k) → elt_lt (Elem k) hi →
      LNode.children n !! i = Some p → LNode.flushed n !! i = Some ofs →
      Forall2 (λ ba b, bdv !! ba = Some b) (drop ofs (LNode.buffers n)) bs →
      disk_answers dv bdv p k m →
      disk_answers dv bdv (Some a) k (merge_all m (omap (λ b : gmap N Message, b !! k) bs)).
Definition linked_answers (l : LinkedBetree (gmap N Message)) : Key → Message → Prop :=
  disk_answers (lb_dv l) (lb_bdv l) (lb_root l).

(** No page present before and after has changed. *)
Definition pages_kept (l l' : LinkedBetree (gmap N Message)) : Prop :=
  (∀ a n n', lb_dv l !! a = Some n → lb_dv l' !! a = Some n' → n' = n) ∧
  (∀ a b b', lb_bdv l !! a = Some b → lb_bdv l' !! a = Some b' → b' = b).
