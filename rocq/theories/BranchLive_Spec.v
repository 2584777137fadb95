(** Small independent specification for what the be-tree whose buffers are
    branches can always do (C54). *)
From Verif Require Import Abs_Model Disk_Model Betree_Model LinkedBetree_Model LikesBetree_Model.

(** No two node pages are in the same allocation unit. *)
Definition nodes_apart {T} (l : LinkedBetree T) : Prop :=
  ∀ a a', is_Some (lb_dv l !! a) → is_Some (lb_dv l !! a') → au a = au a' → a = a'.
