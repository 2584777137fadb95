(** Small independent specification for the reference counts of the be-tree (C37). *)
From Verif Require Import Disk_Model LinkedBetree_Model.

(** A way down the tree: following the children at the positions [is], one
    after the other, from the pointer leads to the node page [a]. *)
Inductive leads (dv : gmap Address LNode.t) : option Address → list nat → Address → Prop :=
  | leads_here a n : dv !! a = Some n → leads dv (Some a) [] a
  | leads_down a n i q is b :
      dv !! a = Some n → LNode.children n !! i = Some q → leads dv q is b →
      leads dv (Some a) (i :: is) b.
(** The references of a tree to a node page are the ways to reach it; those to a
    buffer page are the ways to reach a node together with a position in its
    list of buffers. *)
Definition node_ref {T} (l : LinkedBetree T) (is : list nat) (a : Address) : Prop :=
  leads (lb_dv l) (lb_root l) is a.
Definition buffer_ref {T} (l : LinkedBetree T) (isj : list nat * nat) (ba : Address) : Prop :=
  ∃ a n, node_ref l isj.1 a ∧ lb_dv l !! a = Some n ∧ LNode.buffers n !! isj.2 = Some ba.
(** [P] holds of exactly [k] things. *)
Definition exactly {X} (P : X → Prop) (k : nat) : Prop :=
  ∃ L, NoDup L ∧ (∀ x, x ∈ L ↔ P x) ∧ length L = k.
(** Some reference leads there. *)
Definition node_live {T} (l : LinkedBetree T) (a : Address) : Prop := ∃ is, node_ref l is a.
Definition buffer_live {T} (l : LinkedBetree T) (ba : Address) : Prop := ∃ isj, buffer_ref l isj ba.
(** Nothing in use is missing from the disk: the page of the root, the pages of
    the children and of the buffers of every node in use are there. *)
Definition nothing_missing {T} (l : LinkedBetree T) : Prop :=
  (∀ a, lb_root l = Some a → is_Some (lb_dv l !! a)) ∧
  (∀ a n c, node_live l a → lb_dv l !! a = Some n → Some c ∈ LNode.children n → is_Some (lb_dv l !! c)) ∧
  (∀ a n ba, node_live l a → lb_dv l !! a = Some n → ba ∈ LNode.buffers n → is_Some (lb_bdv l !! ba)).
(** Only pages in use are on the disk. *)
Definition nothing_unused {T} (l : LinkedBetree T) : Prop :=
  (∀ a, is_Some (lb_dv l !! a) ↔ node_live l a) ∧ (∀ ba, is_Some (lb_bdv l !! ba) ↔ buffer_live l ba).
(** No node page is shared: there is one way to reach it. *)
Definition unshared {T} (l : LinkedBetree T) : Prop :=
  ∀ a is is', node_ref l is a → node_ref l is' a → is = is'.
