(** The be-tree whose buffers are branches as the map of the assembled store
    (Store_Model.v). Definitions only. As for the other trees, /repo has the layer
    and not the assembled machine. The pages of the tree and those of the journal
    are apart: nothing in /repo says how the two share a device. *)
From Verif Require Export Spec_Model Abs_Model Betree_Model LinkedBetree_Model LikesBetree_Model BranchBetree_Model Store_Model.

(** AllocationBranchBetree_v.rs 235-241, 374-405: giving up a branch that is being
    built or a compaction. *)
Definition gives_up (s s' : ABB.State) (l : ABB.Label) : Prop :=
  (∃ idx, ABB.branch_abort s s' l idx) ∨ (∃ i, ABB.internal_compact_abort s s' l i).
(** AllocationBranchBetree_v.rs 181-206: an image is loaded with an empty memtable
    that goes on at the number of the image. *)
Definition branch_start (img : Stamped BLB) : BState BLB := mkBS (empty_memtable (st_seq_end img)) (st_value img).
(** LinkedBetree_v.rs 1084-1092, by way of AllocationBranchBetree_v.rs 208-213. The
    freeze of /repo hands out a tree with simple buffers. What is written to the
    device is taken to be the tree on its pages as it would be if all unfinished
    work were given up: with the pages of unfinished work it need not be an image
    to start from (C58). The unfinished work itself goes on. *)
Definition branch_freeze `{Geometry} (grow : bool) (s s' : ABB.State) (img : Stamped BLB) : Prop :=
  ∃ f ls t, ABB.next true grow s s' (ABB.Lbl (FreezeAs f)) ∧ st_seq_end img = st_seq_end f ∧
    run gives_up s ls t ∧ ABB.compactors t = [] ∧ ABB.wip_branches t = [] ∧ st_value img = root (ABB.betree t).
(** AllocationBranchBetree_v.rs 163-167: the labels of the map; the units a step
    takes and returns are its own matter. *)
Definition branch_next `{Geometry} (grow : bool) (s s' : ABB.State) (l : BLabel BLB) : Prop :=
  match l with
  | Query e k v => ABB.next true grow s s' (ABB.Lbl (Query e k v))
  | Put puts => ABB.next true grow s s' (ABB.Lbl (Put puts))
  | FreezeAs img => branch_freeze grow s s' img
  | Internal => ∃ alls deallocs, ABB.next true grow s s' (ABB.Int alls deallocs)
  end.
(** AllocationBranchBetree_v.rs 151-1139. [grow] is as for C42 and C43; the queries
    of branches are the corrected ones (C43). *)
Definition branch_layer `{Geometry} (grow : bool) : MapLayer :=
  mkMapLayer BLB ABB.State (mkStamped (mkLB None ∅ ∅) 0) (λ s img, ABB.initialize s (branch_start img)) (branch_next grow).
