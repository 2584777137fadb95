(** Properties of the background work of the be-trees that count references: C56.
    [true] and [grow] are the [fixed] and [grow] of C42 and C43. *)
From Verif Require Import Abs_Model Betree_Model Betree_Spec LinkedBetree_Model LinkedBetree_Spec
  LikesBetree_Model LikesBetree_Spec LinkedBetree_Example LikesBetree_Example TreeFlow_Spec TreeSettle_Proof TreeFlow_Example.
From Verif Require Import Branch_Model Branch_Spec Branch_Example BranchBetree_Model BranchBetree_Spec BranchBetree_Example BranchLive_Spec BranchLive_Example
  BranchDrain_Proof BranchDrain_Example.

(** ** C56: the background work of the tree never gets stuck. *)
(** In every state the memtable can be written out, a new root put on top, any
    child that can be split be split, any that can be flushed to be flushed to, and
    any of the buffers of any node be compacted, on any free pages. *)
Theorem C56_can_work (s0 s : LikesBetree.State) b ls :
  LikesBetree.initialize s0 b → run LikesBetree.next s0 ls s → can_work LikesBetree.next LikesBetree.betree s.
Proof. exact (likes_works s0 b ls s). Qed.
Print Assumptions C56_can_work.
Theorem C56_units_can_work (x0 x : AllocBetree.State) b ls :
  AllocBetree.initialize x0 b → run AllocBetree.next x0 ls x → can_work AllocBetree.next AllocBetree.betree x.
Proof. exact (alloc_works x0 b ls x). Qed.
Print Assumptions C56_units_can_work.
(** The work keeps every node a leaf or a node with all its children. *)
Theorem C56_keeps_shape (s0 s : LikesBetree.State) b ls :
  LikesBetree.initialize s0 b → run LikesBetree.next s0 ls s → leaves_and_full_nodes (root b) →
  leaves_and_full_nodes (root (LikesBetree.betree s)).
Proof. exact (likes_shape s0 b ls s). Qed.
Print Assumptions C56_keeps_shape.
Theorem C56_units_keep_shape (x0 x : AllocBetree.State) b ls :
  AllocBetree.initialize x0 b → run AllocBetree.next x0 ls x → leaves_and_full_nodes (root b) →
  leaves_and_full_nodes (root (AllocBetree.betree x)).
Proof. exact (alloc_shape x0 b ls x). Qed.
Print Assumptions C56_units_keep_shape.
(** From every state of such a tree, background work alone can bring all messages
    to the leaves, one buffer in each. Then the tree can be frozen, as of the last
    put, and the frozen image alone holds the map that the state held. *)
Theorem C56_can_settle (s0 s : LikesBetree.State) b ls :
  LikesBetree.initialize s0 b → run LikesBetree.next s0 ls s → leaves_and_full_nodes (root b) →
  ∃ s' s'' m, background LikesBetree.next s s' ∧ settled (root (LikesBetree.betree s')) ∧
    state_holds linked_answers (LikesBetree.betree s) m ∧
    LikesBetree.next s' s'' (FreezeAs (mkStamped (root (LikesBetree.betree s')) (mt_seq_end (memtable (LikesBetree.betree s))))) ∧
    holds linked_answers (root (LikesBetree.betree s')) m.
Proof. exact (likes_settle s0 b ls s). Qed.
Print Assumptions C56_can_settle.
Theorem C56_units_can_settle (x0 x : AllocBetree.State) b ls :
  AllocBetree.initialize x0 b → run AllocBetree.next x0 ls x → leaves_and_full_nodes (root b) →
  ∃ x' x'' m, background AllocBetree.next x x' ∧ settled (root (AllocBetree.betree x')) ∧
    state_holds linked_answers (AllocBetree.betree x) m ∧
    AllocBetree.next x' x'' (FreezeAs (mkStamped (root (AllocBetree.betree x')) (mt_seq_end (memtable (AllocBetree.betree x))))) ∧
    holds linked_answers (root (AllocBetree.betree x')) m.
Proof. exact (alloc_settle x0 b ls x). Qed.
Print Assumptions C56_units_can_settle.

(** The same of the tree whose buffers are branches, with the membership test of
    C42. Three free units are enough to write the memtable out; flushes then bring
    all messages to the leaves. The pages of the flushes are on any unused units: the
    code does not ask them to be below [au_count], only those of branches. *)
Theorem C56_branches_keep_shape `{Geometry} grow (s0 s : ABB.State) b ls :
  ABB.initialize s0 b → run (ABB.next true grow) s0 ls s → leaves_and_full_nodes (root b) →
  leaves_and_full_nodes (root (ABB.betree s)).
Proof. exact (branches_shape true grow s0 b ls s eq_refl). Qed.
Print Assumptions C56_branches_keep_shape.
Theorem C56_branches_can_drain `{Geometry} grow (s0 s : ABB.State) b ls u1 u2 u3 :
  ABB.initialize s0 b → nodes_apart (root b) → leaves_and_full_nodes (root b) → run (ABB.next true grow) s0 ls s →
  base.NoDup [u1; u2; u3] → Forall (λ u, u < au_count ∧ ¬ needed s u) [u1; u2; u3] → 0 < page_count →
  ∃ ls' s' img m, run (ABB.next true grow) s ls' s' ∧ Forall (λ l, ∃ alls deallocs, l = ABB.Int alls deallocs) ls' ∧
    ABB.next true grow s' s' (ABB.Lbl (FreezeAs img)) ∧ st_seq_end img = mt_seq_end (memtable (ABB.betree s)) ∧
    drained (st_value img) ∧ state_holds branch_answers (ABB.betree s) m ∧ holds linked_answers (st_value img) m.
Proof. exact (branches_drain true grow s0 b ls s u1 u2 u3 eq_refl). Qed.
Print Assumptions C56_branches_can_drain.

(** The hypotheses are met: a run from the empty image to a tree that is not
    settled, where a child can be flushed to; before it a leaf can be split, after
    it three buffers of a leaf below the root compacted. *)
Example C56_example :
  LikesBetree.initialize LikesEx.l0 LinkedEx.st0 ∧ leaves_and_full_nodes (root LinkedEx.st0) ∧
  (∃ ls s, run LikesBetree.next LikesEx.l0 ls s ∧ LikesBetree.betree s = LinkedEx.st8) ∧ ¬ settled (root LinkedEx.st8).
Proof. exact (conj LikesEx.initial (conj FlowEx.shape0 (conj FlowEx.lreached8 FlowEx.unsettled))). Qed.
Example C56_units_example :
  AllocBetree.initialize LikesEx.x0 LinkedEx.st0 ∧
  (∃ ls, run AllocBetree.next LikesEx.x0 ls LikesEx.x8) ∧ AllocBetree.betree LikesEx.x8 = LinkedEx.st8.
Proof. exact (conj LikesEx.xinitial (conj FlowEx.reached8 eq_refl)). Qed.
Example C56_flush_example :
  Linked.path_valid (root LinkedEx.st8) 3%N 0 ∧ Linked.can_flush (Linked.path_target (root LinkedEx.st8) 3%N 0) 0 0 ∧
  free_pages (root LinkedEx.st8) [LinkedEx.A 8; LinkedEx.A 9].
Proof. exact (conj (proj1 FlowEx.flush8) (conj (proj2 FlowEx.flush8) FlowEx.free8)). Qed.
Example C56_split_example :
  Linked.path_valid (root LinkedEx.st5) 3%N 0 ∧
  Linked.can_split_parent (Linked.path_target (root LinkedEx.st5) 3%N 0) (SplitLeaf 0 10%N) ∧
  free_pages (root LinkedEx.st5) [LinkedEx.A 4; LinkedEx.A 5; LinkedEx.A 6].
Proof. exact FlowEx.split5. Qed.
Example C56_compact_example :
  (∃ ls, run AllocBetree.next LikesEx.x0 ls LikesEx.x9) ∧ AllocBetree.betree LikesEx.x9 = LinkedEx.st9 ∧
  Linked.path_valid (root LinkedEx.st9) 3%N 1 ∧
  length (LNode.buffers (Linked.root_node (Linked.path_target (root LinkedEx.st9) 3%N 1))) = 3 ∧
  free_pages (root LinkedEx.st9) [LinkedEx.A 10; LinkedEx.B 4; LinkedEx.A 11].
Proof. exact (conj FlowEx.reached9 (conj eq_refl (conj (proj1 FlowEx.compact9) (conj (proj2 FlowEx.compact9) FlowEx.free9)))). Qed.
Local Existing Instance bgeo.
(** A tree of branches with messages above the leaves, and three units free. *)
Example C56_branches_example :
  ABB.initialize BranchEx.s0 BranchEx.tree0 ∧ nodes_apart (root BranchEx.tree0) ∧ leaves_and_full_nodes (root BranchEx.tree0) ∧
  BranchEx.reach true true BranchEx.t13 {[2; 6; 14; 15; 17]} ∧ ¬ drained (root (ABB.betree BranchEx.t13)) ∧
  (base.NoDup [3; 4; 7] ∧ Forall (λ u, u < au_count ∧ ¬ needed BranchEx.t13 u) [3; 4; 7] ∧ 0 < page_count).
Proof.
  exact (conj BranchEx.initial (conj BranchLiveEx.empty_apart (conj BranchDrainEx.shape0 (conj BranchEx.run13
    (conj BranchDrainEx.undrained BranchDrainEx.free13))))).
Qed.
