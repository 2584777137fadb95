(** Properties of the reference counts of the be-tree: C37. *)
From Verif Require Import Abs_Model Betree_Model Betree_Spec LinkedBetree_Model LinkedBetree_Spec
  LikesBetree_Model LikesBetree_Spec LikesBetree_Facts LinkedBetree_Example LikesBetree_Example.

(** ** C37: the counts are the numbers of references from the live tree, and
    nothing in use is released. *)
(** The count of a page is the number of ways the tree refers to it. *)
Theorem C37_counts_are_references (s0 s : LikesBetree.State) b ls :
  LikesBetree.initialize s0 b → run LikesBetree.next s0 ls s →
  ∀ a, exactly (λ is, node_ref (root (LikesBetree.betree s)) is a) (multiplicity a (LikesBetree.betree_likes s)) ∧
       exactly (λ isj, buffer_ref (root (LikesBetree.betree s)) isj a) (multiplicity a (LikesBetree.buf_likes s)).
Proof. exact (likes_counts s0 b ls s). Qed.
Print Assumptions C37_counts_are_references.
(** The count of an allocation unit is the number of references to pages in it. *)
Theorem C37_unit_counts_are_references (x0 x : AllocBetree.State) b ls :
  AllocBetree.initialize x0 b → run AllocBetree.next x0 ls x →
  ∀ u, exactly (λ is, ∃ a, node_ref (root (AllocBetree.betree x)) is a ∧ au a = u)
               (multiplicity u (AllocBetree.betree_aus x)) ∧
       exactly (λ isj, ∃ ba, buffer_ref (root (AllocBetree.betree x)) isj ba ∧ au ba = u)
               (multiplicity u (AllocBetree.buffer_aus x)).
Proof. exact (alloc_counts x0 b ls x). Qed.
Print Assumptions C37_unit_counts_are_references.
(** Whatever a step drops from the disk, every page in use is still there. *)
Theorem C37_nothing_live_is_released (s0 s : LikesBetree.State) b ls :
  LikesBetree.initialize s0 b → run LikesBetree.next s0 ls s →
  nothing_missing (root (LikesBetree.betree s)).
Proof. exact (likes_missing s0 b ls s). Qed.
Print Assumptions C37_nothing_live_is_released.
Theorem C37_units_nothing_live_is_released (x0 x : AllocBetree.State) b ls :
  AllocBetree.initialize x0 b → run AllocBetree.next x0 ls x →
  nothing_missing (root (AllocBetree.betree x)).
Proof. exact (alloc_missing x0 b ls x). Qed.
Print Assumptions C37_units_nothing_live_is_released.
(** No step overwrites a page that was there before it. *)
Theorem C37_copy_on_write (s0 s s' : LikesBetree.State) b ls l :
  LikesBetree.initialize s0 b → run LikesBetree.next s0 ls s → LikesBetree.next s s' l →
  pages_kept (root (LikesBetree.betree s)) (root (LikesBetree.betree s')).
Proof. exact (likes_kept s0 b ls s s' l). Qed.
Print Assumptions C37_copy_on_write.
Theorem C37_units_copy_on_write (x0 x x' : AllocBetree.State) b ls l :
  AllocBetree.initialize x0 b → run AllocBetree.next x0 ls x → AllocBetree.next x x' l →
  pages_kept (root (AllocBetree.betree x)) (root (AllocBetree.betree x')).
Proof. exact (alloc_kept x0 b ls x x' l). Qed.
Print Assumptions C37_units_copy_on_write.
(** The answers are those of the abstract map, event for event. *)
Theorem C37_faithful (s0 s : LikesBetree.State) b ls :
  LikesBetree.initialize s0 b → run LikesBetree.next s0 ls s →
  ∃ m, holds linked_answers (root b) m ∧
       acts_as_map linked_answers (mkStamped m (mt_seq_end (memtable b))) ls (LikesBetree.betree s).
Proof. exact (likes_faithful s0 b ls s). Qed.
Print Assumptions C37_faithful.
Theorem C37_units_faithful (x0 x : AllocBetree.State) b ls :
  AllocBetree.initialize x0 b → run AllocBetree.next x0 ls x →
  ∃ m, holds linked_answers (root b) m ∧
       acts_as_map linked_answers (mkStamped m (mt_seq_end (memtable b))) ls (AllocBetree.betree x).
Proof. exact (alloc_faithful x0 b ls x). Qed.
Print Assumptions C37_units_faithful.
(** Counting forbids nothing: the runs of the counting tree are exactly the runs
    of the linked tree in which new addresses are unused and no buffer in use is
    dropped. *)
Theorem C37_same_runs (s0 : LikesBetree.State) b ls b' :
  LikesBetree.initialize s0 b →
  (run Linked.strong_next b ls b' ↔ ∃ s, run LikesBetree.next s0 ls s ∧ LikesBetree.betree s = b').
Proof. exact (likes_same_runs s0 b ls b'). Qed.
Print Assumptions C37_same_runs.
(** Space can be reclaimed: from every state a step leads to a disk that holds
    only pages in use, with the same counts and the same answers. *)
Theorem C37_garbage_can_be_collected (s0 s : LikesBetree.State) b ls :
  LikesBetree.initialize s0 b → run LikesBetree.next s0 ls s →
  ∃ s', LikesBetree.next s s' Internal ∧ nothing_unused (root (LikesBetree.betree s')) ∧
    LikesBetree.betree_likes s' = LikesBetree.betree_likes s ∧ LikesBetree.buf_likes s' = LikesBetree.buf_likes s ∧
    memtable (LikesBetree.betree s') = memtable (LikesBetree.betree s) ∧
    ∀ k m, linked_answers (root (LikesBetree.betree s')) k m ↔ linked_answers (root (LikesBetree.betree s)) k m.
Proof. exact (likes_collect s0 b ls s). Qed.
Print Assumptions C37_garbage_can_be_collected.
Theorem C37_units_garbage_can_be_collected (x0 x : AllocBetree.State) b ls :
  AllocBetree.initialize x0 b → run AllocBetree.next x0 ls x →
  ∃ x', AllocBetree.next x x' Internal ∧ nothing_unused (root (AllocBetree.betree x')) ∧
    AllocBetree.betree_aus x' = AllocBetree.betree_aus x ∧ AllocBetree.buffer_aus x' = AllocBetree.buffer_aus x ∧
    memtable (AllocBetree.betree x') = memtable (AllocBetree.betree x) ∧
    ∀ k m, linked_answers (root (AllocBetree.betree x')) k m ↔ linked_answers (root (AllocBetree.betree x)) k m.
Proof. exact (alloc_collect x0 b ls x). Qed.
Print Assumptions C37_units_garbage_can_be_collected.
(** Node pages never become shared (buffers do, see the example). *)
Theorem C37_nodes_stay_unshared (s0 s : LikesBetree.State) b ls :
  LikesBetree.initialize s0 b → run LikesBetree.next s0 ls s →
  unshared (root b) → unshared (root (LikesBetree.betree s)).
Proof. exact (likes_unshared s0 b ls s). Qed.
Print Assumptions C37_nodes_stay_unshared.
Theorem C37_units_nodes_stay_unshared (x0 x : AllocBetree.State) b ls :
  AllocBetree.initialize x0 b → run AllocBetree.next x0 ls x →
  unshared (root b) → unshared (root (AllocBetree.betree x)).
Proof. exact (alloc_unshared x0 b ls x). Qed.
Print Assumptions C37_units_nodes_stay_unshared.
Example C37_example :
  LikesBetree.initialize LikesEx.l0 LinkedEx.st0 ∧ unshared (root LinkedEx.st0) ∧
  (∃ ls s, run LikesBetree.next LikesEx.l0 ls s ∧ LikesBetree.betree s = LinkedEx.st10) ∧
  (∃ ls s, run LikesBetree.next LikesEx.l0 ls s ∧ LikesBetree.betree s = LinkedEx.st6 ∧
     multiplicity (LinkedEx.B 1) (LikesBetree.buf_likes s) = 2).
Proof. exact (conj LikesEx.initial (conj LikesEx.unshared0 (conj LikesEx.run10 LikesEx.shared))). Qed.
(** Units: the split makes four references to the unit of the two buffers, the
    compaction turns six into four. *)
Example C37_units_example :
  AllocBetree.initialize LikesEx.x0 LinkedEx.st0 ∧
  (∃ ls, run AllocBetree.next LikesEx.x0 ls LikesEx.x6) ∧ (∃ ls, run AllocBetree.next LikesEx.x0 ls LikesEx.x10) ∧
  multiplicity 2 (AllocBetree.buffer_aus LikesEx.x6) = 4 ∧
  multiplicity 2 (AllocBetree.buffer_aus LikesEx.x9) = 6 ∧ multiplicity 2 (AllocBetree.buffer_aus LikesEx.x10) = 4.
Proof. exact (conj LikesEx.xinitial (conj LikesEx.reached6 (conj LikesEx.reached10 (conj (proj1 LikesEx.shared6) LikesEx.shared10)))). Qed.
