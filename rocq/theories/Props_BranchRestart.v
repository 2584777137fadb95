(** Properties of the be-trees that count references, and of the one whose buffers
    are branches: C58. [fixed] and [grow] are as for C42 and C43. *)
From Verif Require Import Spec_Model Abs_Model Betree_Model Betree_Spec Branch_Model Branch_Spec LinkedBetree_Model LinkedBetree_Spec
  LikesBetree_Model LikesBetree_Spec BranchBetree_Model BranchBetree_Spec BranchLive_Spec BranchRestart_Proof LikesRestart_Proof
  LinkedBetree_Example LikesBetree_Example Branch_Example BranchBetree_Example BranchLive_Example BranchRestart_Example.
Implicit Types (fixed grow : bool) (s : ABB.State).

(** ** C58: the tree can always be brought to a state that is an image to start
    from. *)
(** With nothing in the memtable and no compaction or branch under way, what the
    tree has is an image to start from, and starting leads to the very same state:
    all counts and the summary that the start rebuilds from the disk agree with
    those kept by the run. *)
Theorem C58_idle_is_image `{Geometry} fixed grow s0 b ls s :
  ABB.initialize s0 b → run (ABB.next fixed grow) s0 ls s →
  mt_is_empty (memtable (ABB.betree s)) → ABB.compactors s = [] → ABB.wip_branches s = [] → ABB.initialize s (ABB.betree s).
Proof. exact (run_idle fixed grow s0 b ls s). Qed.
Print Assumptions C58_idle_is_image.
(** Only one state can be started from an image. *)
Theorem C58_image_determines_start `{Geometry} s s' b : ABB.initialize s b → ABB.initialize s' b → s' = s.
Proof. exact (start_unique s s' b). Qed.
Print Assumptions C58_image_determines_start.
(** With three free units internal steps that take only these lead from every
    state to such an image. It has the version of the memtable, and the contents of
    the tree with the memtable; and if no two nodes of the first image share a unit
    then no two nodes of this one do. *)
Theorem C58_can_restart `{Geometry} fixed grow s0 b ls s u1 u2 u3 :
  ABB.initialize s0 b → run (ABB.next fixed grow) s0 ls s →
  base.NoDup [u1; u2; u3] → Forall (λ u, u < au_count ∧ ¬ needed s u) [u1; u2; u3] → 0 < page_count →
  ∃ ls' s' m, run (ABB.next fixed grow) s ls' s' ∧
    Forall (λ l, ∃ alls deallocs, l = ABB.Int alls deallocs ∧ alls ⊆ {[u1; u2; u3]}) ls' ∧
    ABB.initialize s' (ABB.betree s') ∧
    mt_seq_end (memtable (ABB.betree s')) = mt_seq_end (memtable (ABB.betree s)) ∧
    state_holds branch_answers (ABB.betree s) m ∧ Betree_Spec.holds branch_answers (root (ABB.betree s')) m ∧
    (nodes_apart (root b) → nodes_apart (root (ABB.betree s'))).
Proof. exact (run_can_restart fixed grow s0 b ls s u1 u2 u3). Qed.
Print Assumptions C58_can_restart.

(** Of the trees that count references and have plain buffers, whatever is frozen
    is an image to start from, and starting leads to the very state it was frozen
    in, and to no other. *)
Theorem C58_frozen_restarts (s0 s s' : LikesBetree.State) b ls img :
  LikesBetree.initialize s0 b → run LikesBetree.next s0 ls s → LikesBetree.next s s' (FreezeAs img) →
  LikesBetree.initialize s (mkBS (empty_memtable (st_seq_end img)) (st_value img)) ∧
  ∀ s1 : LikesBetree.State, LikesBetree.initialize s1 (mkBS (empty_memtable (st_seq_end img)) (st_value img)) → s1 = s.
Proof. exact (likes_restart s0 b ls s s' img). Qed.
Print Assumptions C58_frozen_restarts.
Theorem C58_units_frozen_restarts (x0 x x' : AllocBetree.State) b ls img :
  AllocBetree.initialize x0 b → run AllocBetree.next x0 ls x → AllocBetree.next x x' (FreezeAs img) →
  AllocBetree.initialize x (mkBS (empty_memtable (st_seq_end img)) (st_value img)) ∧
  ∀ x1, AllocBetree.initialize x1 (mkBS (empty_memtable (st_seq_end img)) (st_value img)) → x1 = x.
Proof. exact (alloc_restart x0 b ls x x' img). Qed.
Print Assumptions C58_units_frozen_restarts.

Local Existing Instance bgeo.
(** That the tree may be frozen is not enough: a branch that is no longer in the
    tree stays on the disk while a compaction reads it, and then no state can be
    started from what the tree has. *)
Theorem C58_frozen_is_image_refuted fixed grow :
  ∃ s0 b ls s img, ABB.initialize s0 b ∧ run (ABB.next fixed grow) s0 ls s ∧
    ABB.next fixed grow s s (ABB.Lbl (FreezeAs img)) ∧ ∀ s', ¬ ABB.initialize s' (ABB.betree s).
Proof. exact (BranchRestartEx.refuted fixed grow). Qed.
Print Assumptions C58_frozen_is_image_refuted.

(** A key in the memtable, a compaction under way and a branch being built; three
    units are free. *)
Example C58_example :
  ABB.initialize BranchEx.s0 BranchEx.tree0 ∧ nodes_apart (root BranchEx.tree0) ∧
  BranchEx.reach true true BranchLiveEx.busy {[1; 2; 5; 11; 6]} ∧
  (mt_buffer (memtable (ABB.betree BranchLiveEx.busy)) !! 8%N = Some (Define 80%N) ∧
   ABB.compactors BranchLiveEx.busy ≠ [] ∧ ABB.wip_branches BranchLiveEx.busy ≠ []) ∧
  (base.NoDup [3; 4; 7] ∧ Forall (λ u, u < au_count ∧ ¬ needed BranchLiveEx.busy u) [3; 4; 7] ∧ 0 < page_count).
Proof.
  exact (conj BranchEx.initial (conj BranchLiveEx.empty_apart (conj BranchLiveEx.busy_run (conj BranchLiveEx.busy_memtable BranchLiveEx.busy_free)))).
Qed.
(** A tree with two levels and shared branches, with nothing under way. *)
Example C58_example_idle :
  BranchEx.reach true true BranchEx.t14 {[2; 6; 15; 18; 19]} ∧
  (mt_is_empty (memtable (ABB.betree BranchEx.t14)) ∧ ABB.compactors BranchEx.t14 = [] ∧ ABB.wip_branches BranchEx.t14 = []).
Proof. exact (conj BranchEx.run14 BranchRestartEx.idle14). Qed.
(** Trees of two levels that count references, frozen. *)
Example C58_example_frozen :
  LikesBetree.initialize LikesEx.l0 LinkedEx.st0 ∧
  (∃ ls (s : LikesBetree.State), run LikesBetree.next LikesEx.l0 ls s ∧ LikesBetree.betree s = LinkedEx.st8 ∧ LikesBetree.next s s (FreezeAs BranchRestartEx.frozen8)) ∧
  AllocBetree.initialize LikesEx.x0 LinkedEx.st0 ∧
  ((∃ ls, run AllocBetree.next LikesEx.x0 ls LikesEx.x8) ∧ AllocBetree.next LikesEx.x8 LikesEx.x8 (FreezeAs BranchRestartEx.frozen8)).
Proof. exact (conj LikesEx.initial (conj BranchRestartEx.freeze8 (conj LikesEx.xinitial BranchRestartEx.xfreeze8))). Qed.
