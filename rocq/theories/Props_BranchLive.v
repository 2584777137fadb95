(** Properties of the be-tree whose buffers are branches: C54. [fixed] and [grow]
    are as for C42 and C43. *)
From Verif Require Import Spec_Model Abs_Model Betree_Model Betree_Spec Branch_Model Branch_Spec LinkedBetree_Model LinkedBetree_Spec
  LikesBetree_Model LikesBetree_Spec BranchBetree_Model BranchBetree_Spec BranchLive_Spec BranchLive_Proof BranchFlow_Proof BranchMerge_Proof
  Branch_Example BranchBetree_Example BranchLive_Example BranchMerge_Example.
Implicit Types (fixed grow : bool) (s : ABB.State).

(** ** C54: the tree can always write its memtable out and be frozen, give up
    unfinished work, flush and split. *)
(** With three free units the tree can be frozen, by internal steps that take only
    these; the image has the version of the memtable, and the contents of the tree
    with the memtable. *)
Theorem C54_can_freeze `{Geometry} fixed grow s0 b ls s u1 u2 u3 :
  ABB.initialize s0 b → run (ABB.next fixed grow) s0 ls s →
  base.NoDup [u1; u2; u3] → Forall (λ u, u < au_count ∧ ¬ needed s u) [u1; u2; u3] → 0 < page_count →
  ∃ ls' s' img m, run (ABB.next fixed grow) s ls' s' ∧
    Forall (λ l, ∃ alls deallocs, l = ABB.Int alls deallocs ∧ alls ⊆ {[u1; u2; u3]}) ls' ∧
    ABB.next fixed grow s' s' (ABB.Lbl (FreezeAs img)) ∧
    st_seq_end img = mt_seq_end (memtable (ABB.betree s)) ∧
    state_holds branch_answers (ABB.betree s) m ∧ Betree_Spec.holds linked_answers (st_value img) m.
Proof. exact (run_can_freeze fixed grow s0 b ls s u1 u2 u3). Qed.
Print Assumptions C54_can_freeze.
(** Unfinished compactions and branches can always be given up: no unit is taken,
    the contents stay, and only the units of the tree remain in use. *)
Theorem C54_can_give_up `{Geometry} fixed grow s0 b ls s :
  ABB.initialize s0 b → run (ABB.next fixed grow) s0 ls s →
  ∃ ls' s' m, run (ABB.next fixed grow) s ls' s' ∧ Forall (λ l, ∃ deallocs, l = ABB.Int ∅ deallocs) ls' ∧
    memtable (ABB.betree s') = memtable (ABB.betree s) ∧
    Betree_Spec.holds branch_answers (root (ABB.betree s)) m ∧ Betree_Spec.holds branch_answers (root (ABB.betree s')) m ∧
    (∀ r, ¬ being_read s' r) ∧
    (∀ u, needed s' u → (∃ a, node_live (root (ABB.betree s')) a ∧ au a = u) ∨
       ∃ r U, buffer_live (root (ABB.betree s')) r ∧ branch_units (lb_bdv (root (ABB.betree s'))) r U ∧ u ∈ U).
Proof. exact (run_give_up fixed grow s0 b ls s). Qed.
Print Assumptions C54_can_give_up.
(** If no two node pages of the image share a unit, a node can be flushed to a
    child, and a child split, whenever the code's conditions hold and there is a
    free unit for each new page. *)
Theorem C54_can_flush `{Geometry} fixed grow s0 b ls s key d i gc u v us :
  ABB.initialize s0 b → nodes_apart (root b) → run (ABB.next fixed grow) s0 ls s →
  Linked.path_valid (root (ABB.betree s)) key d → Linked.can_flush (Linked.path_target (root (ABB.betree s)) key d) i gc →
  length us = d → base.NoDup (u :: v :: us) → Forall (λ u, ¬ needed s u) (u :: v :: us) →
  ∃ s' deallocs new na pa, ABB.internal_flush s s' (ABB.Int (list_to_set (u :: v :: us)) deallocs) new key d i gc na pa.
Proof. exact (run_can_flush fixed grow s0 b ls s key d i gc u v us). Qed.
Print Assumptions C54_can_flush.
Theorem C54_can_split `{Geometry} fixed grow s0 b ls s key d rq u v w us :
  ABB.initialize s0 b → nodes_apart (root b) → run (ABB.next fixed grow) s0 ls s →
  Linked.path_valid (root (ABB.betree s)) key d → Linked.can_split_parent (Linked.path_target (root (ABB.betree s)) key d) rq →
  length us = d → base.NoDup (u :: v :: w :: us) → Forall (λ u, ¬ needed s u) (u :: v :: w :: us) →
  ∃ s' deallocs new na pa, ABB.internal_split s s' (ABB.Int (list_to_set (u :: v :: w :: us)) deallocs) new key d rq na pa.
Proof. exact (run_can_split fixed grow s0 b ls s key d rq u v w us). Qed.
Print Assumptions C54_can_split.

(** With the membership test corrected, a compaction whose input is still in the
    tree can be finished: a branch can be built in one free unit, without touching
    the tree, and then takes the place of the buffers. *)
Theorem C54_can_compact `{Geometry} grow s0 b ls s key d i j ii input u v us :
  ABB.initialize s0 b → nodes_apart (root b) → run (ABB.next true grow) s0 ls s →
  ABB.compactors s !! ii = Some input → ABB.valid_compactor_input (root (ABB.betree s)) key d i j input →
  length us = d → base.NoDup (u :: v :: us) → Forall (λ u, ¬ needed s u) (u :: v :: us) → u < au_count → 0 < page_count →
  ∃ ls' s1 s' deallocs new bi na pa, run (ABB.next true grow) s ls' s1 ∧
    Forall (λ l, ∃ alls deallocs, l = ABB.Int alls deallocs ∧ alls ⊆ {[u]}) ls' ∧ ABB.betree s1 = ABB.betree s ∧
    ABB.internal_compact_complete true s1 s' (ABB.Int (list_to_set (v :: us)) deallocs) new key d i j ii bi na pa.
Proof. exact (run_can_compact grow s0 b ls s key d i j ii input u v us). Qed.
Print Assumptions C54_can_compact.

Local Existing Instance bgeo.
(** As written, there are compactions that no branch can finish as long as the
    tree stays as it is. *)
Theorem C54_can_compact_refuted :
  ∃ s0 b ls s input, ABB.initialize s0 b ∧ nodes_apart (root b) ∧ run (ABB.next false false) s0 ls s ∧
    ABB.compactors s !! 0 = Some input ∧ ABB.valid_compactor_input (root (ABB.betree s)) 3 0 0 2 input ∧
    ∀ s1 s' l new ii bi na pa, ABB.betree s1 = ABB.betree s → ¬ ABB.internal_compact_complete false s1 s' l new 3 0 0 2 ii bi na pa.
Proof. exact BranchMergeEx.refuted. Qed.
Print Assumptions C54_can_compact_refuted.
(** On an image whose nodes share units, as the code allows, a flush whose
    conditions hold can be impossible, whatever pages are chosen for it. *)
Theorem C54_can_flush_shared_refuted :
  ∃ s b key i gc, ABB.initialize s b ∧ Linked.path_valid (root (ABB.betree s)) key 0 ∧
    Linked.can_flush (Linked.path_target (root (ABB.betree s)) key 0) i gc ∧
    ∀ s' l new na pa, ¬ ABB.internal_flush s s' l new key 0 i gc na pa.
Proof.
  exact (ex_intro _ BranchLiveEx.shared (ex_intro _ BranchLiveEx.shtree (ex_intro _ 3%N (ex_intro _ 0 (ex_intro _ 0
    (conj BranchLiveEx.shinit (conj BranchLiveEx.shpath (conj BranchLiveEx.shflush BranchLiveEx.shblocked)))))))).
Qed.
Print Assumptions C54_can_flush_shared_refuted.

(** A key in the memtable, a compaction under way and a branch being built; three
    units are free. *)
Example C54_example :
  ABB.initialize BranchEx.s0 BranchEx.tree0 ∧
  BranchEx.reach true true BranchLiveEx.busy {[1; 2; 5; 11; 6]} ∧
  (mt_buffer (memtable (ABB.betree BranchLiveEx.busy)) !! 8%N = Some (Define 80%N) ∧
   ABB.compactors BranchLiveEx.busy ≠ [] ∧ ABB.wip_branches BranchLiveEx.busy ≠ []) ∧
  (base.NoDup [3; 4; 7] ∧ Forall (λ u, u < au_count ∧ ¬ needed BranchLiveEx.busy u) [3; 4; 7] ∧ 0 < page_count).
Proof.
  exact (conj BranchEx.initial (conj BranchLiveEx.busy_run (conj BranchLiveEx.busy_memtable BranchLiveEx.busy_free))).
Qed.
(** A root with a child to flush to, and one with a child to split. *)
Example C54_example_flush_split :
  nodes_apart (root BranchEx.tree0) ∧
  (BranchEx.reach true true BranchEx.t13 {[2; 6; 14; 15; 17]} ∧ Linked.path_valid (root (ABB.betree BranchEx.t13)) 3 0 ∧
   Linked.can_flush (Linked.path_target (root (ABB.betree BranchEx.t13)) 3 0) 0 0) ∧
  (BranchEx.reach true true BranchEx.t10 (({[6; 12]} ∪ {[au (BranchEx.nd 13)]}) ∖ ∅) ∧ Linked.path_valid (root (ABB.betree BranchEx.t10)) 3 0 ∧
   Linked.can_split_parent (Linked.path_target (root (ABB.betree BranchEx.t10)) 3 0) (SplitLeaf 0 6)) ∧
  (Forall (λ u, ¬ needed BranchEx.t13 u) [20; 21] ∧ Forall (λ u, ¬ needed BranchEx.t10 u) [20; 21; 22]).
Proof.
  exact (conj BranchLiveEx.empty_apart (conj (conj BranchEx.run13 (conj BranchLiveEx.deep_path BranchLiveEx.deep_flush))
    (conj (conj BranchLiveEx.grown_run (conj BranchLiveEx.flat_path BranchLiveEx.flat_split)) BranchLiveEx.deep_free))).
Qed.
(** A compaction of two branches, with room for the result and the new root. *)
Example C54_example_compact :
  BranchEx.reach true true BranchMergeEx.half {[1; 2; 5; 11]} ∧
  (ABB.compactors BranchMergeEx.half !! 0 = Some BranchMergeEx.input2 ∧
   ABB.valid_compactor_input (root (ABB.betree BranchMergeEx.half)) 3 0 0 2 BranchMergeEx.input2) ∧
  (Forall (λ u, ¬ needed BranchMergeEx.half u) [6; 20] ∧ 6 < au_count ∧ 0 < page_count).
Proof. exact (conj BranchMergeEx.half_run (conj BranchMergeEx.half_input BranchMergeEx.half_free)). Qed.
