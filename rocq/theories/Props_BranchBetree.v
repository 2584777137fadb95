(** Properties of the be-tree whose buffers are branches: C42 and C43. [fixed]
    chooses between the membership test as written and the repaired one (C40);
    [grow] adds the build event the code lacks (C39). *)
From Verif Require Import Abs_Model Betree_Model Betree_Spec Branch_Model Branch_Spec LinkedBetree_Model LinkedBetree_Spec
  LikesBetree_Model LikesBetree_Spec BranchBetree_Model BranchBetree_Spec BranchBetree_Facts BranchAnswers_Facts Branch_Example BranchBetree_Example.
Implicit Types (fixed grow : bool) (s : ABB.State).

(** ** C42: every allocation unit has one owner, and nothing is lost or leaked. *)
(** The units taken and not returned are exactly the units needed. *)
Theorem C42_units_are_accounted_for `{Geometry} fixed grow s0 b ls s (H0 : gset AU) :
  ABB.initialize s0 b → run (ABB.next fixed grow) s0 ls s →
  (∀ u, u ∈ H0 ↔ needed s0 u) → ∀ u, u ∈ units_held H0 ls ↔ needed s u.
Proof. exact (run_units fixed grow s0 b ls s H0). Qed.
Print Assumptions C42_units_are_accounted_for.
(** No step takes a unit in use or returns one that is not, or that still is. *)
Theorem C42_steps_take_free_units_and_return_used_ones `{Geometry} fixed grow s0 b ls s s' l :
  ABB.initialize s0 b → run (ABB.next fixed grow) s0 ls s → ABB.next fixed grow s s' l →
  (∀ u, u ∈ unit_allocs l → ¬ needed s u) ∧ (∀ u, u ∈ unit_frees l → needed s u) ∧
  (∀ u, needed s' u ↔ (needed s u ∨ u ∈ unit_allocs l) ∧ u ∉ unit_frees l).
Proof. exact (run_step_units fixed grow s0 b ls s s' l). Qed.
Print Assumptions C42_steps_take_free_units_and_return_used_ones.
Theorem C42_one_owner `{Geometry} fixed grow s0 b ls s o o' u :
  ABB.initialize s0 b → run (ABB.next fixed grow) s0 ls s → owns s o u → owns s o' u → o = o'.
Proof. exact (run_one_owner fixed grow s0 b ls s o o' u). Qed.
Print Assumptions C42_one_owner.
(** The counts kept are the numbers of references from the tree. *)
Theorem C42_counts_are_references `{Geometry} fixed grow s0 b ls s :
  ABB.initialize s0 b → run (ABB.next fixed grow) s0 ls s →
  ∀ u, exactly (λ is, ∃ a, node_ref (root (ABB.betree s)) is a ∧ au a = u) (multiplicity u (ABB.betree_aus s)) ∧
       exactly (λ isj, ∃ r, buffer_ref (root (ABB.betree s)) isj r ∧ au r = u) (multiplicity u (ABB.branch_aus s)).
Proof. exact (run_counts fixed grow s0 b ls s). Qed.
Print Assumptions C42_counts_are_references.
(** Nothing in use is missing, every branch in use is a search tree on the disk,
    and there are no pages but those of branches in use and of units with a node
    in use. *)
Theorem C42_nothing_missing_nothing_leaked `{Geometry} fixed grow s0 b ls s :
  ABB.initialize s0 b → run (ABB.next fixed grow) s0 ls s →
  nothing_missing (root (ABB.betree s)) ∧
  (∀ r, in_use s r → ∃ n, stores (lb_bdv (root (ABB.betree s))) r n ∧ search_tree None None n) ∧
  (∀ a, is_Some (lb_bdv (root (ABB.betree s)) !! a) ↔ ∃ r, in_use s r ∧ branch_page (lb_bdv (root (ABB.betree s))) r a) ∧
  (∀ a, is_Some (lb_dv (root (ABB.betree s)) !! a) → ∃ a', node_live (root (ABB.betree s)) a' ∧ au a' = au a).
Proof. exact (run_missing fixed grow s0 b ls s). Qed.
Print Assumptions C42_nothing_missing_nothing_leaked.
(** Pages are not overwritten, and a branch in use stays as it is: in particular
    under a compaction that reads it. *)
Theorem C42_copy_on_write `{Geometry} fixed grow s0 b ls s s' l :
  ABB.initialize s0 b → run (ABB.next fixed grow) s0 ls s → ABB.next fixed grow s s' l →
  branch_pages_kept (root (ABB.betree s)) (root (ABB.betree s')) ∧
  ∀ r, in_use s r → in_use s' r →
    (∀ a, branch_page (lb_bdv (root (ABB.betree s'))) r a ↔ branch_page (lb_bdv (root (ABB.betree s))) r a) ∧
    (∀ a, branch_page (lb_bdv (root (ABB.betree s))) r a →
       lb_bdv (root (ABB.betree s')) !! a = lb_bdv (root (ABB.betree s)) !! a).
Proof. exact (run_kept fixed grow s0 b ls s s' l). Qed.
Print Assumptions C42_copy_on_write.

(** ** C43: the answers are those of the abstract map. *)
Theorem C43_faithful `{Geometry} grow s0 b ls s :
  ABB.initialize s0 b → run (ABB.next true grow) s0 ls s →
  ∃ m, Betree_Spec.holds branch_answers (root b) m ∧ branches_act_as_map (mkStamped m (mt_seq_end (memtable b))) ls s.
Proof. exact (run_faithful true grow s0 b ls s eq_refl). Qed.
Print Assumptions C43_faithful.
Theorem C43_one_answer_per_key `{Geometry} grow s0 b ls s k :
  ABB.initialize s0 b → run (ABB.next true grow) s0 ls s →
  ∃ v, branch_can_answer true grow s k v ∧ ∀ v', branch_can_answer true grow s k v' → v' = v.
Proof. exact (run_one_answer true grow s0 b ls s k eq_refl). Qed.
Print Assumptions C43_one_answer_per_key.
(** Building, flushing, splitting and compacting change no answer. *)
Theorem C43_background_changes_no_answer `{Geometry} grow s0 b ls s s' alls deallocs :
  ABB.initialize s0 b → run (ABB.next true grow) s0 ls s → ABB.next true grow s s' (ABB.Int alls deallocs) →
  ∀ k v, branch_can_answer true grow s k v ↔ branch_can_answer true grow s' k v.
Proof. exact (run_invisible grow s0 b ls s s' alls deallocs). Qed.
Print Assumptions C43_background_changes_no_answer.

Local Existing Instance bgeo.
(** As written, a compaction can change the value of a key. *)
Theorem C43_compaction_keeps_answers_refuted :
  ∃ ls ls' s s' k v v', ABB.initialize BranchEx.s0 BranchEx.tree0 ∧
    run (ABB.next false false) BranchEx.s0 ls s ∧ run (ABB.next false false) s ls' s' ∧
    Forall (λ l, ∃ alls deallocs, l = ABB.Int alls deallocs) ls' ∧
    branch_can_answer false false s k v ∧ branch_can_answer false false s' k v' ∧ v ≠ v'.
Proof. exact BranchEx.changed. Qed.
Print Assumptions C43_compaction_keeps_answers_refuted.

(** A branch of several pages is built, flushed, compacted with a second one while
    it is read, and released; the compacted branch is shared by a split and a
    third is flushed to a child. The sets are the units held after each. *)
Example C42_example :
  ABB.initialize BranchEx.s0 BranchEx.tree0 ∧
  BranchEx.reach true true BranchEx.t8 {[1; 2; 5; 11; 6]} ∧ BranchEx.reach true true BranchEx.t9 {[6; 12]} ∧
  BranchEx.reach true true BranchEx.t14 {[2; 6; 15; 18; 19]} ∧
  (multiplicity 6 (ABB.branch_aus BranchEx.t11) = 2 ∧ multiplicity 2 (ABB.branch_aus BranchEx.t14) = 2) ∧
  (being_read BranchEx.t8 (LBranch.root BranchEx.big) ∧ branch_units (lb_bdv (ABB.linked BranchEx.t8)) (LBranch.root BranchEx.big) {[1; 2]} ∧
   owns BranchEx.t8 (TheBranch (LBranch.root BranchEx.big)) 2 ∧ owns BranchEx.t8 (TheBuilder 0) 6 ∧ owns BranchEx.t8 TheNodes 11).
Proof.
  exact (conj BranchEx.initial (conj BranchEx.run8 (conj BranchEx.run9 (conj BranchEx.run14 (conj BranchEx.shared BranchEx.reading))))).
Qed.
Example C43_example :
  BranchEx.reach true true BranchEx.t9 {[6; 12]} ∧
  branch_can_answer true true BranchEx.t9 5 99 ∧ branch_can_answer true true BranchEx.t9 9 0.
Proof. exact (conj BranchEx.run9 BranchEx.answers). Qed.
