(** * C33, C34, C39, C40: branches *)
From Verif Require Import Spec_Model Betree_Model Branch_Model Branch_Spec Branch_Proof BranchPages_Proof
  BranchBuild_Proof BranchProps_Proof Branch_Example.
From Coq Require Import Sorting.Sorted.

(** ** C33: the in-memory branch is a sorted map *)

(** From any first leaf, after any calls, a query for any key returns the last message
    written under it, and so did every query on the way. *)
Theorem C33_queries_return_last_write keys msgs ls n :
  first_leaf keys msgs → run PBranch.next (PBranch.Leaf keys msgs) ls n →
  (∀ k, PBranch.query n k = last_written (zip keys msgs ++ writes ls) k) ∧ answers_last (zip keys msgs) ls.
Proof. exact (λ Hf Hr, proj2 (proj2 (branch_run keys msgs ls n Hf Hr))). Qed.
Print Assumptions C33_queries_return_last_write.
Example C33_queries_return_last_write_example :
  first_leaf ex_keys ex_msgs ∧ run PBranch.next (PBranch.Leaf ex_keys ex_msgs) ex_calls ex_final ∧
  PBranch.query ex_final 3 = Define 31 ∧ PBranch.query ex_final 9 = Update 1 ∧ PBranch.query ex_final 6 = Update nop_delta.
Proof. exact (conj ex_first (conj ex_run (conj eq_refl (conj eq_refl eq_refl)))). Qed.

(** It stays a search tree with all leaves on one level, and its keys from left to right
    are strictly increasing. *)
Theorem C33_stays_sorted_and_balanced keys msgs ls n :
  first_leaf keys msgs → run PBranch.next (PBranch.Leaf keys msgs) ls n →
  search_tree None None n ∧ leaves_at (levels ls) n ∧ StronglySorted N.lt (contents n).*1.
Proof. exact (branch_tree keys msgs ls n). Qed.
Print Assumptions C33_stays_sorted_and_balanced.
Example C33_stays_sorted_and_balanced_example :
  run PBranch.next (PBranch.Leaf ex_keys ex_msgs) ex_calls ex_final ∧ levels ex_calls = 2 ∧
  (contents ex_final).*1 = [1; 3; 5; 7; 9]%N.
Proof. exact (conj ex_run (conj eq_refl eq_refl)). Qed.

(** In any search tree: a query returns the message stored with the key, and the message
    that changes nothing when there is none. *)
Theorem C33_queries_read_the_contents n k m : search_tree None None n →
  ((k, m) ∈ contents n → PBranch.query n k = m) ∧ (k ∉ (contents n).*1 → PBranch.query n k = Update nop_delta).
Proof. exact (λ H, contents_answers n k m (proj2 (wf_iff n) H)). Qed.
Print Assumptions C33_queries_read_the_contents.
Example C33_queries_read_the_contents_example : search_tree None None ex_final.
Proof. exact (proj1 (branch_tree _ _ _ _ ex_first ex_run)). Qed.

(** Inserting sets one key. *)
Theorem C33_insert_sets_one_key n n' k m d :
  search_tree None None n → PBranch.next n n' (PBranch.Insert k m d) →
  PBranch.query n' k = m ∧ ∀ j, j ≠ k → PBranch.query n' j = PBranch.query n j.
Proof. exact (λ H, insert_one n n' k m d (proj2 (wf_iff n) H)). Qed.
Print Assumptions C33_insert_sets_one_key.
Example C33_insert_sets_one_key_example :
  ∃ n', PBranch.next ex_final n' (PBranch.Insert 6 (Define 60) 2).
Proof. exact (proj2 (always_insert _ _ _ _ _ _ 2 ex_first ex_run) eq_refl). Qed.

(** Appending sets the appended keys. *)
Theorem C33_append_sets_its_keys n n' ks ms d :
  search_tree None None n → PBranch.next n n' (PBranch.Append ks ms d) →
  (∀ i k m, ks !! i = Some k → ms !! i = Some m → PBranch.query n' k = m) ∧
  ∀ j, j ∉ ks → PBranch.query n' j = PBranch.query n j.
Proof. exact (λ H, append_all n n' ks ms d (proj2 (wf_iff n) H)). Qed.
Print Assumptions C33_append_sets_its_keys.
Example C33_append_sets_its_keys_example :
  ∃ n, PBranch.next (PBranch.Leaf ex_keys ex_msgs) n (PBranch.Append ex_app ex_appm 0).
Proof. exact (match b_run with ex_intro _ n Hr => match Alloc_Proof.run_cons_inv _ _ _ _ _ Hr with ex_intro _ n1 H => ex_intro _ n1 (proj1 H) end end). Qed.

(** Growing and splitting change neither the pairs, nor their order, nor any answer. *)
Theorem C33_reorganising_is_invisible n n' ls :
  search_tree None None n → run PBranch.next n ls n' → Forall rearranges ls →
  contents n' = contents n ∧ ∀ k, PBranch.query n' k = PBranch.query n k.
Proof. exact (λ H, rearrange_run n n' ls (proj2 (wf_iff n) H)). Qed.
Print Assumptions C33_reorganising_is_invisible.
Example C33_reorganising_is_invisible_example :
  ∃ n n', search_tree None None n ∧ run PBranch.next n (drop 7 ex_calls) n' ∧
    drop 7 ex_calls = [PBranch.Grow; PBranch.Split (SplitAtIndex 5 0) 0].
Proof.
  exact (match Alloc_Proof.run_split _ _ _ _ 7 ex_run with
         | ex_intro _ n (conj H1 H2) =>
             ex_intro _ n (ex_intro _ ex_final (conj (proj1 (branch_tree _ _ _ _ ex_first H1)) (conj H2 eq_refl)))
         end).
Qed.

(** A message can always be inserted under any key, at the level of the leaves and at no
    other. *)
Theorem C33_insert_is_always_possible keys msgs ls n k m d :
  first_leaf keys msgs → run PBranch.next (PBranch.Leaf keys msgs) ls n →
  (∃ n', PBranch.next n n' (PBranch.Insert k m d)) ↔ d = levels ls.
Proof. exact (always_insert keys msgs ls n k m d). Qed.
Print Assumptions C33_insert_is_always_possible.
Example C33_insert_is_always_possible_example :
  run PBranch.next (PBranch.Leaf ex_keys ex_msgs) ex_calls ex_final ∧ levels ex_calls = 2.
Proof. exact (conj ex_run eq_refl). Qed.

(** A leaf with two keys, below the root, can be split at one of its keys. *)
Theorem C33_full_leaf_can_be_split n h k keys msgs :
  search_tree None None n → leaves_at (S h) n → PBranch.target n k (S h) = PBranch.Leaf keys msgs → 2 ≤ length keys →
  ∃ p n', p ∈ keys ∧ PBranch.next n n' (PBranch.Split (SplitAtKey p) h).
Proof.
  exact (λ H1 H2 H3 H4,
    match split_possible n h k keys msgs (proj2 (wf_iff n) H1) H2 H3 H4 with
    | ex_intro _ p (conj Ha Hb) => ex_intro _ p (ex_intro _ _ (conj Ha (conj Hb eq_refl)))
    end).
Qed.
Print Assumptions C33_full_leaf_can_be_split.
Example C33_full_leaf_can_be_split_example :
  leaves_at 2 ex_final ∧ PBranch.target ex_final 7 2 = PBranch.Leaf [5; 7; 9]%N [Define 50; Define 70; Update 1]%N.
Proof. exact (conj (proj1 (proj2 (branch_tree _ _ _ _ ex_first ex_run))) eq_refl). Qed.

(** ** C34: the branch on pages behaves as the in-memory one *)

(** The invariant says just that the pages under the root spell out a search tree; there
    is only one such tree. *)
Theorem C34_pages_spell_one_tree {T} (b : LBranch.t T) :
  (LBranch.inv b ↔ LBranch.disk_wf (LBranch.disk b) ∧
     ∃ n, stores (LBranch.disk b) (LBranch.root b) n ∧ search_tree None None n) ∧
  ∀ n n', stores (LBranch.disk b) (LBranch.root b) n → stores (LBranch.disk b) (LBranch.root b) n' → n = n'.
Proof. exact (conj (inv_spells b) (λ n n', stores_det (LBranch.disk b) n (LBranch.root b) n')). Qed.
Print Assumptions C34_pages_spell_one_tree.
Example C34_pages_spell_one_tree_example :
  LBranch.inv ex_pages ∧ stores (LBranch.disk ex_pages) (LBranch.root ex_pages) ex_final ∧ size (LBranch.disk ex_pages) = 5.
Proof. exact (conj (proj2 (inv_iff ex_pages) (ex_intro _ _ ex_pages_holds)) (conj (proj1 (proj2 ex_pages_holds)) eq_refl)). Qed.

(** Any calls on the pages are calls on the tree they spell, with the same answers; the
    result spells the resulting tree, has no cycle, and has no stray page if there was
    none. *)
Theorem C34_behaves_as_in_memory {T} (b b' : LBranch.t T) n ls :
  LBranch.inv b → stores (LBranch.disk b) (LBranch.root b) n → run LBranch.next b ls b' →
  ∃ n', run PBranch.next n (map erase ls) n' ∧ stores (LBranch.disk b') (LBranch.root b') n' ∧
    LBranch.inv b' ∧ no_cycle b' ∧ (tight b → tight b').
Proof. exact (pages_behave b b' n ls). Qed.
Print Assumptions C34_behaves_as_in_memory.
Example C34_behaves_as_in_memory_example :
  LBranch.inv ex_page ∧ tight ex_page ∧ run LBranch.next ex_page ex_lcalls ex_pages ∧ map erase ex_lcalls = ex_calls.
Proof.
  exact (conj (proj2 (inv_iff ex_page) (ex_intro _ _ (proj1 ex_page_holds)))
           (conj (proj2 ex_page_holds) (conj ex_lrun eq_refl))).
Qed.

(** The pages accept a call just when the tree does and the page it takes is not in use. *)
Theorem C34_accepts_the_same_calls {T} (b : LBranch.t T) n l :
  LBranch.inv b → stores (LBranch.disk b) (LBranch.root b) n →
  (∃ b', LBranch.next b b' l) ↔
  (∃ n', PBranch.next n n' (erase l)) ∧ ∀ a, takes l = Some a → LBranch.disk b !! a = None.
Proof. exact (pages_accept b n l). Qed.
Print Assumptions C34_accepts_the_same_calls.
Example C34_accepts_the_same_calls_example :
  LBranch.inv ex_pages ∧ stores (LBranch.disk ex_pages) (LBranch.root ex_pages) ex_final ∧
  LBranch.disk ex_pages !! pg 3 1 = None.
Proof. exact (conj (proj2 (inv_iff ex_pages) (ex_intro _ _ ex_pages_holds)) (conj (proj1 (proj2 ex_pages_holds)) eq_refl)). Qed.

(** Queries agree. *)
Theorem C34_same_answers {T} (b : LBranch.t T) n k m :
  LBranch.inv b → stores (LBranch.disk b) (LBranch.root b) n →
  LBranch.query b k m ↔ m = PBranch.query n k.
Proof. exact (pages_answer b n k m). Qed.
Print Assumptions C34_same_answers.
Example C34_same_answers_example : LBranch.query ex_pages 3 (Define 31).
Proof. exact (proj2 (query_iff ex_pages ex_final 3%N (Define 31%N) ex_pages_holds) eq_refl). Qed.

(** From one page, after any calls. *)
Theorem C34_history {T} a keys msgs ls (b : LBranch.t T) :
  first_leaf keys msgs → run LBranch.next (LBranch.mk a {[a := LBranch.Leaf keys msgs]}) ls b →
  LBranch.inv b ∧ no_cycle b ∧ tight b ∧
  (∀ k m, LBranch.query b k m ↔ m = last_written (zip keys msgs ++ writes (map erase ls)) k) ∧
  answers_last (zip keys msgs) (map erase ls).
Proof. exact (pages_history a keys msgs ls b). Qed.
Print Assumptions C34_history.
Example C34_history_example : first_leaf ex_keys ex_msgs ∧ run LBranch.next ex_page ex_lcalls ex_pages.
Proof. exact (conj ex_first ex_lrun). Qed.

(** ** C39: the branch builder. The theorems are about the events of the code together
    with [Grow], so in particular about the events of the code alone. *)

(** At every point the branch built answers each query with the last message given to the
    builder. *)
Theorem C39_branch_answers_what_was_built `{Geometry} free ls s b :
  run ABranch.build_next_grow (ABranch.new free) ls s → ABranch.branch s = Some b →
  LBranch.inv b ∧ no_cycle b ∧ ∀ k m, ABranch.linked_query b k m ↔ m = last_written (built ls) k.
Proof. exact (build_answers free ls s b). Qed.
Print Assumptions C39_branch_answers_what_was_built.
Example C39_branch_answers_what_was_built_example :
  run (@ABranch.build_next_grow bgeo) (@ABranch.new free1) ex_build st6 ∧
  built ex_build = [(1, Define 10); (5, Define 50); (7, Define 70); (9, Update 1)]%N.
Proof. exact (conj ex_build_run eq_refl). Qed.

(** Events of the code alone. *)
Theorem C39_as_written_answers_what_was_built `{Geometry} free ls s b :
  run ABranch.build_next (ABranch.new free) ls s → ABranch.branch s = Some b →
  LBranch.inv b ∧ no_cycle b ∧ ∀ k m, ABranch.linked_query b k m ↔ m = last_written (built ls) k.
Proof. exact (written_answers free ls s b). Qed.
Print Assumptions C39_as_written_answers_what_was_built.
Example C39_as_written_answers_what_was_built_example :
  run (@ABranch.build_next bgeo) (@ABranch.new free1) ex_written st3w.
Proof. exact ex_written_run. Qed.

(** The pages of the branch are the pages reserved, all of them under the root; after
    sealing one of them may be the summary instead. *)
Theorem C39_pages_are_those_reserved `{Geometry} free ls s b :
  run ABranch.build_next_grow (ABranch.new free) ls s → ABranch.branch s = Some b →
  (∀ a, is_Some (LBranch.disk b !! a) ↔ page_is_reserved (ABranch.mini_allocator s) a) ∧
  (ABranch.sealed s = false → tight b) ∧
  (ABranch.sealed s = true → ∀ a, is_Some (LBranch.disk b !! a) ↔
     rtc (names (LBranch.disk b)) (LBranch.root b) a ∨ summary_page b a).
Proof. exact (build_pages free ls s b). Qed.
Print Assumptions C39_pages_are_those_reserved.
Example C39_pages_are_those_reserved_example :
  run (@ABranch.build_next_grow bgeo) (@ABranch.new free1) ex_build st6 ∧ ABranch.sealed st6 = true.
Proof. exact (conj ex_build_run eq_refl). Qed.

(** The summary of a sealed branch lists exactly the allocation units with a page of the
    branch, and these are the units given to the builder and not given back. *)
Theorem C39_summary_lists_the_units `{Geometry} free ls s b :
  run ABranch.build_next_grow (ABranch.new free) ls s → ABranch.branch s = Some b →
  ABranch.sealed s = true → ∀ u,
  (u ∈ ABranch.get_summary b ↔ units_with_pages b u) ∧
  (u ∈ ABranch.get_summary b ↔ (u ∈ free ∨ u ∈ units_taken ls) ∧ u ∉ units_returned ls).
Proof. exact (build_summary free ls s b). Qed.
Print Assumptions C39_summary_lists_the_units.
Example C39_summary_lists_the_units_example :
  ∃ b, ABranch.branch st6 = Some b ∧ ABranch.sealed st6 = true ∧ ABranch.get_summary b = {[1; 2]} ∧
    LBranch.disk b !! pg 2 1 = Some (LBranch.Auxiliary {[1; 2]}) ∧
    built ex_build = [(1, Define 10); (5, Define 50); (7, Define 70); (9, Update 1)]%N.
Proof. exact ex_build_result. Qed.

(** Every unit given to the builder is still with it or was given back, and none is given
    back before sealing. *)
Theorem C39_units_are_accounted_for `{Geometry} free ls s :
  run ABranch.build_next_grow (ABranch.new free) ls s →
  (∀ u, u ∈ all_aus (ABranch.mini_allocator s) ↔ (u ∈ free ∨ u ∈ units_taken ls) ∧ u ∉ units_returned ls) ∧
  (ABranch.sealed s = false → units_returned ls = ∅).
Proof. exact (build_units free ls s). Qed.
Print Assumptions C39_units_are_accounted_for.
Example C39_units_are_accounted_for_example :
  run (@ABranch.build_next_grow bgeo) (@ABranch.new free1) ex_build st6.
Proof. exact ex_build_run. Qed.

(** A sealed branch never changes. *)
Theorem C39_sealed_is_final `{Geometry} s s' l : ABranch.sealed s = true → ¬ ABranch.build_next_grow s s' l.
Proof. exact (build_sealed s s' l). Qed.
Print Assumptions C39_sealed_is_final.
Example C39_sealed_is_final_example : ABranch.sealed st6 = true.
Proof. exact eq_refl. Qed.

(** With the events of the code alone a branch never has a second page, and no split is
    ever possible. *)
Theorem C39_second_page_refuted `{Geometry} free ls s :
  run ABranch.build_next (ABranch.new free) ls s →
  (∀ b, ABranch.branch s = Some b → ∃ a keys msgs, b = LBranch.mk a {[a := LBranch.Leaf keys msgs]}) ∧
  ∀ s' a d sp alls deallocs, ¬ ABranch.build_next s s' (ABranch.Split a d sp, alls, deallocs).
Proof. exact (λ Hr, conj (λ b, written_single free ls s b Hr) (λ s' a d sp x y, written_no_split free ls s s' a d sp x y Hr)). Qed.
Print Assumptions C39_second_page_refuted.
Example C39_second_page_refuted_example :
  run (@ABranch.build_next bgeo) (@ABranch.new free1) ex_written st3w.
Proof. exact ex_written_run. Qed.

(** ** C40: asking a branch whether it holds a key *)

(** With the comparison the right way round. *)
Theorem C40_contains_finds_the_keys (b : ABranch.Branch) n k :
  LBranch.inv b → stores (LBranch.disk b) (LBranch.root b) n →
  ABranch.linked_contains' b k ↔ ∃ m, (k, m) ∈ contents n ∧ m ≠ Update nop_delta.
Proof. exact (contains_holds b n k). Qed.
Print Assumptions C40_contains_finds_the_keys.
Example C40_contains_finds_the_keys_example :
  LBranch.inv ex_pages ∧ stores (LBranch.disk ex_pages) (LBranch.root ex_pages) ex_final ∧
  (3, Define 31)%N ∈ contents ex_final.
Proof.
  exact (conj (proj2 (inv_iff ex_pages) (ex_intro _ _ ex_pages_holds))
           (conj (proj1 (proj2 ex_pages_holds)) (elem_of_list_further _ _ _ (elem_of_list_here _ _)))).
Qed.

(** As written the answer is always the opposite. *)
Theorem C40_contains_refuted (b : ABranch.Branch) n k :
  LBranch.inv b → stores (LBranch.disk b) (LBranch.root b) n →
  ABranch.linked_contains b k ↔ ¬ ∃ m, (k, m) ∈ contents n ∧ m ≠ Update nop_delta.
Proof. exact (contains_inverted b n k). Qed.
Print Assumptions C40_contains_refuted.
Example C40_contains_refuted_example :
  LBranch.inv ex_pages ∧ stores (LBranch.disk ex_pages) (LBranch.root ex_pages) ex_final.
Proof. exact (conj (proj2 (inv_iff ex_pages) (ex_intro _ _ ex_pages_holds)) (proj1 (proj2 ex_pages_holds))). Qed.
