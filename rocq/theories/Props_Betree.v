(** Properties of the be-tree layers: C15, C16, C17, C19, C20. *)
From Verif Require Import Abs_Model Spec_Proof Betree_Model Betree_Spec Route_Proof Betree_Common
  Routed_Proof Betree_Facts Betree_Example.
From Verif Require PagedBetree_Proof PivotBetree_Proof FilteredBetree_Proof.

(** ** C15: the paged tree with its memtable is event for event the abstract map,
    and no reorganisation changes what a query can answer. *)
Theorem C15_paged_faithful s0 img ls s :
  Paged.initialize s0 img → run Paged.next s0 ls s →
  ∃ m, holds paged_answers (st_value img) m ∧
       acts_as_map paged_answers (mkStamped m (st_seq_end img)) ls s.
Proof. exact (PagedBetree_Proof.faithful s0 img ls s). Qed.
Print Assumptions C15_paged_faithful.
Theorem C15_paged_reorganisation_invisible s s' :
  Paged.next s s' Internal → ∀ k v, can_answer Paged.next s k v ↔ can_answer Paged.next s' k v.
Proof. exact (PagedBetree_Proof.internal_invisible s s'). Qed.
Print Assumptions C15_paged_reorganisation_invisible.
Example C15_example :
  Paged.initialize PagedEx.st0 Paged.empty_image ∧
  run Paged.next PagedEx.st0 [Put put1; Internal; Internal; Internal; Internal] PagedEx.st5 ∧
  can_answer Paged.next PagedEx.st5 3%N 7%N.
Proof. exact (conj PagedEx.initial (conj PagedEx.runs PagedEx.answers)). Qed.

(** ** C16: the tree that routes by pivots is event for event the abstract map,
    its pivots stay sorted with children tiling the whole key space, and no
    reorganisation changes what a query can answer. *)
Theorem C16_pivot_faithful s0 img ls s :
  Pivot.initialize s0 img → covers_all_keys (st_value img) → run Pivot.next s0 ls s →
  ∃ m, holds pivot_answers (st_value img) m ∧
       acts_as_map pivot_answers (mkStamped m (st_seq_end img)) ls s.
Proof. exact (PivotBetree_Proof.faithful s0 img ls s). Qed.
Print Assumptions C16_pivot_faithful.
Theorem C16_pivot_structure s0 img ls s :
  Pivot.initialize s0 img → covers_all_keys (st_value img) → run Pivot.next s0 ls s →
  tiles (root s) (Elem 0) EMax.
Proof. exact (pivot_structure s0 img ls s). Qed.
Print Assumptions C16_pivot_structure.
Theorem C16_pivot_reorganisation_invisible s0 img ls s s' :
  Pivot.initialize s0 img → covers_all_keys (st_value img) → run Pivot.next s0 ls s →
  Pivot.next s s' Internal →
  ∀ k v, can_answer Pivot.next s k v ↔ can_answer Pivot.next s' k v.
Proof. exact (pivot_invisible s0 img ls s s'). Qed.
Print Assumptions C16_pivot_reorganisation_invisible.
(** A frozen image is a legal image to restart from, again covering every key. *)
Theorem C16_pivot_frozen_image_restarts s0 img ls s s' img' :
  Pivot.initialize s0 img → covers_all_keys (st_value img) → run Pivot.next s0 ls s →
  Pivot.next s s' (FreezeAs img') →
  covers_all_keys (st_value img') ∧ ∃ s0', Pivot.initialize s0' img'.
Proof. exact (pivot_frozen s0 img ls s s' img'). Qed.
Print Assumptions C16_pivot_frozen_image_restarts.
(** Finding: the initial image is only required to be well formed, not to cover
    every key; without that a key can be put and never answered again. *)
Theorem C16_uncovered_image_refuted :
  ∃ s0 img s1, Pivot.initialize s0 img ∧
    Pivot.next s0 s1 (Put (singleton_at 0 (mkKM 3%N (Define 7%N)))) ∧
    ∀ ls s v, run Pivot.next s1 ls s → ¬ can_answer Pivot.next s 3%N v.
Proof. exact narrow_refuted. Qed.
Print Assumptions C16_uncovered_image_refuted.
Example C16_example :
  Pivot.initialize PivotEx.st0 Pivot.empty_image ∧ covers_all_keys (st_value Pivot.empty_image) ∧
  run Pivot.next PivotEx.st0 [Put put1; Internal; Internal; Internal; Internal; Internal; Internal] PivotEx.st7 ∧
  can_answer Pivot.next PivotEx.st7 3%N 7%N.
Proof. exact (conj (proj1 PivotEx.initial) (conj (proj2 PivotEx.initial) (conj PivotEx.run7 PivotEx.answers))). Qed.

(** ** C17: buffer stacks with per-child flushed offsets, garbage collection and
    compaction do not show. *)
Theorem C17_filtered_faithful s0 img ls s :
  Filtered.initialize s0 img → covers_all_keys (st_value img) → run Filtered.next s0 ls s →
  ∃ m, holds filtered_answers (st_value img) m ∧
       acts_as_map filtered_answers (mkStamped m (st_seq_end img)) ls s.
Proof. exact (FilteredBetree_Proof.faithful s0 img ls s). Qed.
Print Assumptions C17_filtered_faithful.
Theorem C17_filtered_structure s0 img ls s :
  Filtered.initialize s0 img → covers_all_keys (st_value img) → run Filtered.next s0 ls s →
  tiles (root s) (Elem 0) EMax.
Proof. exact (filtered_structure s0 img ls s). Qed.
Print Assumptions C17_filtered_structure.
Theorem C17_filtered_reorganisation_invisible s0 img ls s s' :
  Filtered.initialize s0 img → covers_all_keys (st_value img) → run Filtered.next s0 ls s →
  Filtered.next s s' Internal →
  ∀ k v, can_answer Filtered.next s k v ↔ can_answer Filtered.next s' k v.
Proof. exact (filtered_invisible s0 img ls s s'). Qed.
Print Assumptions C17_filtered_reorganisation_invisible.
(** A frozen image is a legal image to restart from, again covering every key. *)
Theorem C17_filtered_frozen_image_restarts s0 img ls s s' img' :
  Filtered.initialize s0 img → covers_all_keys (st_value img) → run Filtered.next s0 ls s →
  Filtered.next s s' (FreezeAs img') →
  covers_all_keys (st_value img') ∧ ∃ s0', Filtered.initialize s0' img'.
Proof. exact (filtered_frozen s0 img ls s s' img'). Qed.
Print Assumptions C17_filtered_frozen_image_restarts.
(** The example compacts two buffers, grows, splits, and flushes at two depths. *)
Example C17_example :
  Filtered.initialize FilteredEx.st0 Filtered.empty_image ∧ covers_all_keys (st_value Filtered.empty_image) ∧
  (∃ ls, run Filtered.next FilteredEx.st0 ls FilteredEx.st11) ∧
  can_answer Filtered.next FilteredEx.st11 3%N 7%N.
Proof. exact (conj (proj1 FilteredEx.initial) (conj (proj2 FilteredEx.initial) (conj FilteredEx.r11 FilteredEx.answers))). Qed.

(** ** C19: for every key a tree is responsible for there is a query receipt, all
    receipts report the same message, and it is the one the tree stores. *)
Theorem C19_paged_receipts_agree t k :
  ∃ m, paged_receipt t k m ∧ (∀ m', paged_receipt t k m' → m' = m) ∧ paged_answers t k m.
Proof. exact (paged_one t k). Qed.
Print Assumptions C19_paged_receipts_agree.
Theorem C19_pivot_receipts_agree t k :
  Routed.wf Pivot.dwf t → responsible t k →
  ∃ m, routed_receipt Pivot.dwf Pivot.q t k m ∧
       (∀ m', routed_receipt Pivot.dwf Pivot.q t k m' → m' = m) ∧ pivot_answers t k m.
Proof. exact (routed_one Pivot.dwf Pivot.q pivot_held t k PivotBetree_Proof.Hq). Qed.
Print Assumptions C19_pivot_receipts_agree.
Theorem C19_filtered_receipts_agree t k :
  Routed.wf Filtered.dwf t → responsible t k →
  ∃ m, routed_receipt Filtered.dwf Filtered.q t k m ∧
       (∀ m', routed_receipt Filtered.dwf Filtered.q t k m' → m' = m) ∧ filtered_answers t k m.
Proof. exact (routed_one Filtered.dwf Filtered.q filtered_held t k FilteredBetree_Proof.Hq). Qed.
Print Assumptions C19_filtered_receipts_agree.
(** In every reachable state every key can be queried, with exactly one answer. *)
Theorem C19_paged_one_answer s k :
  ∃ v, can_answer Paged.next s k v ∧ ∀ v', can_answer Paged.next s k v' → v' = v.
Proof. exact (PagedBetree_Proof.one_answer s k). Qed.
Print Assumptions C19_paged_one_answer.
Theorem C19_pivot_one_answer s0 img ls s k :
  Pivot.initialize s0 img → covers_all_keys (st_value img) → run Pivot.next s0 ls s →
  ∃ v, can_answer Pivot.next s k v ∧ ∀ v', can_answer Pivot.next s k v' → v' = v.
Proof. exact (pivot_one_answer s0 img ls s k). Qed.
Print Assumptions C19_pivot_one_answer.
Theorem C19_filtered_one_answer s0 img ls s k :
  Filtered.initialize s0 img → covers_all_keys (st_value img) → run Filtered.next s0 ls s →
  ∃ v, can_answer Filtered.next s k v ∧ ∀ v', can_answer Filtered.next s k v' → v' = v.
Proof. exact (filtered_one_answer s0 img ls s k). Qed.
Print Assumptions C19_filtered_one_answer.
Example C19_example :
  Routed.wf Pivot.dwf (root PivotEx.st7) ∧ responsible (root PivotEx.st7) 3%N ∧
  Routed.wf Filtered.dwf (root FilteredEx.st11) ∧ responsible (root FilteredEx.st11) 3%N.
Proof.
  exact (conj (PivotEx.wf_of _ _ PivotEx.run7) (conj PivotEx.resp7
    (conj (FilteredEx.wf_of _ FilteredEx.r11) FilteredEx.resp11))).
Qed.

(** ** C20: searching a sorted run of keys, and routing a key through pivots. *)
Theorem C20_largest_lte run k : keys_sorted run →
  let out := key_largest_lte run k in
  (-1 ≤ out < Z.of_nat (length run))%Z ∧
  (∀ i a, run !! i = Some a → ((Z.of_nat i ≤ out)%Z ↔ (a ≤ k)%N)) ∧
  (k ∈ run → ∃ i, out = Z.of_nat i ∧ run !! i = Some k).
Proof. exact (key_largest_lte_full run k). Qed.
Print Assumptions C20_largest_lte.
Theorem C20_largest_lt run k : keys_sorted run →
  let out := key_largest_lt run k in
  (-1 ≤ out < Z.of_nat (length run))%Z ∧
  (∀ i a, run !! i = Some a → ((Z.of_nat i ≤ out)%Z ↔ (a < k)%N)) ∧
  (k ∈ run → ∃ i, (out + 1)%Z = Z.of_nat i ∧ run !! i = Some k).
Proof. exact (key_largest_lt_full run k). Qed.
Print Assumptions C20_largest_lt.
Theorem C20_element_largest_lte run e : elts_sorted run →
  let out := elt_largest_lte run e in
  (-1 ≤ out < Z.of_nat (length run))%Z ∧
  (∀ i a, run !! i = Some a → ((Z.of_nat i ≤ out)%Z ↔ elt_lte a e)).
Proof. exact (elt_largest_lte_full run e). Qed.
Print Assumptions C20_element_largest_lte.
(** Searching a window of the run finds the whole run's position, clipped. *)
Theorem C20_largest_lte_window run k a b :
  keys_sorted run → a ≤ b ≤ length run →
  let out := key_largest_lte run k in
  let sub := key_largest_lte (subrange run a b) k in
  ((out < Z.of_nat a → sub = -1) ∧
   (Z.of_nat a ≤ out < Z.of_nat b → sub = out - Z.of_nat a) ∧
   (Z.of_nat b ≤ out → sub = Z.of_nat (b - a) - 1))%Z.
Proof. exact (largest_lte_subrange run k a b). Qed.
Print Assumptions C20_largest_lte_window.
(** Routing finds the one range that covers the key. *)
Theorem C20_route p k : pt_wf p → bounded_key p k →
  ∃ i, route p k = Z.of_nat i ∧ covers_key p i k ∧ ∀ j, covers_key p j k → j = i.
Proof. exact (route_full p k). Qed.
Print Assumptions C20_route.
Example C20_example :
  pt_wf [Elem 0; Elem 5; Elem 10; EMax] ∧ bounded_key [Elem 0; Elem 5; Elem 10; EMax] 7%N ∧
  route [Elem 0; Elem 5; Elem 10; EMax] 7%N = 1%Z ∧
  keys_sorted [3%N; 3%N; 8%N] ∧ key_largest_lte [3%N; 3%N; 8%N] 3%N = 1%Z ∧
  key_largest_lt [3%N; 3%N; 8%N] 3%N = (-1)%Z.
Proof. exact route_example. Qed.
