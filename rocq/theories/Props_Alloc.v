(** Properties of the page allocators (C32). *)
From Verif Require Import Spec_Model Spec_Proof AllocJournal_Model Alloc_Model Alloc_Spec Alloc_Proof.

(** ** The executable allocator *)
(** A page is handed out twice only if everything was given up in between. *)
Theorem C32_exec_pages_are_fresh `{Geometry} tr m i j a :
  run XAlloc.next XAlloc.empty tr m → i < j →
  tr !! i = Some (XAlloc.Take a) → tr !! j = Some (XAlloc.Take a) → between tr i j (λ l, l = XAlloc.Reset).
Proof. exact (xalloc_fresh tr m i j a). Qed.
Print Assumptions C32_exec_pages_are_fresh.
Example C32_exec_pages_are_fresh_example :
  run (@XAlloc.next ageo) XAlloc.empty xstory xend ∧
  xstory !! 1 = Some (XAlloc.Take (mkAddr 1 0)) ∧ xstory !! 5 = Some (XAlloc.Take (mkAddr 1 0)).
Proof. exact (conj xstory_run (conj eq_refl eq_refl)). Qed.

(** A page handed out exists and is a page of the unit that was given. *)
Theorem C32_exec_pages_are_own `{Geometry} tr m j a :
  run XAlloc.next XAlloc.empty tr m → tr !! j = Some (XAlloc.Take a) →
  addr_wf a ∧ ∃ i, holds_unit tr j (au a) i.
Proof. exact (xalloc_own tr m j a). Qed.
Print Assumptions C32_exec_pages_are_own.
Example C32_exec_pages_are_own_example :
  run (@XAlloc.next ageo) XAlloc.empty xstory xend ∧ xstory !! 2 = Some (XAlloc.Take (mkAddr 1 1)).
Proof. exact (conj xstory_run eq_refl). Qed.

(** All pages of a unit are handed out: as long as fewer than [page_count] were
    taken since the unit was given, another can be taken. Page numbers are 32-bit. *)
Theorem C32_exec_pages_are_available `{Geometry} tr m i u :
  (N.of_nat page_count ≤ XAlloc.u32_max)%N →
  run XAlloc.next XAlloc.empty tr m → holds_unit tr (length tr) u i →
  length (takes (drop (S i) tr)) < page_count →
  ∃ a m', XAlloc.next m m' (XAlloc.Take a).
Proof. exact (xalloc_available tr m i u). Qed.
Print Assumptions C32_exec_pages_are_available.
Example C32_exec_pages_are_available_example :
  (N.of_nat (@page_count ageo) ≤ XAlloc.u32_max)%N ∧
  run (@XAlloc.next ageo) XAlloc.empty xstory xend ∧ holds_unit xstory (length xstory) 1 4 ∧
  length (takes (drop 5 xstory)) < @page_count ageo.
Proof.
  split; [by vm_compute|]. split; [exact xstory_run|]. split; [|cbn; lia].
  split; [cbn; lia|]. split; [by exists 1%N|]. intros (k & l & Hk & Hl & ->). cbn in Hk.
  replace k with 5 in Hl by lia. discriminate.
Qed.

(** A call whose requirements are met does not overflow or panic. *)
Theorem C32_exec_never_panics `{Geometry} tr m p :
  (N.of_nat page_count ≤ XAlloc.u32_max)%N → run XAlloc.next XAlloc.empty tr m →
  XAlloc.allocs m = Some p → XAlloc.has_free_addr p → is_Some (XAlloc.allocate_and_observe m).
Proof. exact (xalloc_no_panic tr m p). Qed.
Print Assumptions C32_exec_never_panics.
Example C32_exec_never_panics_example :
  (N.of_nat (@page_count ageo) ≤ XAlloc.u32_max)%N ∧ run (@XAlloc.next ageo) XAlloc.empty xstory xend ∧
  XAlloc.allocs xend = Some (XAlloc.mkPA 1 1 1) ∧ @XAlloc.has_free_addr ageo (XAlloc.mkPA 1 1 1).
Proof. split; [by vm_compute|]. split; [exact xstory_run|]. split; [reflexivity|]. intros Heq. discriminate Heq. Qed.

(** With the view repaired every call does what the specification's calls do. *)
Theorem C32_exec_refines_spec `{Geometry} tr m m' l :
  run XAlloc.next XAlloc.empty tr m → XAlloc.next m m' l →
  run (MAlloc.next false) (XAlloc.view true m) (as_spec_calls (XAlloc.view true m) l) (XAlloc.view true m').
Proof. exact (xalloc_refines tr m m' l). Qed.
Print Assumptions C32_exec_refines_spec.
Example C32_exec_refines_spec_example :
  run (@XAlloc.next ageo) XAlloc.empty xstory xend ∧ @XAlloc.next ageo xend XAlloc.empty XAlloc.Reset.
Proof. split; [exact xstory_run|]. split; [by eexists|done]. Qed.

(** As written, giving a unit is not what the specification says: the view takes a
    unit nothing was taken from for the current one. *)
Theorem C32_as_written_view_refuted :
  ¬ (∀ (G : Geometry) tr m m' l, run XAlloc.next XAlloc.empty tr m → XAlloc.next m m' l →
      run (MAlloc.next false) (XAlloc.view false m) (as_spec_calls (XAlloc.view false m) l) (XAlloc.view false m')).
Proof.
  intros HF. specialize (HF ageo [] XAlloc.empty (XAlloc.add_aus XAlloc.empty 1) (XAlloc.Give 1) (run_nil _ _)).
  assert (Hn : @XAlloc.next ageo XAlloc.empty (XAlloc.add_aus XAlloc.empty 1) (XAlloc.Give 1))
    by (split; [done|]; split; [cbn; lia|done]).
  apply HF, run_cons_inv in Hn as (m & Hn & Hr). apply run_nil_inv in Hr.
  rewrite <- Hr in Hn. apply (f_equal curr) in Hn. vm_compute in Hn. discriminate.
Qed.
Print Assumptions C32_as_written_view_refuted.

(** As written, a unit is given up even while pages of it are in use. *)
Theorem C32_exec_prunes_used_units_refuted :
  ¬ (∀ (G : Geometry) tr m i j a, run XAlloc.next XAlloc.empty tr m → i < j →
      tr !! i = Some (XAlloc.Take a) → tr !! j = Some XAlloc.Reset → False).
Proof.
  intros HF. exact (HF ageo xstory xend 1 3 (mkAddr 1 0) xstory_run ltac:(lia) eq_refl eq_refl).
Qed.
Print Assumptions C32_exec_prunes_used_units_refuted.

(** ** The specification's allocator *)
(** A page is handed out twice only if its unit was pruned in between; [guarded] or
    not, from any state. *)
Theorem C32_pages_are_fresh `{Geometry} guarded m0 tr m i j a :
  run (MAlloc.next guarded) m0 tr m → i < j →
  tr !! i = Some (MAlloc.Take a) → tr !! j = Some (MAlloc.Take a) →
  between tr i j (λ l, ∃ aus, l = MAlloc.Prune aus ∧ au a ∈ aus).
Proof. exact (malloc_fresh guarded m0 tr m i j a). Qed.
Print Assumptions C32_pages_are_fresh.
Example C32_pages_are_fresh_example : ∃ m,
  run (@MAlloc.next ageo false) (@XAlloc.view ageo true XAlloc.empty)
    ([MAlloc.Give {[1]}; MAlloc.Take (mkAddr 1 0); MAlloc.Observe (mkAddr 1 0); MAlloc.Prune {[1]};
      MAlloc.Give {[1]}; MAlloc.Take (mkAddr 1 0); MAlloc.Observe (mkAddr 1 0)]) m.
Proof. exact twice_run. Qed.

(** Pages come from units that were given and not pruned since. *)
Theorem C32_pages_are_own `{Geometry} guarded tr m j a :
  run (MAlloc.next guarded) ma_empty tr m → tr !! j = Some (MAlloc.Take a) →
  addr_wf a ∧ ∃ i aus, i < j ∧ tr !! i = Some (MAlloc.Give aus) ∧ au a ∈ aus ∧
    ¬ between tr i j (λ l, ∃ X, l = MAlloc.Prune X ∧ au a ∈ X).
Proof. exact (malloc_own guarded ma_empty tr m j a eq_refl). Qed.
Print Assumptions C32_pages_are_own.
Example C32_pages_are_own_example :
  (∃ m, run (@MAlloc.next ageo true) ma_empty mstory m) ∧ mstory !! 4 = Some (MAlloc.Take (mkAddr 1 1)).
Proof. exact (conj (mstory_run true) eq_refl). Qed.

(** If units are only pruned when [can_remove] holds of them, no page is ever
    handed out twice, *)
Theorem C32_guarded_pages_never_twice `{Geometry} m0 tr m i j a :
  run (MAlloc.next true) m0 tr m →
  tr !! i = Some (MAlloc.Take a) → tr !! j = Some (MAlloc.Take a) → i = j.
Proof. exact (malloc_never_twice m0 tr m i j a). Qed.
Print Assumptions C32_guarded_pages_never_twice.
Example C32_guarded_pages_never_twice_example : ∃ m, run (@MAlloc.next ageo true) ma_empty mstory m.
Proof. exact (mstory_run true). Qed.

(** and no unit is pruned that a page was ever taken from. *)
Theorem C32_guarded_prunes_unused_units `{Geometry} m0 tr m i j a aus :
  run (MAlloc.next true) m0 tr m → i < j →
  tr !! i = Some (MAlloc.Take a) → tr !! j = Some (MAlloc.Prune aus) → au a ∉ aus.
Proof. exact (malloc_prunes_unused m0 tr m i j a aus). Qed.
Print Assumptions C32_guarded_prunes_unused_units.
Example C32_guarded_prunes_unused_units_example :
  (∃ m, run (@MAlloc.next ageo true) ma_empty mstory m) ∧ mstory !! 3 = Some (MAlloc.Prune {[2]}).
Proof. exact (conj (mstory_run true) eq_refl). Qed.
