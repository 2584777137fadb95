(** Concrete executions that meet the hypotheses of the be-tree theorems. *)
From Verif Require Import Spec_Model Abs_Model Betree_Model Betree_Spec Spec_Proof Abs_Proof Route_Proof Betree_Common Routed_Proof.
From Verif Require PagedBetree_Proof PivotBetree_Proof FilteredBetree_Proof.
From Coq Require Import ZifyBool ZifyNat ZifyN Lia.

(** Concrete key-in-range goals are decided by computation. *)
Ltac bk := apply (bool_decide_unpack _); vm_compute; done.

Definition put1 : MsgHistory := singleton_at 0 (mkKM 3%N (Define 7%N)).
Definition put2 : MsgHistory := singleton_at 1 (mkKM 12%N (Define 9%N)).
Definition put3 : MsgHistory := singleton_at 2 (mkKM 3%N (Update 5%N)).

(** ** Paged: put, flush the memtable, grow, flush to a child, split. *)
Module PagedEx.
  Import Paged.
  Definition st0 : BState BetreeNode := mkBS (empty_memtable 0) Nil.
  Definition st1 := mkBS (apply_puts (memtable st0) put1) (root st0).
  Definition st2 := mkBS (mt_drain (memtable st1)) (st_value (push_memtable (root st1) (memtable st1))).
  Definition st3 := mkBS (memtable st2) (Node ∅ (constant_child_map (root st2))).
  Definition small : Key → bool := λ k, (k <? 10)%N.
  Definition large : Key → bool := λ k, negb (k <? 10)%N.
  Definition st4 := mkBS (memtable st3) (path_substitute (root st3) 3%N [] (split (root st3) small large)).
  Definition st5 := mkBS (memtable st4) (path_substitute (root st4) 3%N [small]
                       (flush (path_target (root st4) 3%N [small]) small)).
  Lemma runs : run next st0 [Put put1; Internal; Internal; Internal; Internal] st5.
  Proof.
    eapply run_cons; [|eapply run_cons; [|eapply run_cons; [|eapply run_cons; [|eapply run_one]]]].
    - right; left. exists put1. split; [done|]. split; [apply singleton_wf|]. by split.
    - do 3 right; left. by split.
    - do 4 right; left. by split.
    - do 5 right; left. exists 3%N, [], small, large. split; [done|]. by split.
    - do 6 right; left. exists 3%N, [small], small. split; [done|]. split; [|done].
      split; [done|]. split; [done|]. intros k Hk. cbn. unfold small in *. rewrite Hk. done.
  Qed.
  Lemma initial : initialize st0 empty_image.
  Proof. done. Qed.
  Lemma answers : can_answer next st5 3%N 7%N.
  Proof. apply PagedBetree_Proof.query_iff. exists (Define 7%N). split; [by apply PagedBetree_Proof.answers_den|done]. Qed.
End PagedEx.

(** ** Pivot: put, flush the memtable, grow, split a leaf, flush. *)
Module PivotEx.
  Import Pivot.
  Definition st0 : BState BetreeNode := mkBS (empty_memtable 0) Nil.
  Definition st1 := mkBS (apply_puts (memtable st0) put1) (root st0).
  Definition st2 := mkBS (mt_drain (memtable st1)) (push_memtable (root st1) (memtable st1)).
  Definition st3 := mkBS (memtable st2) (grow (root st2)).
  Definition st4 := mkBS (memtable st3) (Routed.path_substitute (root st3) 3%N 0
                      (split_parent (Routed.path_target (root st3) 3%N 0) (SplitLeaf 0 10%N))).
  Definition st5 := mkBS (memtable st4) (Routed.path_substitute (root st4) 3%N 1
                      (flush (Routed.path_target (root st4) 3%N 1) 0)).
  Definition st6 := mkBS (memtable st5) (grow (root st5)).
  Definition st7 := mkBS (memtable st6) (Routed.path_substitute (root st6) 3%N 0
                      (split_parent (Routed.path_target (root st6) 3%N 0) (SplitIndex 0 1))).
  Lemma initial : initialize st0 empty_image ∧ covers_all_keys (st_value empty_image).
  Proof. done. Qed.
  Lemma wf_of ls s : run next st0 ls s → wf (root s).
  Proof. intros H. by eapply (PivotBetree_Proof.inv_run _ empty_image). Qed.
  Lemma run2 : run next st0 [Put put1; Internal] st2.
  Proof.
    eapply run_cons; [|eapply run_one].
    - right; left. exists put1. split; [done|]. split; [apply singleton_wf|]. by split.
    - do 3 right; left. by split.
  Qed.
  Lemma run3 : run next st0 ([Put put1; Internal] ++ [Internal]) st3.
  Proof.
    eapply run_snoc; [apply run2|]. do 4 right; left. split; [done|]. split; [|done]. exact (wf_of _ _ run2).
  Qed.
  Lemma run4 : run next st0 (([Put put1; Internal] ++ [Internal]) ++ [Internal]) st4.
  Proof.
    eapply run_snoc; [apply run3|]. do 5 right; left. exists 3%N, 0, (SplitLeaf 0 10%N).
    pose proof (wf_of _ _ run3) as Hw3. pose proof (wf_of _ _ run2) as Hw2.
    split; [done|]. split; [|split; [|done]].
    - split; [done|]. split; [|done]. split; [done|]. split; [done|]. split; cbn; [unfold key_lte; lia|].
      apply elt_lt_max. done.
    - split; [done|]. split; [done|]. split; [split; [done|cbn; lia]|].
      split; [exact Hw2|]. split; [by split|]. split; [|done].
      split; cbn; [unfold key_lte; lia|]. apply elt_lt_max. done.
  Qed.
  Lemma run5 : run next st0 ((([Put put1; Internal] ++ [Internal]) ++ [Internal]) ++ [Internal]) st5.
  Proof.
    eapply run_snoc; [apply run4|]. do 6 right; left. exists 3%N, 1, 0.
    pose proof (wf_of _ _ run4) as Hw4.
    assert (Hwc : wf (Routed.child (root st4) 3%N)).
    { destruct (root st4) as [|d p ch] eqn:E; [done|]. pose proof Hw4 as (_&_&_&Hc)%wf_node.
      assert (bounded_key p 3%N) as Hb.
      { injection E as _ <- _. split; [cbn; unfold key_lte; lia|cbn; apply elt_lt_max; done]. }
      destruct (wf_child dwf d p ch 3%N Hw4 Hb) as (c&Hcl&Hce&_). rewrite Hce. by apply (Hc _ _ Hcl). }
    split; [done|]. split; [|split; [|done]].
    - split; [done|]. split.
      { split; [done|]. split; [done|]. split; [cbn; unfold key_lte; lia|cbn; apply elt_lt_max; done]. }
      split; [split; [done|]; by repeat constructor|].
      split; [done|]. split; [|done]. split; [done|]. split; [done|].
      bk.
    - split; [done|]. split; [done|]. split; [done|]. vm_compute. lia.
  Qed.
  Lemma run6 : run next st0 (((([Put put1; Internal] ++ [Internal]) ++ [Internal]) ++ [Internal]) ++ [Internal]) st6.
  Proof.
    eapply run_snoc; [apply run5|]. do 4 right; left. split; [done|]. split; [|done]. exact (wf_of _ _ run5).
  Qed.
  Lemma run7 : run next st0 ((((([Put put1; Internal] ++ [Internal]) ++ [Internal]) ++ [Internal]) ++ [Internal]) ++ [Internal]) st7.
  Proof.
    eapply run_snoc; [apply run6|]. do 5 right; left. exists 3%N, 0, (SplitIndex 0 1).
    pose proof (wf_of _ _ run6) as Hw6. pose proof (wf_of _ _ run5) as Hw5.
    split; [done|]. split; [|split; [|done]].
    - split; [done|]. split; [|done]. split; [done|]. split; [done|]. split; cbn; [unfold key_lte; lia|].
      apply elt_lt_max. done.
    - split; [done|]. split; [done|]. split; [split; [done|cbn; lia]|].
      split; [exact Hw5|]. split; [split; [done|]; by repeat constructor|]. vm_compute. lia.
  Qed.
  Lemma answers : can_answer next st7 3%N 7%N.
  Proof.
    pose proof (wf_of _ _ run7) as Hw.
    destruct (PivotBetree_Proof.inv_run _ empty_image _ _ (proj1 initial) (proj2 initial) run7) as [_ Hc].
    apply PivotBetree_Proof.query_iff. split; [done|]. exists (Define 7%N). split; [|by vm_compute].
    apply (holds_den dwf pivot_held (root st7) Hw Hc). by vm_compute.
  Qed.
  Lemma resp7 : responsible (root st7) 3%N.
  Proof. exists (Elem 0), EMax. split; [by vm_compute|]. split; [by vm_compute|]. split; [cbn; unfold key_lte; lia|apply elt_lt_max; done]. Qed.
End PivotEx.

(** ** Filtered: two memtable flushes, compaction, grow, split, flushes at two depths. *)
Module FilteredEx.
  Import Filtered.
  Definition st0 : BState BetreeNode := mkBS (empty_memtable 0) Nil.
  Definition st1 := mkBS (apply_puts (memtable st0) put1) (root st0).
  Definition st2 := mkBS (mt_drain (memtable st1)) (push_memtable (root st1) (memtable st1)).
  Definition st3 := mkBS (apply_puts (memtable st2) put2) (root st2).
  Definition st4 := mkBS (mt_drain (memtable st3)) (push_memtable (root st3) (memtable st3)).
  Definition compacted : gmap N Message := <[12%N := Define 9%N]> {[3%N := Define 7%N]}.
  Definition st5 := mkBS (memtable st4) (Routed.path_substitute (root st4) 3%N 0
                      (compact (Routed.path_target (root st4) 3%N 0) 0 2 compacted)).
  Definition st6 := mkBS (memtable st5) (grow (root st5)).
  Definition st7 := mkBS (memtable st6) (Routed.path_substitute (root st6) 3%N 0
                      (split_parent (Routed.path_target (root st6) 3%N 0) (SplitLeaf 0 10%N))).
  Definition st8 := mkBS (apply_puts (memtable st7) put3) (root st7).
  Definition st9 := mkBS (mt_drain (memtable st8)) (push_memtable (root st8) (memtable st8)).
  Definition st10 := mkBS (memtable st9) (Routed.path_substitute (root st9) 3%N 0
                      (flush (Routed.path_target (root st9) 3%N 0) 0 0)).
  Definition st11 := mkBS (memtable st10) (Routed.path_substitute (root st10) 3%N 1
                      (flush (Routed.path_target (root st10) 3%N 1) 0 2)).
  Lemma initial : initialize st0 empty_image ∧ covers_all_keys (st_value empty_image).
  Proof. done. Qed.
  Definition reach (s : BState BetreeNode) : Prop := ∃ ls, run next st0 ls s.
  Lemma wf_of s : reach s → wf (root s).
  Proof. intros [ls H]. by eapply (FilteredBetree_Proof.inv_run _ empty_image). Qed.
  Lemma more s s' l : reach s → next s s' l → reach s'.
  Proof. intros [ls H] Hn. eexists. by eapply run_snoc. Qed.
  Lemma r4 : reach st4.
  Proof.
    assert (reach st1) as H1.
    { apply (more st0 st1 (Put put1)). - exists []. constructor.
      - right; left. exists put1. split; [done|]. split; [apply singleton_wf|]. by split. }
    assert (reach st2) as H2.
    { apply (more st1 st2 Internal); [done|]. do 3 right; left. by split. }
    assert (reach st3) as H3.
    { apply (more st2 st3 (Put put2)); [done|]. right; left. exists put2. split; [done|].
      split; [apply singleton_wf|]. by split. }
    apply (more st3 st4 Internal); [done|]. do 3 right; left. split; [done|]. split; [by apply wf_of|done].
  Qed.
  Lemma total_bounded k : bounded_key [Elem 0; EMax] k.
  Proof. split; cbn; [unfold key_lte; lia|]. apply elt_lt_max. done. Qed.
  Lemma bufs4 : contents_of (root st4) = mkC [<[3%N := Define 7%N]> ∅; <[12%N := Define 9%N]> ∅] [0].
  Proof. reflexivity. Qed.
  Lemma r5 : reach st5.
  Proof.
    apply (more st4 st5 Internal); [apply r4|]. do 7 right; left. exists 3%N, 0, 0, 2, compacted.
    pose proof (wf_of _ r4) as Hw. split; [done|]. split; [|split; [|done]].
    - split; [done|]. split; [|done]. split; [done|]. split; [done|]. apply total_bounded.
    - cbn [Routed.path_target]. split; [done|]. split; [done|]. rewrite bufs4. split; [cbn; lia|].
      assert (Hcases : ∀ k, is_Some (compacted !! k) → k = 3%N ∨ k = 12%N).
      { intros k. unfold compacted. destruct (decide (k = 12%N)); [tauto|].
        rewrite lookup_insert_ne by done. intros [? ?%lookup_singleton_Some]. naive_solver. }
      split.
      + intros k. unfold valid_compact_key_domain. rewrite bufs4. cbn [buffers]. split.
        * intros Hk. destruct (Hcases k Hk) as [-> | ->].
          -- split; [split; [done|split; [done|apply total_bounded]]|]. split; [vm_compute; lia|].
             exists 0. split; [lia|]. split; [|vm_compute; lia].
             exists (<[3%N := Define 7%N]> ∅). split; [done|]. rewrite lookup_insert. by eexists.
          -- split; [split; [done|split; [done|apply total_bounded]]|]. split; [vm_compute; lia|].
             exists 1. split; [lia|]. split; [|vm_compute; lia].
             exists (<[12%N := Define 9%N]> ∅). split; [done|]. rewrite lookup_insert. by eexists.
        * intros (_&_&i&_&(b&Hb&Hk)&_). unfold subrange in Hb. simpl in Hb.
          destruct i as [|[|i]]; simpl in Hb; [| |done]; injection Hb as <-; destruct Hk as [v Hv];
            apply lookup_insert_Some in Hv as [[<- _]|[_ Hv]]; try (by rewrite lookup_empty in Hv);
            by vm_compute; eexists.
      + intros k Hk. destruct (Hcases k Hk) as [-> | ->]; by vm_compute.
  Qed.
  Lemma r7 : reach st7.
  Proof.
    assert (reach st6) as H6.
    { apply (more st5 st6 Internal); [apply r5|]. do 4 right; left. split; [done|]. split; [|done]. apply wf_of, r5. }
    apply (more st6 st7 Internal); [done|]. do 5 right; left. exists 3%N, 0, (SplitLeaf 0 10%N).
    pose proof (wf_of _ H6) as Hw. pose proof (wf_of _ r5) as Hw5. split; [done|]. split; [|split; [|done]].
    - split; [done|]. split; [|done]. split; [done|]. split; [done|]. apply total_bounded.
    - split; [done|]. split; [done|]. split; [split; [done|cbn; lia]|].
      split; [exact Hw5|]. split; [by split|]. split; [|done]. apply total_bounded.
  Qed.
  Lemma r9 : reach st9.
  Proof.
    assert (reach st8) as H8.
    { apply (more st7 st8 (Put put3)); [apply r7|]. right; left. exists put3. split; [done|].
      split; [apply singleton_wf|]. by split. }
    apply (more st8 st9 Internal); [done|]. do 3 right; left. split; [done|]. split; [by apply wf_of|done].
  Qed.
  Lemma r10 : reach st10.
  Proof.
    apply (more st9 st10 Internal); [apply r9|]. do 6 right; left. exists 3%N, 0, 0, 0.
    pose proof (wf_of _ r9) as Hw. split; [done|]. split; [|split; [|done]].
    - split; [done|]. split; [|done]. split; [done|]. split; [done|].
      split; cbn; [unfold key_lte; lia|]. apply elt_lt_max. done.
    - split; [done|]. split; [done|]. split; [split; [done|vm_compute; lia]|].
      unfold ofs_all_gte. apply Forall_forall. intros; lia.
  Qed.
  Lemma r11 : reach st11.
  Proof.
    apply (more st10 st11 Internal); [apply r10|]. do 6 right; left. exists 3%N, 1, 0, 2.
    pose proof (wf_of _ r10) as Hw.
    assert (Hwc : wf (Routed.child (root st10) 3%N)).
    { destruct (root st10) as [|d p ch] eqn:E; [done|]. pose proof Hw as (_&_&_&Hc)%wf_node.
      assert (bounded_key p 3%N) as Hb.
      { injection E as _ <- _. split; [cbn; unfold key_lte; lia|cbn; apply elt_lt_max; done]. }
      destruct (wf_child dwf d p ch 3%N Hw Hb) as (c&Hcl&Hce&_). rewrite Hce. by apply (Hc _ _ Hcl). }
    split; [done|]. split; [|split; [|done]].
    - split; [done|]. split.
      { split; [done|]. split; [done|]. split; [cbn; unfold key_lte; lia|cbn; apply elt_lt_max; done]. }
      split; [split; [done|]; by repeat constructor|].
      split; [done|]. split; [|done]. split; [done|]. split; [done|].
      bk.
    - split; [done|]. split; [done|]. split; [split; [done|vm_compute; lia]|].
      vm_compute. repeat constructor.
  Qed.
  Lemma answers : can_answer next st11 3%N 7%N.
  Proof.
    pose proof (wf_of _ r11) as Hw. destruct r11 as [ls Hr].
    destruct (FilteredBetree_Proof.inv_run _ empty_image _ _ (proj1 initial) (proj2 initial) Hr) as [_ Hc].
    apply FilteredBetree_Proof.query_iff. split; [done|]. exists (Define 7%N). split; [|by vm_compute].
    apply (holds_den dwf filtered_held (root st11) Hw Hc). by vm_compute.
  Qed.
  Lemma resp11 : responsible (root st11) 3%N.
  Proof. exists (Elem 0), EMax. split; [by vm_compute|]. split; [by vm_compute|]. split; [cbn; unfold key_lte; lia|apply elt_lt_max; done]. Qed.
End FilteredEx.

Lemma route_example :
  pt_wf [Elem 0; Elem 5; Elem 10; EMax] ∧ bounded_key [Elem 0; Elem 5; Elem 10; EMax] 7%N ∧
  route [Elem 0; Elem 5; Elem 10; EMax] 7%N = 1%Z ∧
  keys_sorted [3%N; 3%N; 8%N] ∧ key_largest_lte [3%N; 3%N; 8%N] 3%N = 1%Z ∧
  key_largest_lt [3%N; 3%N; 8%N] 3%N = (-1)%Z.
Proof.
  split; [|split; [bk|split; [done|split; [|done]]]].
  - split; [cbn; lia|]. split.
    + intros i j a b Hij Ha Hb.
      do 4 (destruct i as [|i]; [do 4 (destruct j as [|j]; [simplify_list_eq; first [lia|cbn; elt_cases; lia|apply elt_lt_max; done]|]); done|]). done.
    + intros i a Hi Ha. do 3 (destruct i as [|i]; [by simplify_list_eq|]). cbn in Hi. lia.
  - intros i j a b Hij Ha Hb.
    do 3 (destruct i as [|i]; [do 3 (destruct j as [|j]; [simplify_list_eq; unfold key_lte; lia|]); done|]). done.
Qed.
