(** Concrete runs of the two crash-aware journals (C41): load, three puts and
    pages, a commit that drops the first two records, a sync answer, a crash. *)
From Verif Require Import Abs_Model Abs_Proof Spec_Proof Journal_Model Journal_Spec Journal_Example
  AllocJournal_Model AllocJournal_Spec Linked_Proof Likes_Proof AllocJournal_Proof AllocJournal_Facts AllocJournal_Example
  CrashJournal_Model CrashJournal_Spec CrashJournal_Proof CrashJournal_Facts.

Local Existing Instance exg.
Definition cis2 := mkIS (Some ja2) 2 4.
Definition cjimg := mkImage jtjd 4.
Definition ce0 := mkES is_empty_image (empty_history_at 0) ∅ ma_empty.
Definition ce1 := mkES is_empty_image (empty_history_at 0) ∅ ema0.
Definition ce2 := mkES is_empty_image (mh_concat (empty_history_at 0) jm0) ∅ ema0.
Definition ce3 := mkES (mkIS (Some ja0) 0 3) jtail1 eidx1 ema1.
Definition ce4 := mkES (mkIS (Some ja0) 0 3) (mh_concat jtail1 jm1) eidx1 ema1.
Definition ce5 := mkES (mkIS (Some ja1) 0 3) jtail2 eidx2 ema2.
Definition ce6 := mkES (mkIS (Some ja1) 0 3) (mh_concat jtail2 jm2) eidx2 ema2.
Definition ce7 := mkES (mkIS (Some ja2) 0 3) jtail3 eidx3 ema3.
Definition ce8 := mkES cis2 jtail3 (index_discard_up_to eidx3 2)
  (prune ema3 (values eidx3 ∖ values (index_discard_up_to eidx3 2))).
Definition cdv n : gmap Address JournalRecord :=
  entries (disk_view (AllocJournal.tj (match n with 1 => es3 | 2 => es5 | 3 => es7 | 4 => es8 | _ => es0 end))).
Definition us0 := Unified.mkState None None is_empty_image ∅.
Definition us_committing := Unified.mkState (Some ce7) (Some cis2) is_empty_image (cdv 3).
Definition us_committed := Unified.mkState (Some ce8) None cis2 (cdv 4).
Definition us_crashed := Unified.mkState None None cis2 (cdv 4).
Definition crash_trace1 : list AllocCrash.Label :=
  [AllocCrash.LoadEphemeralFromPersistent; AllocCrash.Internal {[3; 4]} ∅; AllocCrash.Put jm0; AllocCrash.Internal ∅ ∅;
   AllocCrash.Put jm1; AllocCrash.Internal ∅ ∅].
Definition crash_trace2 : list AllocCrash.Label :=
  [AllocCrash.Internal ∅ ∅; AllocCrash.CommitStart 2 2].

Lemma us_load : Unified.next us0 (Unified.mkState (Some ce0) None is_empty_image ∅) AllocCrash.LoadEphemeralFromPersistent.
Proof.
  left. exists ce0. split; [done|]. split; [done|]. split; [apply empty_valid|]. split; [split; [apply empty_valid|]|].
  - reflexivity.
  - reflexivity.
Qed.
Lemma us_put v v' D F m : AllocJournal.next (to_aj v D) (to_aj v' D) (AllocJournal.Put m) →
  Unified.next (Unified.mkState (Some v) F is_empty_image D) (Unified.mkState (Some v') F is_empty_image D) (AllocCrash.Put m).
Proof. intros Hn. do 3 right; left. exists v'. exists m, v. by split_and!. Qed.
Lemma us_internal v v' D D' F x y : AllocJournal.next (to_aj v D) (to_aj v' D') (AllocJournal.InternalAllocations x y) →
  Unified.next (Unified.mkState (Some v) F is_empty_image D) (Unified.mkState (Some v') F is_empty_image D') (AllocCrash.Internal x y).
Proof. intros Hn. do 4 right; left. exists v', D'. exists x, y, v. by split_and!. Qed.
Lemma us_commit : Unified.next (Unified.mkState (Some ce7) None is_empty_image (cdv 3)) us_committing (AllocCrash.CommitStart 2 2).
Proof.
  do 6 right; left. exists cis2, 0. exists 2, 2, ce7. split; [done|]. split; [done|]. split; [done|].
  split; [vm_compute; lia|]. cbv zeta. split; [done|]. split; [done|]. split; [exact I|]. split; [split; vm_compute; lia|].
  split; [intros _; by vm_compute|]. split; [by vm_compute|done].
Qed.
Lemma us_complete : Unified.next us_committing us_committed (AllocCrash.CommitComplete 3 {[3]}).
Proof. do 7 right; left. exists ce8, (cdv 4). exists 3, {[3]}, ce7, cis2. split_and!; [done|done|done|exact est9|done]. Qed.
Lemma us_query : Unified.next us_committed us_committed (AllocCrash.QueryLsnPersistence 3).
Proof. do 5 right; left. exists 3. split; [done|]. split; [vm_compute; lia|done]. Qed.
Lemma us_crash : Unified.next us_committed us_crashed (AllocCrash.Crash false).
Proof. do 8 right. by exists false. Qed.

Lemma unified_example1 : run Unified.next us0 (crash_trace1 ++ [AllocCrash.Put jm2] ++ crash_trace2) us_committing.
Proof.
  eapply run_cons; [apply us_load|]. eapply run_cons; [apply (us_internal ce0 ce1 ∅ ∅); exact est1|].
  eapply run_cons; [apply (us_put ce1 ce2); exact est2|].
  eapply run_cons; [apply (us_internal ce2 ce3 ∅ (cdv 1)); exact est3|].
  eapply run_cons; [apply (us_put ce3 ce4); exact est4|].
  eapply run_cons; [apply (us_internal ce4 ce5 (cdv 1) (cdv 2)); exact est5|].
  eapply run_cons; [apply (us_put ce5 ce6); exact est7|].
  eapply run_cons; [apply (us_internal ce6 ce7 (cdv 2) (cdv 3)); exact est8|].
  apply run_one. apply us_commit.
Qed.
Lemma unified_example : Unified.init us0 ∧ run Unified.next us0
  (crash_trace1 ++ [AllocCrash.Put jm2] ++ (crash_trace2 ++ [AllocCrash.CommitComplete 3 {[3]}]) ++
   [AllocCrash.QueryLsnPersistence 3] ++ [AllocCrash.Crash false]) us_crashed.
Proof.
  split; [done|]. change (crash_trace1 ++ [AllocCrash.Put jm2] ++ (crash_trace2 ++ [AllocCrash.CommitComplete 3 {[3]}]) ++
   [AllocCrash.QueryLsnPersistence 3] ++ [AllocCrash.Crash false]) with
   ((crash_trace1 ++ [AllocCrash.Put jm2] ++ crash_trace2) ++ [AllocCrash.CommitComplete 3 {[3]}; AllocCrash.QueryLsnPersistence 3; AllocCrash.Crash false]).
  eapply run_app; [apply unified_example1|]. eapply run_cons; [apply us_complete|].
  eapply run_cons; [apply us_query|]. apply run_one. apply us_crash.
Qed.

(** The machine with separate images takes the same steps. *)
Definition as_ v F := AllocCrash.mkState img_empty (Some v) F.
Definition as0 := AllocCrash.mkState img_empty None None.
Definition as_committing := as_ es7 (Some cjimg).
Definition as_committed := AllocCrash.mkState cjimg (Some es8) None.
Definition as_crashed := AllocCrash.mkState cjimg None None.
Lemma as_put v v' F m : AllocJournal.next v v' (AllocJournal.Put m) → AllocCrash.next (as_ v F) (as_ v' F) (AllocCrash.Put m).
Proof. intros Hn. do 3 right; left. exists v'. exists m, v. by split_and!. Qed.
Lemma as_internal v v' F x y : AllocCrash.fresh (as_ v F) v x →
  AllocJournal.next v v' (AllocJournal.InternalAllocations x y) → AllocCrash.next (as_ v F) (as_ v' F) (AllocCrash.Internal x y).
Proof. intros Hf Hn. do 4 right; left. exists v'. exists x, y, v. by split_and!. Qed.
Lemma fresh_none s v : AllocCrash.fresh s v ∅.
Proof. unfold AllocCrash.fresh. split_and?; first [apply disjoint_empty_l|intros f _; apply disjoint_empty_l]. Qed.
Lemma es7_freeze : AllocJournal.next es7 es7 (AllocJournal.FreezeForCommit cjimg).
Proof.
  right; left. exists 0, cjimg, {[ja2]}. split; [done|]. split; [done|]. split; [split; vm_compute; lia|].
  split; [|split; [|split; [|done]]].
  - intros a. rewrite elem_of_singleton. split.
    + intros ->. split_and!.
      * by eexists.
      * apply elem_of_values. exists 2. by vm_compute.
      * intros f [= <-] (_&_&Hp). vm_compute in Hp; lia.
    + intros ([r Hr]&Hk&_). apply elem_of_values in Hk as [k Hk]. apply lookup_index_range in Hk as [Hk1 Hk2].
      unfold AllocJournal.tj, jtj3, Linked.append_record in Hr. simpl in Hr.
      apply lookup_insert_Some in Hr as [[<- _]|[_ Hr]]; [done|]. exfalso.
      assert (au a = 3) as Ha by (apply jtj2_lookup in Hr as [[-> _]|[-> _]]; done).
      rewrite Ha in Hk2. vm_compute in Hk1. idx_cases Hk2.
  - split; [|unfold jtjd; simpl; rewrite !dom_insert_L; set_solver]. split; [apply jtjd_wf|]. split; [done|]. split.
    + simpl. apply insert_mono. apply map_empty_subseteq.
    + split; [|done]. intros a. rewrite elem_of_singleton, elem_of_dom. intros ->. by eexists.
  - intros a v Ha Hv. vm_compute in Hv. by injection Hv as <-.
Qed.
Lemma alloc_crash_example1 : run AllocCrash.next as0 (crash_trace1 ++ [AllocCrash.Put jm2] ++ crash_trace2) as_committing.
Proof.
  eapply run_cons.
  { left. exists es0. split; [done|]. split; [done|]. split; [split; [apply img_empty_valid|reflexivity]|reflexivity]. }
  eapply run_cons; [apply (as_internal es0 es1); [|exact est1]|].
  { unfold AllocCrash.fresh. split_and?; first [set_solver|done|vm_compute; set_solver]. }
  eapply run_cons; [apply (as_put es1 es2); exact est2|].
  eapply run_cons; [apply (as_internal es2 es3); [apply fresh_none|exact est3]|].
  eapply run_cons; [apply (as_put es3 es4); exact est4|].
  eapply run_cons; [apply (as_internal es4 es5); [apply fresh_none|exact est5]|].
  eapply run_cons; [apply (as_put es5 es6); exact est7|].
  eapply run_cons; [apply (as_internal es6 es7); [apply fresh_none|exact est8]|].
  apply run_one. do 6 right; left. exists cjimg. exists 2, 2, es7. split; [done|]. split; [done|]. split; [done|]. split; [done|].
  split; [vm_compute; lia|]. split; [vm_compute; lia|]. split; [apply es7_freeze|done].
Qed.
Lemma as_complete : AllocCrash.next as_committing as_committed (AllocCrash.CommitComplete 3 {[3]}).
Proof. do 7 right; left. exists es8. exists 3, {[3]}, es7, cjimg. split_and!; [done|done|done|exact est9|done]. Qed.
Lemma alloc_crash_example : AllocCrash.init as0 ∧ run AllocCrash.next as0
  (crash_trace1 ++ [AllocCrash.Put jm2] ++ (crash_trace2 ++ [AllocCrash.CommitComplete 3 {[3]}]) ++
   [AllocCrash.QueryLsnPersistence 3] ++ [AllocCrash.Crash false]) as_crashed.
Proof.
  split; [done|]. change (crash_trace1 ++ [AllocCrash.Put jm2] ++ (crash_trace2 ++ [AllocCrash.CommitComplete 3 {[3]}]) ++
   [AllocCrash.QueryLsnPersistence 3] ++ [AllocCrash.Crash false]) with
   ((crash_trace1 ++ [AllocCrash.Put jm2] ++ crash_trace2) ++ [AllocCrash.CommitComplete 3 {[3]}; AllocCrash.QueryLsnPersistence 3; AllocCrash.Crash false]).
  eapply run_app; [apply alloc_crash_example1|]. eapply (run_cons _ _ _ as_committed); [exact as_complete|].
  eapply (run_cons _ _ _ as_committed).
  { do 5 right; left. exists 3. split; [done|]. split; [vm_compute; lia|done]. }
  apply run_one. do 8 right. by exists false.
Qed.
Lemma trace2_no_crash : ∀ k, AllocCrash.Crash k ∉ crash_trace2 ++ [AllocCrash.CommitComplete 3 {[3]}].
Proof. intros k. unfold crash_trace2. simpl. set_solver. Qed.
