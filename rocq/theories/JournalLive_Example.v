(** Concrete states with room for the last page (C49). *)
From Verif Require Import Abs_Model Abs_Proof Spec_Proof Journal_Model Journal_Spec Journal_Example
  AllocJournal_Model AllocJournal_Spec Linked_Proof Likes_Proof AllocJournal_Proof AllocJournal_Facts AllocJournal_Example
  CrashJournal_Model CrashJournal_Spec CrashJournal_Proof CrashJournal_Facts CrashJournal_Example JournalLive_Spec JournalLive_Facts.

Local Existing Instance exg.
Lemma ema2_room : holds_room ema2.
Proof. right. exists 4, (pa_new 4). split; [by vm_compute|]. split; [by split; vm_compute|]. split; vm_compute; lia. Qed.
Lemma alloc_run6 : run AllocCrash.next as0 (crash_trace1 ++ [AllocCrash.Put jm2]) (as_ es6 None).
Proof.
  eapply run_cons.
  { left. exists es0. split; [done|]. split; [done|]. split; [split; [apply img_empty_valid|reflexivity]|reflexivity]. }
  eapply run_cons; [apply (as_internal es0 es1); [|exact est1]|].
  { split_and!; [set_solver| |done]. vm_compute. set_solver. }
  eapply run_cons; [apply (as_put es1 es2); exact est2|].
  eapply run_cons; [apply (as_internal es2 es3); [apply fresh_none|exact est3]|].
  eapply run_cons; [apply (as_put es3 es4); exact est4|].
  eapply run_cons; [apply (as_internal es4 es5); [apply fresh_none|exact est5]|].
  apply run_one. apply (as_put es5 es6); exact est7.
Qed.
Lemma alloc_room_example : ∃ s, AllocCrash.init as0 ∧ run AllocCrash.next as0 (crash_trace1 ++ [AllocCrash.Put jm2]) s ∧
  @alloc_room exg s ∧ AllocCrash.next s s (AllocCrash.QueryEndLsn 3) ∧ alloc_durable_from s 2 ∧ 2 ≤ 3 ∧
  ¬ AllocCrash.next s s (AllocCrash.QueryLsnPersistence 3).
Proof.
  exists (as_ es6 None). pose proof alloc_run6 as Hr. destruct (ac_run as0 _ _ eq_refl Hr) as ((_&Hi&_)&_).
  specialize (Hi _ eq_refl). destruct Hi as [[Hwf _] _].
  split; [done|]. split; [done|]. split; [exists es6; split; [done|]; left; apply ema2_room|].
  split; [|split; [|split; [lia|]]].
  - right; right; left. exists 3, es6. split_and!; try done. right; right; left. split; [by eexists|]. split; [|done].
    right; right; left. by split_and!.
  - intros i [->|[=]]. vm_compute. lia.
  - intros Hn. destruct Hn as [[j Hn]|[Hn|[Hn|[[j Hn]|[[j Hn]|[Hn|[[fz Hn]|[[j Hn]|Hn]]]]]]]].
    + by destruct Hn as (?&_).
    + by destruct Hn as (?&?&?&_).
    + by destruct Hn as (?&?&?&_).
    + by destruct Hn as (?&?&?&_).
    + by destruct Hn as (?&?&?&?&_).
    + destruct Hn as (n&[= <-]&Hle&_). vm_compute in Hle. lia.
    + by destruct Hn as (?&?&?&?&_).
    + by destruct Hn as (?&?&?&?&?&_).
    + by destruct Hn as (?&?&_).
Qed.
Lemma unified_run6 : run Unified.next us0 (crash_trace1 ++ [AllocCrash.Put jm2]) (Unified.mkState (Some ce6) None is_empty_image (cdv 2)).
Proof.
  eapply run_cons; [apply us_load|]. eapply run_cons; [apply (us_internal ce0 ce1 ∅ ∅); exact est1|].
  eapply run_cons; [apply (us_put ce1 ce2); exact est2|].
  eapply run_cons; [apply (us_internal ce2 ce3 ∅ (cdv 1)); exact est3|].
  eapply run_cons; [apply (us_put ce3 ce4); exact est4|].
  eapply run_cons; [apply (us_internal ce4 ce5 (cdv 1) (cdv 2)); exact est5|].
  apply run_one. apply (us_put ce5 ce6); exact est7.
Qed.
Lemma unified_room_example : ∃ s, Unified.init us0 ∧ run Unified.next us0 (crash_trace1 ++ [AllocCrash.Put jm2]) s ∧
  @unified_room exg s ∧ Unified.next s s (AllocCrash.QueryEndLsn 3) ∧ unified_durable_from s 2 ∧ 2 ≤ 3 ∧
  ¬ Unified.next s s (AllocCrash.QueryLsnPersistence 3).
Proof.
  exists (Unified.mkState (Some ce6) None is_empty_image (cdv 2)). pose proof unified_run6 as Hr.
  destruct (uni_run us0 _ _ eq_refl Hr) as (Hi&_). destruct Hi as [[[Hwf _] _] _].
  split; [done|]. split; [done|]. split; [exists ce6; split; [done|]; left; apply ema2_room|].
  split; [|split; [|split; [lia|]]].
  - right; right; left. exists 3, ce6. split_and!; try done. right; right; left. split; [by eexists|]. split; [|done].
    right; right; left. by split_and!.
  - intros i [->|[=]]. vm_compute. lia.
  - intros Hn. destruct Hn as [[j Hn]|[Hn|[Hn|[[j Hn]|[(j&d&Hn)|[Hn|[(fz&d&Hn)|[(j&d&Hn)|Hn]]]]]]]].
    + by destruct Hn as (?&_).
    + by destruct Hn as (?&?&?&_).
    + by destruct Hn as (?&?&?&_).
    + by destruct Hn as (?&?&?&_).
    + by destruct Hn as (?&?&?&?&_).
    + destruct Hn as (n&[= <-]&Hle&_). vm_compute in Hle. lia.
    + by destruct Hn as (?&?&?&?&_).
    + by destruct Hn as (?&?&?&?&?&_).
    + by destruct Hn as (?&?&_).
Qed.
