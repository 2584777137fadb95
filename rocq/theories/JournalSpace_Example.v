(** Concrete states for C55. *)
From Verif Require Import Abs_Model Abs_Proof Spec_Model Spec_Proof Journal_Model Journal_Spec Journal_Example
  AllocJournal_Model AllocJournal_Spec Linked_Proof Likes_Proof AllocJournal_Proof AllocJournal_Facts AllocJournal_Example
  CrashJournal_Model CrashJournal_Spec CrashJournal_Proof CrashJournal_Facts CrashJournal_Example
  JournalLive_Spec JournalLive_Facts JournalLive_Example Coord_Live JournalSpace_Spec.

Local Existing Instance exg.
Definition us_loaded := Unified.mkState (Some ce0) None is_empty_image ∅.
Definition space_trace : list AllocCrash.Label := tail crash_trace1 ++ [AllocCrash.Put jm2].
Lemma space_trace_run : run Unified.next us_loaded space_trace (Unified.mkState (Some ce6) None is_empty_image (cdv 2)).
Proof.
  eapply run_cons; [apply (us_internal ce0 ce1 ∅ ∅); exact est1|].
  eapply run_cons; [apply (us_put ce1 ce2); exact est2|].
  eapply run_cons; [apply (us_internal ce2 ce3 ∅ (cdv 1)); exact est3|].
  eapply run_cons; [apply (us_put ce3 ce4); exact est4|].
  eapply run_cons; [apply (us_internal ce4 ce5 (cdv 1) (cdv 2)); exact est5|].
  apply run_one. apply (us_put ce5 ce6); exact est7.
Qed.
Lemma space_example : ∃ s, Unified.init us0 ∧ run Unified.next us0 [] us0 ∧
  Unified.next us0 us_loaded AllocCrash.LoadEphemeralFromPersistent ∧ run Unified.next us_loaded space_trace s ∧
  (∀ k, AllocCrash.Crash k ∉ space_trace) ∧ unified_room s ∧ Unified.next s s (AllocCrash.QueryEndLsn 3) ∧
  ledger ∅ space_trace = {[3; 4]}.
Proof.
  exists (Unified.mkState (Some ce6) None is_empty_image (cdv 2)). pose proof unified_run6 as Hr.
  destruct (uni_run us0 _ _ eq_refl Hr) as (Hi&_). destruct Hi as [[[Hwf _] _] _].
  split; [done|]. split; [constructor|]. split; [apply us_load|]. split; [apply space_trace_run|].
  split; [intros k; unfold space_trace; simpl; set_solver|].
  split; [exists ce6; split; [done|]; left; apply ema2_room|].
  split; [|apply (bool_decide_unpack _); by vm_compute].
  right; right; left. exists 3, ce6. split_and!; try done. right; right; left. split; [by eexists|]. split; [|done].
  right; right; left. by split_and!.
Qed.
(** After the crash the image has one page, in unit 4, and can be loaded. *)
Lemma reload_example : ∃ l s, Unified.init us0 ∧ run Unified.next us0 l us_crashed ∧
  Unified.next us_crashed s AllocCrash.LoadEphemeralFromPersistent ∧
  image_units (Unified.dv us_crashed) (Unified.persistent us_crashed) {[4]}.
Proof.
  destruct unified_example as [H0 Hr]. destruct (uni_run _ _ _ H0 Hr) as (Hi&_).
  pose proof (uni_valid _ _ Hi (or_introl eq_refl)) as Hv.
  eexists _, _. split; [exact H0|]. split; [exact Hr|]. split.
  - left. eexists. split; [done|]. split; [done|]. split; [exact Hv|]. split; [split; [exact Hv|reflexivity]|reflexivity].
  - destruct (image_pages _ _ Hv) as (l&Hp&Hl). intros u. rewrite elem_of_singleton.
    assert (∀ a r, Unified.dv us_crashed !! a = Some r → au a = 4) as H4.
    { intros a r. change (Unified.dv us_crashed) with (cdv 4). unfold cdv. simpl. intros Ha.
      apply lookup_insert_Some in Ha as [[<- _]|[_ Ha]]; done. }
    split.
    + intros ->. exists ja2. split; [done|]. apply (path_reaches _ _ _ Hp).
      inversion Hp as [|? r' l' Hr' Hl' Heq1 Heq2]; subst. exists r'. by left.
    + intros (a&<-&Hre). destruct (proj1 (path_reaches _ _ _ Hp a) Hre) as [r Hin]. destruct (Hl _ _ Hin) as [Ha _].
      by apply (H4 a r).
Qed.
Lemma alloc_space_example : ∃ s2, AllocCrash.init as0 ∧ run AllocCrash.next as0 [] as0 ∧
  AllocCrash.next as0 s2 AllocCrash.LoadEphemeralFromPersistent ∧
  run AllocCrash.next s2 (space_trace ++ crash_trace2) as_committing ∧ (∀ k, AllocCrash.Crash k ∉ space_trace ++ crash_trace2).
Proof.
  pose proof alloc_crash_example1 as Hr.
  change (crash_trace1 ++ [AllocCrash.Put jm2] ++ crash_trace2) with
    ([AllocCrash.LoadEphemeralFromPersistent] ++ (space_trace ++ crash_trace2)) in Hr.
  apply run_app_inv in Hr as (s2&R1&R2). exists s2. split; [done|]. split; [constructor|].
  split; [|split; [exact R2|intros k; unfold space_trace; simpl; set_solver]].
  apply (run_snoc_inv _ _ []) in R1 as (s'&R0&Hn). apply run_nil_inv in R0 as <-. exact Hn.
Qed.
Lemma alloc_empty_example : ∃ s2 s, AllocCrash.init as0 ∧ run AllocCrash.next as0 [] as0 ∧
  AllocCrash.next as0 s2 AllocCrash.LoadEphemeralFromPersistent ∧ run AllocCrash.next s2 space_trace s ∧
  (∀ k, AllocCrash.Crash k ∉ space_trace) ∧ alloc_room s ∧ AllocCrash.next s s (AllocCrash.QueryEndLsn 3).
Proof.
  destruct alloc_room_example as (s&_&Hr&Hroom&Hq&_).
  change (crash_trace1 ++ [AllocCrash.Put jm2]) with ([AllocCrash.LoadEphemeralFromPersistent] ++ space_trace) in Hr.
  apply run_app_inv in Hr as (s2&R1&R2). exists s2, s. split; [done|]. split; [constructor|].
  split; [|split; [exact R2|split; [intros k; unfold space_trace; simpl; set_solver|done]]].
  apply (run_snoc_inv _ _ []) in R1 as (s'&R0&Hn). apply run_nil_inv in R0 as <-. exact Hn.
Qed.
