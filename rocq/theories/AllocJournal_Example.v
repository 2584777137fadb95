(** Concrete runs of the indexed journal and of the journal with allocation
    units (non-vacuity). *)
From Verif Require Import Abs_Model Abs_Spec Abs_Proof Spec_Proof Journal_Model Journal_Spec Journal_Example
  Linked_Proof AllocJournal_Model AllocJournal_Spec Likes_Proof AllocJournal_Proof.

(** Cases of a lookup in a concrete index. *)
Ltac idx_cases H :=
  apply lookup_union_singleton in H as [[Hrng ?]|[_ H]]; [vm_compute in Hrng; try lia|first [idx_cases H | by rewrite lookup_empty in H | idtac]].
(** *** Indexed journal *)
Definition likes_start := Likes.mkState linked_example_start ∅.
Definition likes_end := Likes.mkState linked_example_end (index_discard_up_to
  (index_append_record (index_append_record ∅ jpage0 ja0) jpage1 ja1) 1).
Definition likes_trace : list Linked.Label :=
  [Linked.Put jm0; Linked.Internal; Linked.Put jm1; Linked.Internal;
   Linked.FreezeForCommit jtj_tight; Linked.DiscardOld 1 2].
Lemma mkfs_decodable : Linked.tj_decodable Linked.mkfs.
Proof. split; [split|]; [split_and!; intros ???; done|done|]. exists ∅. by split. Qed.
Lemma likes_example : Likes.initialize likes_start Linked.mkfs ∧ run Likes.next likes_start likes_trace likes_end.
Proof.
  pose proof mkfs_decodable as H0. pose proof jtj1_wf as H1. pose proof jtj2_wf as H2.
  split; [by split|]. unfold likes_trace.
  eapply run_cons.
  { do 3 right; left. eexists. split; [by eexists|]. split; [|reflexivity].
    do 3 right; left. split; [|eexists; split_and!; [done|apply singleton_wf|done|reflexivity]].
    split_and!; [apply H0|apply empty_history_wf|done|done]. }
  eapply run_cons.
  { do 5 right; left. exists 1, ja0. eexists. split; [done|]. split; [|reflexivity].
    split_and!; [done| |done|simpl; lia|split; simpl; lia|reflexivity].
    split_and!; [apply H0|apply jm0_wf|done|done]. }
  eapply run_cons.
  { do 3 right; left. eexists. split; [by eexists|]. split; [|reflexivity].
    do 3 right; left. split; [|eexists; split_and!; [done|apply singleton_wf|done|reflexivity]].
    split_and!; [apply H1|apply jtail1_wf|simpl; vm_compute; lia|done]. }
  eapply run_cons.
  { do 5 right; left. exists 2, ja1. eexists. split; [done|]. split; [|reflexivity].
    split_and!; [done| |done|simpl; lia|split; simpl; lia|reflexivity].
    split_and!; [apply H1|apply jm1_wf|simpl; vm_compute; lia|done]. }
  assert (entries (disk_view jtj_tight) ⊆ entries (disk_view jtj2)) as Hsub.
  { simpl. apply insert_mono. apply map_empty_subseteq. }
  eapply run_cons.
  { right; left. exists 0, jtj_tight. split; [done|]. split; [apply jtj_tight_wf|]. split; [done|].
    split; [vm_compute; lia|]. split; [split; vm_compute; lia|]. split; [|reflexivity].
    split; [apply jtj_tight_wf|]. split; [done|]. split; [exact Hsub|]. split; [|done].
    intros a [k Hk]%elem_of_values. apply elem_of_dom. apply lookup_index_range in Hk as [Hk1 Hk2].
    vm_compute in Hk1. assert (k = 1) as -> by lia. vm_compute in Hk2. injection Hk2 as <-. by eexists. }
  apply run_one.
  { do 4 right; left. exists linked_example_end, 1, 2. split; [done|]. split; [done|]. split; [split; vm_compute; lia|].
    split; [|split; [done|reflexivity]].
    split; [apply jtj_tight_wf|]. split; [done|]. split; [exact Hsub|]. split; [|done].
    intros a [k Hk]%elem_of_values. apply elem_of_dom. apply lookup_discard_up_to in Hk as [Hk1 Hk2].
    simpl in Hk2. idx_cases Hk2. subst a. by eexists. }
Qed.

(** *** Allocation units of two pages: two pages fill unit 3, the third page
    opens unit 4, truncation gives unit 3 back. *)
Definition exg : Geometry := {| page_count := 2; au_count := 8 |}.
Local Existing Instance exg.
Definition jm2 : MsgHistory := singleton_at 2 (mkKM 5 (Define 4)).
Definition jpage2 := discard_recent (mh_concat jtail2 jm2) 3.
Definition jtail3 := discard_old (mh_concat jtail2 jm2) 3.
Definition ja2 := mkAddr 4 0.
Definition jtj3 := Linked.append_record jtj2 ja2 jpage2.
Definition jtjf := mkTJ (Some ja1) (mkDV 1 (entries (disk_view jtj2))).
Definition jtjd := mkTJ (Some ja2) (mkDV 2 (<[ja2 := mkRec jpage2 (Some ja1)]> ∅)).
Definition jimg := mkImage jtjf 3.
Definition eidx1 : gmap LSN AU := index_append_record ∅ jpage0 3.
Definition eidx2 : gmap LSN AU := index_append_record eidx1 jpage1 3.
Definition eidx3 : gmap LSN AU := index_append_record eidx2 jpage2 4.
Definition ema0 := add_aus ma_empty {[3; 4]}.
Definition ema1 := ma_observe (allocate ema0 ja0) ja0.
Definition ema2 := ma_observe (allocate ema1 ja1) ja1.
Definition ema3 := ma_observe (allocate ema2 ja2) ja2.
Definition es0 := AllocJournal.mkState (Linked.mkState Linked.mkfs (empty_history_at 0)) ∅ 0 ma_empty.
Definition es1 := AllocJournal.mkState (Linked.mkState Linked.mkfs (empty_history_at 0)) ∅ 0 ema0.
Definition es2 := AllocJournal.mkState (Linked.mkState Linked.mkfs (mh_concat (empty_history_at 0) jm0)) ∅ 0 ema0.
Definition es3 := AllocJournal.mkState (Linked.mkState jtj1 jtail1) eidx1 3 ema1.
Definition es4 := AllocJournal.mkState (Linked.mkState jtj1 (mh_concat jtail1 jm1)) eidx1 3 ema1.
Definition es5 := AllocJournal.mkState (Linked.mkState jtj2 jtail2) eidx2 3 ema2.
Definition es6 := AllocJournal.mkState (Linked.mkState jtj2 (mh_concat jtail2 jm2)) eidx2 3 ema2.
Definition es7 := AllocJournal.mkState (Linked.mkState jtj3 jtail3) eidx3 3 ema3.
Definition es8 := AllocJournal.mkState (Linked.mkState jtjd jtail3) (index_discard_up_to eidx3 2) 4
  (prune ema3 (values eidx3 ∖ values (index_discard_up_to eidx3 2))).
Definition alloc_trace1 : list AllocJournal.Label :=
  [AllocJournal.InternalAllocations {[3; 4]} ∅; AllocJournal.Put jm0; AllocJournal.InternalAllocations ∅ ∅;
   AllocJournal.Put jm1; AllocJournal.InternalAllocations ∅ ∅].
Definition alloc_trace : list AllocJournal.Label :=
  alloc_trace1 ++ [AllocJournal.FreezeForCommit jimg;
   AllocJournal.Put jm2; AllocJournal.InternalAllocations ∅ ∅; AllocJournal.DiscardOld 2 3 {[3]}].

Lemma img_empty_valid : valid_image img_empty.
Proof.
  split_and!.
  - by intros a [r ?].
  - pose proof mkfs_decodable as [[Hw _] Hac].
    split; [split; [done|by intros a]|]. split; [done|]. split; [by intros a r _|].
    split; [by intros a b ra rb _ _|]. split; [by intros lsn a b (r&?&_)|done].
  - by intros a [r ?].
  - by intros a r lsn ?.
Qed.
Lemma es0_init : AllocJournal.initialize es0 (Linked.mkState Linked.mkfs (empty_history_at 0)) img_empty.
Proof. split; [apply img_empty_valid|]. split; [split; [apply mkfs_decodable|done]|done]. Qed.
Lemma es0_inv : alloc_inv es0. Proof. by destruct (alloc_init _ _ _ es0_init). Qed.
Lemma step_inv s s' l : alloc_inv s → AllocJournal.next s s' l → alloc_inv s'.
Proof. intros Hi Hn. by destruct (alloc_next_sim _ _ _ Hi Hn). Qed.
Lemma inv_wf s : alloc_inv s → Linked.wf (AllocJournal.journal s).
Proof. by intros [[? _] _]. Qed.
Lemma put_step s m j' : alloc_inv s → mh_wf m → seq_start m = Linked.st_end (AllocJournal.journal s) →
  j' = Linked.mkState (AllocJournal.tj s) (mh_concat (Linked.unmarshalled_tail (AllocJournal.journal s)) m) →
  AllocJournal.next s (AllocJournal.mkState j' (AllocJournal.lsn_au_index s) (AllocJournal.first s)
    (AllocJournal.mini_allocator s)) (AllocJournal.Put m).
Proof.
  intros Hi Hm Hs ->. do 3 right; left. eexists. split; [by eexists|]. split; [|reflexivity].
  do 3 right; left. split; [by apply inv_wf|]. eexists. split_and!; done.
Qed.
Lemma est1 : AllocJournal.next es0 es1 (AllocJournal.InternalAllocations {[3; 4]} ∅).
Proof. do 6 right; left. eexists. split; [done|]. split; [set_solver|]. split; [|done]. intros u _ [k Hk]%elem_of_values. done. Qed.
Lemma est2 : AllocJournal.next es1 es2 (AllocJournal.Put jm0).
Proof. apply put_step; [eapply step_inv; [apply es0_inv|apply est1]|apply singleton_wf|done|done]. Qed.
Lemma est3 : AllocJournal.next es2 es3 (AllocJournal.InternalAllocations ∅ ∅).
Proof.
  do 5 right; left. exists 1, ja0. split; [done|]. split; [|split; [simpl; lia|split; [split; simpl; lia|]]].
  - split; [|split].
    + exists (pa_new 3). split; [done|]. split; [split; vm_compute; lia|]. split; [done|]. set_solver.
    + intros _. split; [|done]. intros p [= <-]. done.
    + intros [? Hc]. done.
  - reflexivity.
Qed.
Lemma est4 : AllocJournal.next es3 es4 (AllocJournal.Put jm1).
Proof.
  apply put_step; [|apply singleton_wf|done|done].
  eapply step_inv; [|apply est3]. eapply step_inv; [|apply est2]. eapply step_inv; [apply es0_inv|apply est1].
Qed.
Lemma es4_inv : alloc_inv es4.
Proof.
  eapply step_inv; [|apply est4]. eapply step_inv; [|apply est3].
  eapply step_inv; [|apply est2]. eapply step_inv; [apply es0_inv|apply est1].
Qed.
Lemma est5 : AllocJournal.next es4 es5 (AllocJournal.InternalAllocations ∅ ∅).
Proof.
  do 5 right; left. exists 2, ja1. split; [done|]. split; [|split; [simpl; lia|split; [split; simpl; lia|]]].
  - split; [|split].
    + eexists. split; [vm_compute; reflexivity|]. split; [split; vm_compute; lia|]. split; [done|].
      intros Hin. vm_compute in Hin. done.
    + intros Hc. vm_compute in Hc. done.
    + intros _ f [= <-]. done.
  - reflexivity.
Qed.
Lemma es5_inv : alloc_inv es5. Proof. eapply step_inv; [apply es4_inv|apply est5]. Qed.
Lemma jtjf_lookup a r : entries (disk_view jtjf) !! a = Some r → (a = ja1 ∧ r = jrec1) ∨ (a = ja0 ∧ r = jrec0).
Proof. apply jtj2_lookup. Qed.
Lemma jtjf_wf : Linked.tj_wf jtjf.
Proof.
  split.
  - split_and!.
    + intros a r [[-> ->]|[-> ->]]%jtjf_lookup; (split; [apply jpage1_wf || apply jpage0_wf|by intros ?]).
    + intros a r [[-> ->]|[-> ->]]%jtjf_lookup p Hp; vm_compute in Hp; done.
    + intros a r [[-> ->]|[-> ->]]%jtjf_lookup p q Hp Hq; vm_compute in Hp; done.
    + intros a r [[-> ->]|[-> ->]]%jtjf_lookup Hl; vm_compute in Hl; lia.
  - split; [intros a [= <-]; by eexists|]. intros a r [= <-] [= <-]. vm_compute. lia.
Qed.
Lemma est6 : AllocJournal.next es5 es5 (AllocJournal.FreezeForCommit jimg).
Proof.
  right; left. exists 0, jimg, {[ja0; ja1]}. split; [done|]. split; [done|]. split; [split; vm_compute; lia|].
  split; [|split; [|split; [|done]]].
  - intros a. rewrite elem_of_union, !elem_of_singleton. split.
    + intros Ha. split_and!.
      * destruct Ha as [-> | ->]; by eexists.
      * apply elem_of_values. exists 1. destruct Ha as [-> | ->]; by vm_compute.
      * intros f [= <-] (_&_&Hp). destruct Ha as [-> | ->]; vm_compute in Hp; lia.
    + intros [[r Hr] _]. by apply jtj2_lookup in Hr as [[-> _]|[-> _]]; auto.
  - split; [|unfold jtjf, jtj2; simpl; rewrite !dom_insert_L; set_solver]. split; [apply jtjf_wf|]. split; [done|]. split; [done|]. split; [|done].
    intros a. rewrite elem_of_union, !elem_of_singleton, elem_of_dom. intros [-> | ->]; by eexists.
  - intros a v Ha Hv. vm_compute in Hv. by injection Hv as <-.
Qed.
Lemma est7 : AllocJournal.next es5 es6 (AllocJournal.Put jm2).
Proof. apply put_step; [apply es5_inv|apply singleton_wf|done|done]. Qed.
Lemma est8 : AllocJournal.next es6 es7 (AllocJournal.InternalAllocations ∅ ∅).
Proof.
  do 5 right; left. exists 3, ja2. split; [done|]. split; [|split; [simpl; lia|split; [split; simpl; lia|]]].
  - split; [|split].
    + exists (pa_new 4). split; [by vm_compute|]. split; [split; vm_compute; lia|]. split; [done|]. set_solver.
    + intros _. split; [|done]. intros p Hp. vm_compute in Hp. by injection Hp as <-.
    + intros [? Hc]. vm_compute in Hc. done.
  - reflexivity.
Qed.
Lemma jm2_wf : mh_wf (mh_concat jtail2 jm2).
Proof. apply concat_wf; [apply jtail2_wf|apply singleton_wf|done]. Qed.
Lemma jpage2_wf : mh_wf jpage2. Proof. apply dr_wf; [apply jm2_wf|]. split; simpl; lia. Qed.
Lemma jtjd_wf : Linked.tj_decodable jtjd.
Proof. by apply (single_decodable _ ja2 jpage2 (Some ja1)); [|apply jpage2_wf|vm_compute; lia]. Qed.
Lemma est9 : AllocJournal.next es7 es8 (AllocJournal.DiscardOld 2 3 {[3]}).
Proof.
  do 4 right; left. exists (Linked.mkState jtjd jtail3), 2, 3, {[3]}, {[ja2]}, 4. split; [done|]. split; [done|].
  split; [split; vm_compute; lia|]. split; [|split; [|split; [|split; [|split]]]].
  - intros a v Ha Hv. vm_compute in Hv. by injection Hv as <-.
  - intros a. rewrite elem_of_singleton. split.
    + intros ->. split; [by eexists|]. apply elem_of_values. exists 2. by vm_compute.
    + intros [[r Hr] [k Hk]%elem_of_values]. apply lookup_discard_up_to in Hk as [Hk1 Hk2].
      unfold AllocJournal.tj, jtj3, Linked.append_record in Hr. simpl in Hr.
      idx_cases Hk2.
      apply lookup_insert_Some in Hr as [[<- _]|[_ Hr]]; [done|].
      apply jtj2_lookup in Hr as [[-> _]|[-> _]]; done.
  - apply (bool_decide_eq_true_1 _); vm_compute; reflexivity.
  - split; [|unfold jtjd; simpl; rewrite !dom_insert_L; set_solver]. split; [apply jtjd_wf|]. split; [done|]. split.
    + simpl. apply insert_mono. apply map_empty_subseteq.
    + split; [|done]. intros a. rewrite elem_of_singleton, elem_of_dom. intros ->. by eexists.
  - reflexivity.
  - reflexivity.
Qed.
Lemma alloc_example1 : AllocJournal.initialize es0 (Linked.mkState Linked.mkfs (empty_history_at 0)) img_empty ∧
  run AllocJournal.next es0 alloc_trace1 es5.
Proof.
  split; [apply es0_init|]. eapply run_cons; [apply est1|]. eapply run_cons; [apply est2|].
  eapply run_cons; [apply est3|]. eapply run_cons; [apply est4|]. apply run_one. apply est5.
Qed.
Lemma alloc_example : AllocJournal.initialize es0 (Linked.mkState Linked.mkfs (empty_history_at 0)) img_empty ∧
  run AllocJournal.next es0 alloc_trace es8.
Proof.
  split; [apply es0_init|]. eapply run_app; [apply alloc_example1|]. eapply run_cons; [apply est6|].
  eapply run_cons; [apply est7|]. eapply run_cons; [apply est8|]. apply run_one. apply est9.
Qed.
