(** Concrete runs of the paged and linked journals (non-vacuity). *)
From Verif Require Import Abs_Model Abs_Spec Abs_Proof Spec_Proof Journal_Model Journal_Spec.

Definition jm0 : MsgHistory := singleton_at 0 (mkKM 1 (Define 7)).
Definition jm1 : MsgHistory := singleton_at 1 (mkKM 1 (Define 9)).
Definition jpage0 := discard_recent (mh_concat (empty_history_at 0) jm0) 1.
Definition jtail1 := discard_old (mh_concat (empty_history_at 0) jm0) 1.
Definition jpage1 := discard_recent (mh_concat jtail1 jm1) 2.
Definition jtail2 := discard_old (mh_concat jtail1 jm1) 2.
Lemma jm0_wf : mh_wf (mh_concat (empty_history_at 0) jm0).
Proof. apply concat_wf; [apply empty_history_wf|apply singleton_wf|done]. Qed.
Lemma jtail1_wf : mh_wf jtail1. Proof. apply do_wf; [apply jm0_wf|]. split; simpl; lia. Qed.
Lemma jm1_wf : mh_wf (mh_concat jtail1 jm1).
Proof. apply concat_wf; [apply jtail1_wf|apply singleton_wf|done]. Qed.
Lemma jtail2_wf : mh_wf jtail2. Proof. apply do_wf; [apply jm1_wf|]. split; simpl; lia. Qed.
Lemma jpage0_wf : mh_wf jpage0. Proof. apply dr_wf; [apply jm0_wf|]. split; simpl; lia. Qed.
Lemma jpage1_wf : mh_wf jpage1. Proof. apply dr_wf; [apply jm1_wf|]. split; simpl; lia. Qed.

(** *** Paged: put, write a page, put, write a page, freeze, truncate. *)
Definition paged_example_trace : list Paged.Label :=
  [Paged.Put jm0; Paged.Internal; Paged.Put jm1; Paged.Internal;
   Paged.FreezeForCommit (Paged.mkTJ 1 [jpage1]); Paged.DiscardOld 1 2;
   Paged.ReadForRecovery (maybe_discard_old jpage1 1)].
Definition paged_example_start := Paged.mkState Paged.mkfs (empty_history_at 0).
Definition paged_example_end := Paged.mkState (Paged.mkTJ 1 [jpage1]) jtail2.
Lemma paged_example :
  Paged.initialize paged_example_start Paged.mkfs ∧
  run Paged.next paged_example_start paged_example_trace paged_example_end.
Proof.
  split; [done|]. unfold paged_example_trace.
  eapply run_cons.
  { do 3 right; left. eexists. split_and!; [done|apply singleton_wf|done|reflexivity]. }
  eapply run_cons.
  { do 5 right; left. exists 1. split_and!; [done|simpl; lia|split; simpl; lia|reflexivity]. }
  eapply run_cons.
  { do 3 right; left. eexists. split_and!; [done|apply singleton_wf|done|reflexivity]. }
  eapply run_cons.
  { do 5 right; left. exists 2. split_and!; [done|simpl; lia|split; simpl; lia|reflexivity]. }
  eapply run_cons.
  { right; left. exists 0. eexists. split; [done|]. split; [|reflexivity].
    split_and!; [| |split; vm_compute; lia|reflexivity].
    - split_and!; [split; [apply jpage1_wf|done]|simpl; lia|left; split; simpl; lia].
    - split; [|done]. split_and!; [|simpl; lia|right].
      + split; [apply jpage1_wf|]. split; [|done]. split; [apply jpage0_wf|done].
      + split; [done|]. split_and!; [split; [apply jpage0_wf|done]|simpl; lia|left; split; simpl; lia]. }
  eapply run_cons.
  { do 4 right; left. exists 1, 2. split; [done|]. split; [split; vm_compute; lia|]. split; [done|]. reflexivity. }
  apply run_one.
  { left. exists 0. split.
    - split_and!; [| |done].
      + split_and!; [split; [apply jpage1_wf|done]|simpl; lia|left; split; vm_compute; lia].
      + apply jtail2_wf.
    - eexists. split_and!; [done| | |done].
      + apply (do_wf jpage1 1); [apply jpage1_wf|split; simpl; lia].
      + split_and!; [done| |done]. split; [|done].
        split_and!; [split; [apply jpage1_wf|done]|simpl; lia|left; split; simpl; lia]. }
Qed.

(** *** Linked: the same history on pages at two addresses. *)
Definition ja0 := mkAddr 3 0.
Definition ja1 := mkAddr 3 1.
Definition jrec0 := mkRec jpage0 None.
Definition jrec1 := mkRec jpage1 (Some ja0).
Definition jtj2 := mkTJ (Some ja1) (mkDV 0 (<[ja1 := jrec1]> (<[ja0 := jrec0]> ∅))).
Definition jtj_tight := mkTJ (Some ja1) (mkDV 1 (<[ja1 := jrec1]> ∅)).
Definition linked_example_trace : list Linked.Label :=
  [Linked.Put jm0; Linked.Internal; Linked.Put jm1; Linked.Internal;
   Linked.FreezeForCommit jtj_tight; Linked.DiscardOld 1 2;
   Linked.ReadForRecovery (maybe_discard_old jpage1 1)].
Definition linked_example_start := Linked.mkState Linked.mkfs (empty_history_at 0).
Definition linked_example_end := Linked.mkState jtj_tight jtail2.
Definition jtj1 := Linked.append_record Linked.mkfs ja0 jpage0.
Lemma jtj_tight_lookup a r : entries (disk_view jtj_tight) !! a = Some r → a = ja1 ∧ r = jrec1.
Proof. unfold jtj_tight; simpl. intros [[<- <-]|[_ ?]]%lookup_insert_Some; done. Qed.
Lemma jtj1_lookup a r : entries (disk_view jtj1) !! a = Some r → a = ja0 ∧ r = jrec0.
Proof. unfold jtj1, Linked.append_record; simpl. intros [[<- <-]|[_ ?]]%lookup_insert_Some; done. Qed.
Lemma jtj2_lookup a r : entries (disk_view jtj2) !! a = Some r → (a = ja1 ∧ r = jrec1) ∨ (a = ja0 ∧ r = jrec0).
Proof. unfold jtj2; simpl. intros [[<- <-]|[_ [[<- <-]|[_ ?]]%lookup_insert_Some]]%lookup_insert_Some; auto; done. Qed.
Lemma single_decodable tj a m p :
  tj = mkTJ (Some a) (mkDV (seq_start m) (<[a := mkRec m p]> ∅)) → mh_wf m → seq_start m < seq_end m →
  Linked.tj_decodable tj.
Proof.
  intros -> Hm Hlt. 
  assert (∀ b r, (<[a := mkRec m p]> ∅ : gmap Address JournalRecord) !! b = Some r → b = a ∧ r = mkRec m p) as HL.
  { intros b r [[<- <-]|[_ ?]]%lookup_insert_Some; done. }
  assert (Linked.cropped_prior (mkRec m p) (seq_start m) = None) as Hc.
  { unfold Linked.cropped_prior. simpl. rewrite decide_False by lia. done. }
  split; [split|].
  - split_and!; simpl.
    + intros b r [-> ->]%HL. split; [done|]. unfold mh_is_empty. simpl. lia.
    + intros b r [-> ->]%HL. simpl. rewrite Hc. done.
    + intros b r [-> ->]%HL. simpl. rewrite Hc. done.
    + intros b r [-> ->]%HL. unfold Linked.has_link. simpl. lia.
  - split; [intros b [= <-]; simpl; rewrite lookup_insert; by eexists|].
    intros b r [= <-] [_ ->]%HL. done.
  - exists {[a := 0]}. split; [simpl; set_solver|]. intros b r q [-> ->]%HL. simpl. by rewrite Hc.
Qed.
Lemma jtj_tight_wf : Linked.tj_decodable jtj_tight.
Proof. by apply (single_decodable _ ja1 jpage1 (Some ja0)); [|apply jpage1_wf|vm_compute; lia]. Qed.
Lemma jtj1_wf : Linked.tj_decodable jtj1.
Proof. by apply (single_decodable _ ja0 jpage0 None); [|apply jpage0_wf|vm_compute; lia]. Qed.
Lemma jtj2_wf : Linked.tj_decodable jtj2.
Proof.
  split; [split|].
  - split_and!.
    + intros a r [[-> ->]|[-> ->]]%jtj2_lookup; (split; [apply jpage1_wf || apply jpage0_wf|by intros ?]).
    + intros a r [[-> ->]|[-> ->]]%jtj2_lookup p Hp; vm_compute in Hp; [|done]. injection Hp as <-. by eexists.
    + intros a r [[-> ->]|[-> ->]]%jtj2_lookup p q Hp Hq; vm_compute in Hp; [|done]. injection Hp as <-.
      injection Hq as <-. done.
    + intros a r [[-> ->]|[-> ->]]%jtj2_lookup Hl; [by eexists|]. vm_compute in Hl. lia.
  - split; [intros a [= <-]; by eexists|]. intros a r [= <-] [= <-]. vm_compute. lia.
  - exists (<[ja1 := 1]> {[ja0 := 0]}). split; [unfold jtj2; simpl; set_solver|].
    intros a r p [[-> ->]|[-> ->]]%jtj2_lookup Hp; vm_compute in Hp; [|done]. injection Hp as <-.
    exists 0, 1. split_and!; [done|done|lia].
Qed.
Lemma jtj_valid_discard : Linked.valid_discard_old jtj2 1 jtj_tight.
Proof.
  split_and!; [apply jtj_tight_wf|done| |].
  - split; [done|]. simpl. apply insert_mono. apply map_empty_subseteq.
  - split; [done|].
    assert (entries (disk_view (Linked.tj_build_tight (Linked.tj_discard_old jtj2 1))) = entries (disk_view jtj_tight))
      as -> by (vm_compute; reflexivity). done.
Qed.
Lemma linked_example :
  Linked.initialize linked_example_start Linked.mkfs ∧
  run Linked.next linked_example_start linked_example_trace linked_example_end.
Proof.
  assert (Linked.tj_decodable Linked.mkfs) as H0.
  { split; [split|]; [split_and!; intros ???; done|done|]. exists ∅. by split. }
  split; [by split|]. unfold linked_example_trace.
  pose proof jtj1_wf as H1. pose proof jtj2_wf as H2.
  eapply run_cons.
  { do 3 right; left. split; [|eexists; split_and!; [done|apply singleton_wf|done|reflexivity]].
    split_and!; [apply H0|apply empty_history_wf|done|done]. }
  eapply run_cons.
  { do 5 right; left. exists 1, ja0. split_and!; [done| |done|simpl; lia|split; simpl; lia|reflexivity].
    split_and!; [apply H0|apply jm0_wf|done|done]. }
  eapply run_cons.
  { do 3 right; left. split; [|eexists; split_and!; [done|apply singleton_wf|done|reflexivity]].
    split_and!; [apply H1|apply jtail1_wf|simpl; vm_compute; lia|done]. }
  eapply run_cons.
  { do 5 right; left. exists 2, ja1. split_and!; [done| |done|simpl; lia|split; simpl; lia|reflexivity].
    split_and!; [apply H1|apply jm1_wf|simpl; vm_compute; lia|done]. }
  assert (Linked.wf (Linked.mkState jtj2 jtail2)) as H3.
  { split_and!; [apply H2|apply jtail2_wf|vm_compute; lia|done]. }
  eapply run_cons.
  { right; left. exists 0. split; [exact H3|]. eexists. split_and!; [done|apply jtj_tight_wf|exact H2|done|simpl; vm_compute; lia| |exact jtj_valid_discard|reflexivity].
    split; vm_compute; lia. }
  eapply run_cons.
  { do 4 right; left. exists jtj_tight. split; [exact H3|]. exists 1, 2. split_and!; [done|done| |exact jtj_valid_discard|reflexivity].
    split; vm_compute; lia. }
  change (Linked.mkState jtj_tight (Linked.bounded_discard jtail2 1)) with linked_example_end.
  apply run_one.
  left. exists 0. split.
  { split_and!; [apply jtj_tight_wf|apply jtail2_wf|vm_compute; lia|done]. }
  exists (maybe_discard_old jpage1 1). split; [done|].
  split; [apply (do_wf jpage1 1); [apply jpage1_wf|split; simpl; lia]|]. split; [apply jtj_tight_wf|].
  split; [done|]. exists ja1, jrec1. done.
Qed.
