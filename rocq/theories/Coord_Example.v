(** Concrete runs of the coordination system (non-vacuity). *)
From Verif Require Import Spec_Model Spec_Spec Spec_Proof Abs_Model Abs_Spec Abs_Proof Coord_Proof Coord_Live.
Import CoordSys.

Definition s_init : State :=
  mkState (CTJournal.mkState (mkMH ∅ 0 0) None None) (CTMap.mkState stamped_empty None None) None false.
Lemma s_init_init : init s_init. Proof. done. Qed.

Definition h0 : MsgHistory := mkMH ∅ 0 0.
Definition h1 : MsgHistory := singleton_at 0 (mkKM 1 (Define 7)).
Definition h2 : MsgHistory := singleton_at 1 (mkKM 1 (Define 9)).
Lemma h0_wf : mh_wf h0. Proof. apply (empty_history_wf 0). Qed.
Lemma h0h1_wf : mh_wf (mh_concat h0 h1).
Proof. apply concat_wf; [apply h0_wf|apply singleton_wf|done]. Qed.
Definition m1 : StampedMap := map_plus_history stamped_empty h1.
Definition e0 : Known := mkKnown AsyncMap.init_ephemeral_state ∅ 0.
Definition j1 := mh_concat h0 h1.
Lemma do_j1_wf : mh_wf (discard_old j1 1).
Proof. apply do_wf; [apply h0h1_wf|]. split; simpl; lia. Qed.

Lemma example_common :
  ∃ e, run next_common s_init (take 4 coord_example_trace)
    (kst h0 j1 None stamped_empty m1 None e false) ∧
    e = mkKnown (mkEph (({[mkReq (PutInput 1 7) 0]} ∪ ∅) ∖ {[mkReq (PutInput 1 7) 0]})%N
         ({[mkReply PutOutput 0]} ∪ ∅)%N) (<[5%N := 1]> ∅) 1.
Proof.
  eexists. split; [|reflexivity]. unfold coord_example_trace, take.
  eapply run_cons; [apply (en_load h0 stamped_empty false h0_wf)|].
  eapply run_cons; [apply en_request; simpl; compute_decide|].
  cbn [progress sync_reqs map_lsn requests replies AsyncMap.init_ephemeral_state st_seq_end stamped_empty].
  eapply run_cons.
  { apply (en_put h0 h0 None stamped_empty stamped_empty None _ false 1%N 7%N 0%N); simpl; try compute_decide; try done.
    apply h0_wf. }
  cbn [progress sync_reqs map_lsn requests replies AsyncMap.init_ephemeral_state st_seq_end stamped_empty].
  apply run_one. apply (en_req_sync h0 j1 None stamped_empty m1 None
    (mkKnown (mkEph (({[mkReq (PutInput 1 7) 0]} ∪ ∅) ∖ {[mkReq (PutInput 1 7) 0]})%N
         ({[mkReply PutOutput 0]} ∪ ∅)%N) ∅ 1) false 5%N); simpl; [done|apply h0h1_wf|done].
Qed.

Lemma coord_example : ∃ s, run next_fixed s_init coord_example_trace s.
Proof.
  destruct example_common as (e&Hr&->).
  rewrite <- (take_drop 4 coord_example_trace). eexists. eapply run_app; [eapply run_mono; [|exact Hr]; by left|]. clear Hr.
  unfold coord_example_trace, drop.
  eapply run_cons; [apply en_freeze|].
  eapply run_cons; [apply en_commit_start; simpl; [apply h0h1_wf|split; simpl; lia|lia..]|].
  eapply run_cons; [apply en_lands|].
  eapply run_cons; [apply en_complete; simpl; [apply h0h1_wf|split; simpl; lia|done]|].
  eapply run_cons; [eapply en_reply_sync; [reflexivity|simpl; lia]|].
  cbn [progress sync_reqs map_lsn requests replies].
  eapply run_cons; [left; apply en_request; simpl; compute_decide|].
  cbn [progress sync_reqs map_lsn requests replies].
  eapply run_cons.
  { left. apply (en_put _ _ _ _ _ _ _ _ 1%N 9%N 1%N); simpl; try compute_decide; try done. apply do_j1_wf. }
  cbn [progress sync_reqs map_lsn requests replies].
  eapply run_cons; [apply en_crash|].
  change (st_seq_end m1) with 1.
  eapply run_cons; [left; apply en_load; apply do_j1_wf|].
  eapply run_cons; [apply en_recover_all; [apply do_j1_wf|split; simpl; lia]|].
  cbn [progress sync_reqs map_lsn requests replies].
  eapply run_cons; [left; apply en_request; simpl; compute_decide|].
  cbn [progress sync_reqs map_lsn requests replies].
  apply run_one.
  left. apply (en_query _ _ _ _ _ _ _ _ 1%N 7%N 2%N); simpl; try compute_decide; try done. apply do_j1_wf.
Qed.


(** The first four events are also a run of the code as written, after which
    sync 5 is stuck. *)
Lemma stuck_example : ∃ s, run next s_init (take 4 coord_example_trace) s ∧ stuck 5%N s.
Proof.
  destruct example_common as (e&Hr&->).
  assert (run next s_init (take 4 coord_example_trace)
    (kst h0 j1 None stamped_empty m1 None (mkKnown (mkEph (({[mkReq (PutInput 1 7) 0]} ∪ ∅) ∖ {[mkReq (PutInput 1 7) 0]})%N
         ({[mkReply PutOutput 0]} ∪ ∅)%N) (<[5%N := 1]> ∅) 1) false)) as Hr'.
  { eapply run_mono; [|exact Hr]. by left. }
  eexists. split; [exact Hr'|]. split_and!; [done..| |].
  - eapply cs_run; [apply s_init_init|]. eapply run_mono; [apply next_fixed_of_next|exact Hr'].
  - eexists _, 1. split_and!; [done|done|lia].
Qed.
Lemma sync_refuted : ∃ s0 s, init s0 ∧ run next s0 (take 4 coord_example_trace) s ∧
  ∀ ls s', run next s ls s' → CTAM.CrashOp ∉ ls → CTAM.ReplySyncOp 5%N ∉ ls.
Proof.
  destruct stuck_example as (s&Hr&Hs). exists s_init, s. split_and!; [done|done|].
  intros ls s' Hr' Hc. by destruct (stuck_run _ _ _ _ Hs Hr' Hc).
Qed.
Lemma pending_example : ∃ s e,
  run next_fixed s_init (take 4 coord_example_trace) s ∧
  ephemeral s = Some e ∧ sync_reqs e !! 5%N = Some 1.
Proof.
  destruct example_common as (e&Hr&->). eexists _, _. split_and!.
  - eapply run_mono; [|exact Hr]. by left.
  - done.
  - done.
Qed.
Lemma crash_example : ∃ s, run next_fixed s_init (take 12 coord_example_trace) s ∧
  ephemeral s = None ∧ msg_value (st_value (CTMap.persistent (mapadt s)) 1%N) = 7%N.
Proof.
  destruct example_common as (e&Hr&->).
  eexists. split.
  { change (take 12 coord_example_trace) with (take 4 coord_example_trace ++ take 8 (drop 4 coord_example_trace)).
    eapply run_app; [eapply run_mono; [|exact Hr]; by left|]. clear Hr.
  unfold coord_example_trace, drop, take.
  eapply run_cons; [apply en_freeze|].
  eapply run_cons; [apply en_commit_start; simpl; [apply h0h1_wf|split; simpl; lia|lia..]|].
  eapply run_cons; [apply en_lands|].
  eapply run_cons; [apply en_complete; simpl; [apply h0h1_wf|split; simpl; lia|done]|].
  eapply run_cons; [eapply en_reply_sync; [reflexivity|simpl; lia]|].
  cbn [progress sync_reqs map_lsn requests replies].
  eapply run_cons; [left; apply en_request; simpl; compute_decide|].
  cbn [progress sync_reqs map_lsn requests replies].
  eapply run_cons.
  { left. apply (en_put _ _ _ _ _ _ _ _ 1%N 9%N 1%N); simpl; try compute_decide; try done. apply do_j1_wf. }
  cbn [progress sync_reqs map_lsn requests replies].
  apply run_one, en_crash. }
  done.
Qed.
Lemma truncation_example :
  mh_wf (mh_concat h1 h2) ∧ can_discard_to (mh_concat h1 h2) 1 ∧
  is_log (mh_concat h1 h2) [mkKM 1%N (Define 7%N); mkKM 1%N (Define 9%N)].
Proof.
  split; [apply concat_wf; [apply singleton_wf|apply singleton_wf|done]|]. split; [split; simpl; lia|].
  split; [done|]. intros lsn km. unfold mh_concat, h1, h2, singleton_at; simpl. rewrite Nat.sub_0_r.
  destruct lsn as [|[|lsn]]; [(split; [intros [= <-]; split; [lia|done] | intros [_ [= <-]]; done])|(split; [intros [= <-]; split; [lia|done] | intros [_ [= <-]]; done])|].
  rewrite lookup_union_r, lookup_singleton_ne by (rewrite ?lookup_singleton_ne; done). split; [done|]. by intros [_ ?].
Qed.
Lemma pieces_example : consecutive (st_seq_end stamped_empty) [h1; h2] ∧
  st_value (map_plus_history stamped_empty (mh_concat h1 h2)) 1%N = Define 9%N.
Proof. split; [|reflexivity]. simpl. split_and!; try done; apply singleton_wf. Qed.
