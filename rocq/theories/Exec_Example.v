(** Concrete runs of the executable server: they show that the theorems'
    hypotheses are met, and carry the refutations of C24 and C25 for the server
    as written. *)
From Verif Require Import Spec_Model Spec_Spec Spec_Proof AsyncDisk_Proof Exec_Model Exec_Spec Exec_Proof.

Section phases.
  Context `{HG : Geometry} `{HC : Codec} (cfg : Config).
  Local Notation idle c := (AsyncDisk.mkState ∅ ∅ c).

  Lemma disk_ops_intro (d : AsyncDisk.State) reqs resps :
    dom reqs ## dom (AsyncDisk.requests d) → dom reqs ## dom (AsyncDisk.responses d) →
    resps ⊆ AsyncDisk.responses d →
    AsyncDisk.disk_ops d (AsyncDisk.mkState (reqs ∪ AsyncDisk.requests d)
      (AsyncDisk.responses d ∖ resps) (AsyncDisk.content d)) (AsyncDisk.DiskOps reqs resps).
  Proof. intros. exists reqs, resps. done. Qed.

  (** Start up and read the superblock. *)
  Lemma start_up n c j :
    unmarshall_journal (marshall j) = Some j → addr_wf superblock_addr →
    c !! superblock_addr = Some (marshall j) →
    run (Exec.next cfg) (Exec.mkState Exec.Starting n (idle c))
      [Exec.Boot; Exec.DiskInternal; Exec.Recovered]
      (Exec.mkState (Exec.Ready (if restores cfg then mkImpl j [] [] else impl_new)) (n + 1)%N (idle c)).
  Proof.
    intros Hcodec Hwf Hc.
    apply (run_app _ _ [Exec.Boot] (Exec.mkState Exec.Recovering (n + 1)%N
             (AsyncDisk.mkState {[n := ReadReq superblock_addr]} ∅ c))).
    { apply run_one. left. split; [done|]. split; [done|]. eexists. split; [|reflexivity].
      cbn [Exec.numbered Exec.next_id].
      pose proof (disk_ops_intro (idle c) {[n := ReadReq superblock_addr]} ∅) as HH.
      cbn [AsyncDisk.requests AsyncDisk.responses AsyncDisk.content] in HH.
      rewrite map_union_empty, map_difference_empty in HH. apply HH; rewrite ?dom_empty; set_solver. }
    apply (run_app _ _ [Exec.DiskInternal] (Exec.mkState Exec.Recovering (n + 1)%N
             (AsyncDisk.mkState ∅ {[n := ReadResp (marshall j)]} c))).
    { apply run_one. do 6 right. left. split; [done|]. eexists. split; [|reflexivity].
      right. left. exists n. split; [done|]. exists superblock_addr, (marshall j).
      cbn [AsyncDisk.requests AsyncDisk.responses AsyncDisk.content Exec.disk].
      split; [apply lookup_singleton|]. split; [done|]. split; [by intros d' Hd'; rewrite Hc in Hd'; injection Hd'|].
      by rewrite delete_singleton. }
    apply run_one. right. left. split; [done|]. exists n, (ReadResp (marshall j)), (idle c). split.
    - pose proof (disk_ops_intro (AsyncDisk.mkState ∅ {[n := ReadResp (marshall j)]} c) ∅ {[n := ReadResp (marshall j)]}) as HH.
      cbn [AsyncDisk.requests AsyncDisk.responses AsyncDisk.content] in HH.
      rewrite map_union_empty, map_difference_diag in HH. apply HH; rewrite ?dom_empty; set_solver.
    - cbn [recover_response]. rewrite Hcodec. done.
  Qed.
  (** A request other than a sync. *)
  Lemma serve_one im n d input im' outs :
    handle_user_request cfg im (mkXReq input n) = (im', outs, None) →
    run (Exec.next cfg) (Exec.mkState (Exec.Ready im) n d) [Exec.Recv (mkXReq input n) outs]
      (Exec.mkState (Exec.Ready im') (n + 1)%N d).
  Proof.
    intros Hh. apply run_one. right. right. left.
    exists im, input, im', outs, None, d. split; [done|]. split; [done|]. split.
    - pose proof (disk_ops_intro d ∅ ∅) as HH. destruct d as [q r c].
      cbn [AsyncDisk.requests AsyncDisk.responses AsyncDisk.content] in HH.
      rewrite map_empty_union, map_difference_empty in HH.
      apply HH; rewrite ?dom_empty; [set_solver..|apply map_empty_subseteq].
    - split; [done|]. cbn [Exec.used Exec.next_id]. by rewrite N.add_0_r.
  Qed.
  (** A sync on an idle server, up to its acknowledgement. *)
  Lemma sync_one j n c :
    addr_wf superblock_addr →
    run (Exec.next cfg) (Exec.mkState (Exec.Ready (mkImpl j [] [])) n (idle c))
      [Exec.Recv (mkXReq XSync n) []; Exec.DiskInternal; Exec.Done [mkXReply XSyncOutput n]]
      (Exec.mkState (Exec.Ready (mkImpl j [] [])) (n + 1 + 1)%N (idle (<[superblock_addr := marshall j]> c))).
  Proof.
    intros Hwf. set (w := WriteReq superblock_addr (marshall j)).
    set (im := mkImpl j [mkXReq XSync n] []).
    apply (run_app _ _ [Exec.Recv (mkXReq XSync n) []] (Exec.mkState (Exec.Ready im) (n + 1 + 1)%N
             (AsyncDisk.mkState {[(n + 1)%N := w]} ∅ c))).
    { apply run_one. right. right. left.
      exists (mkImpl j [] []), XSync, im, [], (Some w). eexists. split; [done|]. split; [done|].
      split; [|split; [done|reflexivity]].
      pose proof (disk_ops_intro (idle c) {[(n + 1)%N := w]} ∅) as HH.
      cbn [AsyncDisk.requests AsyncDisk.responses AsyncDisk.content] in HH.
      rewrite map_union_empty, map_difference_empty in HH. apply HH; rewrite ?dom_empty; set_solver. }
    apply (run_app _ _ [Exec.DiskInternal] (Exec.mkState (Exec.Ready im) (n + 1 + 1)%N
             (AsyncDisk.mkState ∅ {[(n + 1)%N := WriteResp]} (<[superblock_addr := marshall j]> c)))).
    { apply run_one. do 6 right. left. split; [done|]. eexists. split; [|reflexivity].
      right. right. left. exists (n + 1)%N. split; [done|]. exists superblock_addr, (marshall j).
      cbn [AsyncDisk.requests AsyncDisk.responses AsyncDisk.content Exec.disk].
      split; [apply lookup_singleton|]. split; [done|]. by rewrite delete_singleton. }
    apply run_one. do 4 right. left.
    exists im, (n + 1)%N, WriteResp, (mkImpl j [] []), [mkXReply XSyncOutput n], None.
    eexists. split; [done|]. split; [done|]. split.
    - pose proof (disk_ops_intro (AsyncDisk.mkState ∅ {[(n + 1)%N := WriteResp]} (<[superblock_addr := marshall j]> c))
        ∅ {[(n + 1)%N := WriteResp]}) as HH.
      cbn [AsyncDisk.requests AsyncDisk.responses AsyncDisk.content] in HH.
      rewrite map_union_empty, map_difference_diag in HH. apply HH; rewrite ?dom_empty; set_solver.
    - split; [done|]. cbn [Exec.used Exec.next_id]. by rewrite N.add_0_r.
  Qed.
  Lemma fail_now p n q r c :
    run (Exec.next cfg) (Exec.mkState p n (AsyncDisk.mkState q r c)) [Exec.Crash]
      (Exec.mkState Exec.Starting (if continues cfg then n else 0%N) (idle c)).
  Proof. apply run_one. do 7 right. done. Qed.
  (** The machine fails while it handles a put, after the reply went out. *)
  Lemma fail_put im n q r c k v :
    run (Exec.next cfg) (Exec.mkState (Exec.Ready im) n (AsyncDisk.mkState q r c))
      [Exec.RecvCut (mkXReq (XPut k v) n) [mkXReply XPutOutput n]]
      (Exec.mkState Exec.Starting (if continues cfg then (n + 1)%N else 0%N) (idle c)).
  Proof.
    apply run_one. do 3 right. left.
    exists im, (XPut k v). do 3 eexists. exists 1. split; [done|]. split; [reflexivity|]. done.
  Qed.
End phases.

(** A superblock encoding: the start number, then three numbers per entry. *)
Definition enc_km (km : KeyedMessage) : list N :=
  match km_message km with
  | Define v => [km_key km; 0%N; v]
  | Update d => [km_key km; 1%N; d]
  end.
Fixpoint dec_kms (l : list N) : option (list KeyedMessage) :=
  match l with
  | [] => Some []
  | k :: 0%N :: v :: l' => (λ r, mkKM k (Define v) :: r) <$> dec_kms l'
  | k :: 1%N :: d :: l' => (λ r, mkKM k (Update d) :: r) <$> dec_kms l'
  | _ => None
  end.
Global Instance example_codec : Codec := {|
  marshall j := N.of_nat (j_start j) :: concat (map enc_km (j_history j));
  unmarshall_journal l :=
    match l with
    | n :: l' => (λ h, mkJournal h (N.to_nat n)) <$> dec_kms l'
    | [] => None
    end |}.
Global Instance example_geometry_exec : Geometry := {| page_count := 4; au_count := 4 |}.
Lemma example_codec_ok j : unmarshall_journal (marshall j) = Some j.
Proof.
  destruct j as [h n]. cbn [marshall example_codec j_start j_history unmarshall_journal].
  assert (Hd : dec_kms (concat (map enc_km h)) = Some h).
  { induction h as [|[k [v|d]] h IH]; [done|..]; cbn; rewrite IH; done. }
  rewrite Hd. cbn. by rewrite Nat2N.id.
Qed.
Lemma example_fits ls : codec_fits ls.
Proof. intros h _. apply example_codec_ok. Qed.
Lemma example_wf : addr_wf superblock_addr.
Proof. split; cbn; lia. Qed.

Definition formatted : Exec.State :=
  Exec.mkState Exec.Starting 0%N
    (AsyncDisk.mkState ∅ ∅ {[superblock_addr := marshall journal_empty]}).
Lemma formatted_init : Exec.init formatted.
Proof. eexists. split; [done|]. by rewrite lookup_singleton. Qed.

(** Put, sync, a put lost in a crash, restart, query. [k] says how the second
    incarnation numbers its requests. *)
Definition story (k : bool) (restored : Value) : list Exec.Label :=
  [Exec.Boot; Exec.DiskInternal; Exec.Recovered;
   Exec.Recv (mkXReq (XPut 1 7) 1) [mkXReply XPutOutput 1];
   Exec.Recv (mkXReq (XQuery 1) 2) [mkXReply (XQueryOutput 7) 2];
   Exec.Recv (mkXReq XSync 3) []; Exec.DiskInternal; Exec.Done [mkXReply XSyncOutput 3];
   Exec.RecvCut (mkXReq (XPut 1 9) 5) [mkXReply XPutOutput 5];
   Exec.Boot; Exec.DiskInternal; Exec.Recovered;
   let n := if k then 7 else 1 in Exec.Recv (mkXReq (XQuery 1) n) [mkXReply (XQueryOutput restored) n]]%N.

Lemma story_run cfg :
  answers cfg = true →
  ∃ s, run (Exec.next cfg) formatted (story (continues cfg) (if restores cfg then 7%N else 0%N)) s.
Proof.
  intros Ha. set (j := mkJournal [mkKM 1%N (Define 7%N)] 0).
  eexists. unfold story, formatted.
  eapply (run_app _ _ [Exec.Boot; Exec.DiskInternal; Exec.Recovered]).
  { apply (start_up cfg _ _ journal_empty (example_codec_ok _) example_wf). apply lookup_singleton. }
  replace (if restores cfg then mkImpl journal_empty [] [] else impl_new) with impl_new
    by by destruct (restores cfg).
  eapply (run_app _ _ [_]); [by apply (serve_one cfg impl_new 1%N _ (XPut 1%N 7%N) (mkImpl j [] []))|].
  eapply (run_app _ _ [_]).
  { apply (serve_one cfg (mkImpl j [] []) (1 + 1)%N _ (XQuery 1%N) (mkImpl j [] [])).
    unfold handle_user_request, handle_query. by rewrite Ha. }
  eapply (run_app _ _ [_; _; _]); [apply (sync_one cfg j); exact example_wf|].
  eapply (run_app _ _ [_]); [apply fail_put|].
  eapply (run_app _ _ [Exec.Boot; Exec.DiskInternal; Exec.Recovered]).
  { apply (start_up cfg _ _ j (example_codec_ok _) example_wf). by rewrite lookup_insert. }
  cbv zeta. replace (if continues cfg then 7%N else 1%N) with ((if continues cfg then 6%N else 0%N) + 1)%N
    by by destruct (continues cfg).
  apply (serve_one cfg _ _ _ (XQuery 1%N) (if restores cfg then mkImpl j [] [] else impl_new)).
  unfold handle_user_request, handle_query. cbn [xreq_input]. rewrite Ha.
  destruct (restores cfg); reflexivity.
Qed.
(** The repaired server survives: the query after the restart sees the synced put. *)
Lemma story_repaired k : ∃ s, run (Exec.next (repaired k)) formatted (story k 7%N) s.
Proof. by apply (story_run (repaired k)). Qed.

(** A sync that is still waiting: two syncs in a row, nothing landed yet. *)
Lemma pending_example k :
  ∃ ls s, run (Exec.next (repaired k)) formatted ls s ∧ pending_at ls 4 2%N.
Proof.
  exists [Exec.Boot; Exec.DiskInternal; Exec.Recovered;
          Exec.Recv (mkXReq (XPut 1 7) 1) [mkXReply XPutOutput 1];
          Exec.Recv (mkXReq XSync 2) []]%N.
  eexists. split.
  - unfold formatted.
    eapply (run_app _ _ [Exec.Boot; Exec.DiskInternal; Exec.Recovered]).
    { apply (start_up (repaired k) _ _ journal_empty (example_codec_ok _) example_wf). apply lookup_singleton. }
    eapply (run_app _ _ [_]); [by apply (serve_one (repaired k) (mkImpl journal_empty [] []) 1%N _ (XPut 1%N 7%N))|].
    apply run_one. right. right. left. eexists _, XSync. do 4 eexists. split; [done|]. split; [reflexivity|]. split.
    + apply disk_ops_intro; cbn [AsyncDisk.requests AsyncDisk.responses Exec.disk];
        rewrite ?dom_empty; [set_solver..|apply map_empty_subseteq].
    + split; [done|]. reflexivity.
  - split; [done|]. intros m e Hm He. apply lookup_lt_Some in He. simpl in He. lia.
Qed.

(** *** Refutations *)
(** C24 as written: the query after a put gets no reply. *)
Lemma unanswered_query :
  ∃ ls s, run (Exec.next as_written) formatted ls s ∧ ¬ ∃ logs, served ls logs.
Proof.
  exists [Exec.Boot; Exec.DiskInternal; Exec.Recovered;
          Exec.Recv (mkXReq (XPut 1 7) 1) [mkXReply XPutOutput 1];
          Exec.Recv (mkXReq (XQuery 1) 2) []]%N.
  eexists. split.
  - unfold formatted.
    eapply (run_app _ _ [Exec.Boot; Exec.DiskInternal; Exec.Recovered]).
    { apply (start_up as_written _ _ journal_empty (example_codec_ok _) example_wf). apply lookup_singleton. }
    eapply (run_app _ _ [_]); [by apply (serve_one as_written impl_new 1%N _ (XPut 1%N 7%N))|].
    by apply (serve_one as_written _ (1 + 1)%N _ (XQuery 1%N)).
  - intros (logs&_&_&Hst). destruct (Hst 4 _ eq_refl) as (a&b&_&_&Hout&_). done.
Qed.

(** C25 without restoring the superblock: the synced put is gone. *)
Lemma lost_put :
  ∃ ls s, run (Exec.next (mkConfig true false false)) formatted ls s ∧
    ¬ ∃ logs, served ls logs ∧ exec_syncs_durable ls logs.
Proof.
  destruct (story_run (mkConfig true false false)) as [s Hr]; [done|]. cbn [restores continues] in Hr.
  exists (story false 0%N), s. split; [done|]. intros (logs&(Hlen&H0&Hst)&Hdur).
  destruct (Hdur 7 _ 3%N eq_refl) as (i&a&Hi&Hls&_&_&Ha&Hk).
  { apply elem_of_list_singleton. done. }
  assert (i = 5) as ->.
  { do 7 (destruct i as [|i]; [cbn in Hls; congruence || done|]). lia. }
  (* the log when the sync was requested contains the put *)
  destruct (Hst 0 _ eq_refl) as (a0&a1&E0&E1&->). rewrite H0 in E0. injection E0 as <-.
  destruct (Hst 1 _ eq_refl) as (x1&a2&E1'&E2&->). rewrite E1 in E1'. injection E1' as <-.
  destruct (Hst 2 _ eq_refl) as (x2&a3&E2'&E3&->). rewrite E2 in E2'. injection E2' as <-.
  destruct (Hst 3 _ eq_refl) as (x3&a4&E3'&E4&_&->). rewrite E3 in E3'. injection E3' as <-.
  destruct (Hst 4 _ eq_refl) as (x4&a5&E4'&E5&_&->). rewrite E4 in E4'. injection E4' as <-.
  rewrite E5 in Ha. injection Ha as <-.
  (* so does the log when the last query is answered, and nothing else *)
  destruct (Hst 5 _ eq_refl) as (x5&a6&E5'&E6&_&->). rewrite E5 in E5'. injection E5' as <-.
  destruct (Hst 6 _ eq_refl) as (x6&a7&E6'&E7&->). rewrite E6 in E6'. injection E6' as <-.
  destruct (Hst 7 _ eq_refl) as (x7&a8&E7'&E8&_&->). rewrite E7 in E7'. injection E7' as <-.
  destruct (Hst 8 _ eq_refl) as (x8&a9&E8'&E9&_&Hp9). rewrite E8 in E8'. injection E8' as <-.
  destruct (Hst 9 _ eq_refl) as (x9&a10&E9'&E10&->). rewrite E9 in E9'. injection E9' as <-.
  destruct (Hst 10 _ eq_refl) as (x10&a11&E10'&E11&->). rewrite E10 in E10'. injection E10' as <-.
  destruct (Hst 11 _ eq_refl) as (x11&a12&E11'&E12&->). rewrite E11 in E11'. injection E11' as <-.
  destruct (Hst 12 _ eq_refl) as (x12&a13&E12'&E13&Hout&_). rewrite E12 in E12'. injection E12' as <-.
  assert (Hp12 := Hk 12 _ ltac:(lia) E12).
  assert (a9 = [PutInput 1%N 7%N; QueryInput 1%N]) as ->.
  { apply (anti_symm prefix); [exact Hp9|exact Hp12]. }
  done.
Qed.
