(** Concrete runs for C46 and C47. *)
From Verif Require Import Spec_Model Spec_Spec Spec_Proof AsyncDisk_Proof Disk_Model System_Model System_Spec System_Proof
  System_Example Exec_Model Exec_Spec Exec_Proof Exec_Example Token_Model Token_Spec Token_Proof Token_Example
  Serve_Model Serve_Spec Serve_Proof.

(** ** The store *)
Lemma serve_store `{Geometry} `{Codec} `{Decoder} s0 ls s :
  codec_fits ls → decodes_superblocks → Exec.init s0 → run (Exec.next (repaired true)) s0 ls s →
  ∃ als, concat (seen_api <$> als) = concat (seen_exec <$> ls) ∧
    let sls := sys_label <$> als in
    requests_answered_once sls ∧ syncs_answered_once sls ∧
    ∃ cls, Forall2 sys_event sls cls ∧ (∃ t, run CTAM.next CTAM.init cls t) ∧
      ∃ logs, explained cls logs ∧ syncs_durable cls logs ∧ client_syncs_durable sls logs.
Proof.
  intros Hc Hd Hi Hr. destruct (serve_obeys true s0 ls s Hc Hd Hi Hr) as (m0&als&m&Hm0&_&Hrun&Hseen&_).
  exists als. split; [done|]. by eapply repaired_store.
Qed.
(** ** The invariant of the code, and of the code corrected *)
Section findings.
  Context `{HG : Geometry} (Hwf : addr_wf superblock_addr).
  (** One put, one sync. *)
  Definition put_and_sync : list Exec.Label :=
    [Exec.Boot; Exec.DiskInternal; Exec.Recovered;
     Exec.Recv (mkXReq (XPut 1 7) 1) [mkXReply XPutOutput 1];
     Exec.Recv (mkXReq XSync 2) []; Exec.DiskInternal; Exec.Done [mkXReply XSyncOutput 2]]%N.
  Lemma stated_refuted `{HC : Codec} k s0 : codec_fits put_and_sync → Exec.init s0 →
    ∃ s im, run (Exec.next (repaired k)) s0 put_and_sync s ∧ Exec.proc s = Exec.Ready im ∧
      ∀ m, agree s m → ¬ stated_inv im (Tokens.model (API.tokens m)).
  Proof.
    intros Hc (ct&->&Hct). set (j := mkJournal [mkKM 1%N (Define 7%N)] 0).
    eexists _, (mkImpl j [] []). split; [|split].
    - unfold put_and_sync.
      eapply (run_app _ _ [Exec.Boot; Exec.DiskInternal; Exec.Recovered]).
      { apply (start_up (repaired k) _ _ journal_empty); [|done|done]. apply Hc, sublist_nil_l. }
      eapply (run_app _ _ [_]); [by apply (serve_one (repaired k) (mkImpl journal_empty [] []) 1%N _ (XPut 1%N 7%N) (mkImpl j [] []))|].
      by apply (sync_one (repaired k) j).
    - done.
    - intros m Ha. eapply (stated_broken _ _ _ j); [exact Ha|done|done| |done].
      unfold on_disk. cbn. rewrite lookup_insert. cbn. by apply Hc.
  Qed.
  (** A sync accepted: its id is no longer new. *)
  Lemma any_sync_refuted `{HD : Decoder} c ct : mkfs ct →
    ∃ m0 ls m, API.init Concrete.model_fixed m0 ∧ run (API.next Concrete.model_fixed c) m0 ls m ∧ ¬ any_sync_is_new m.
  Proof.
    intros Hmk. pose proof (formatted _ Hmk) as Hi. destruct Hmk as (page&Hct&Hm).
    eexists _, _, _. split; [exact Hi|]. split.
    - eapply run_app; [by eapply recover|]. eapply sync_request. exact Hwf.
    - intros Hn. specialize (Hn eq_refl 1%N). cbn in Hn. by rewrite lookup_insert in Hn.
  Qed.
End findings.

(** ** A response in the hand *)
Section held.
  Context `{HG : Geometry} `{HD : Decoder}.
  Notation PM := Concrete.model_fixed.
  Notation nx := (API.next PM API.repaired).
  Notation st p n ct := (API.mkState (Tokens.mkState p ∅ ∅ ∅ ∅) None n (AsyncDisk.mkState ∅ ∅ ct)).
  Lemma half_round (p p1 : AtomicState.State) n ct r resp ct' :
    pm_next PM p p1 (DiskIO (mkInfo {[+ (n, r) +]} ∅)) →
    AsyncDisk.next (AsyncDisk.mkState {[n := r]} ∅ ct) (AsyncDisk.mkState ∅ {[n := resp]} ct') AsyncDisk.Internal →
    run nx (st p n ct) [API.Predict n; API.Step (Tokens.DiskOp {[+ (n, r) +]} ∅); API.Send n n r; API.DiskInternal;
                        API.ReceiveResponse n resp]
      (API.mkState (Tokens.mkState p1 ∅ ∅ ∅ {[+ (n, resp) +]}) None (n + 1)%N (AsyncDisk.mkState ∅ ∅ ct')).
  Proof.
    intros H1 H2.
    apply (run_app _ _ [API.Predict n; API.Step (Tokens.DiskOp {[+ (n, r) +]} ∅); API.Send n n r]
      (API.mkState (Tokens.mkState p1 ∅ ∅ ∅ ∅) None (n + 1)%N (AsyncDisk.mkState {[n := r]} ∅ ct))).
    { apply (ask true); [exact H1|]. exists {[n := r]}, ∅.
      unfold AsyncDisk.requests, AsyncDisk.responses, AsyncDisk.content.
      split; [exact eq_refl|]. split; [set_solver|]. split; [set_solver|]. split; [apply map_empty_subseteq|].
      rewrite (right_id_L ∅ (∪)), map_difference_empty. exact eq_refl. }
    apply (run_cons _ _ _ (API.mkState (Tokens.mkState p1 ∅ ∅ ∅ ∅) None (n + 1)%N (AsyncDisk.mkState ∅ {[n := resp]} ct'))).
    { do 6 right; left. exists (AsyncDisk.mkState ∅ {[n := resp]} ct'). split; [exact eq_refl|]. split; [exact H2|exact eq_refl]. }
    apply run_one. do 5 right; left. exists n, resp, (AsyncDisk.mkState ∅ ∅ ct'). split; [exact eq_refl|]. split.
    - exists ∅, {[n := resp]}. unfold API.disk, AsyncDisk.requests, AsyncDisk.responses, AsyncDisk.content.
      split; [exact eq_refl|]. split; [set_solver|]. split; [set_solver|]. split; [done|].
      rewrite (left_id_L ∅ (∪)), map_difference_diag. exact eq_refl.
    - unfold API.tokens, Tokens.requests, Tokens.replies, Tokens.disk_requests, Tokens.disk_responses.
      rewrite (left_id_L ∅ (⊎)). exact eq_refl.
  Qed.
  (** Holding the superblock, ... *)
  Lemma superblock_held ct page : addr_wf superblock_addr → ct !! superblock_addr = Some page →
    ∃ ls m, run nx (st fresh_program 0%N ct) ls m ∧
      AtomicState.recovery_state (Tokens.model (API.tokens m)) = AtomicState.AwaitingSuperblock ∧
      (0%N, ReadResp page) ∈ Tokens.disk_responses (API.tokens m).
  Proof.
    intros Hwf Hc. eexists _, _. split; [eapply (half_round _ _ _ _ (ReadReq superblock_addr) (ReadResp page))|].
    - left. exists 0%N. split; [reflexivity|]. split; [reflexivity|]. split; reflexivity.
    - right; left. exists 0%N. split; [done|]. exists superblock_addr, page. cbn.
      split_and!; [apply lookup_singleton|done|by intros d; rewrite Hc; intros [= ->]|].
      by rewrite delete_singleton, insert_empty.
    - split; [done|]. cbn [API.tokens Tokens.disk_responses]. by apply gmultiset_elem_of_singleton.
  Qed.
  (** ... holding a sync request, once recovered, ... *)
  Lemma sync_held ct : addr_wf superblock_addr → mkfs ct →
    ∃ ls m, run nx (st fresh_program 0%N ct) ls m ∧ AtomicState.client_ready (Tokens.model (API.tokens m)) ∧
      mkXReq XSync 1 ∈ Tokens.requests (API.tokens m).
  Proof.
    intros Hwf (page&Hc&Hm). eexists _, _. split.
    - eapply run_app; [by eapply (recover API.repaired)|]. apply (take_req true).
    - split; [done|]. cbn [API.tokens Tokens.requests]. by apply gmultiset_elem_of_singleton.
  Qed.
  (** ... and holding the acknowledgement of a write. *)
  Lemma write_held ct : addr_wf superblock_addr → mkfs ct →
    ∃ ls m, run nx (st fresh_program 0%N ct) ls m ∧ AtomicState.client_ready (Tokens.model (API.tokens m)) ∧
      (1%N, WriteResp) ∈ Tokens.disk_responses (API.tokens m).
  Proof.
    intros Hwf (page&Hc&Hm). eexists _, _. split.
    - eapply run_app; [by eapply (recover API.repaired)|].
      eapply (half_round _ _ _ _ (WriteReq superblock_addr page) WriteResp).
      + right; right; left. eexists _, (mkSB MapSpec.my_init 0), page. split; [reflexivity|]. split; [exact Hm|].
        split; [reflexivity|]. split; [reflexivity|]. split; [reflexivity|]. split; reflexivity.
      + right; right; left. eexists. split; [done|]. exists superblock_addr, page. cbn.
        split_and!; [apply lookup_singleton|done|]. by rewrite delete_singleton, insert_empty.
    - split; [done|]. cbn [API.tokens Tokens.disk_responses]. by apply gmultiset_elem_of_singleton.
  Qed.
End held.

Module ServeEx.
  (** A page is decoded as the journal's encoding says. *)
  #[export] Instance example_decoder : Decoder := {|
    unmarshall page := match unmarshall_journal page with
                       | Some j => superblock_view j
                       | None => mkSB MapSpec.my_init 0
                       end |}.
  Lemma decodes : decodes_superblocks.
  Proof. intros page j Hj. unfold unmarshall, example_decoder. by rewrite Hj. Qed.
End ServeEx.
