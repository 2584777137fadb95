(** Sessions through the interface: one with a put, a sync, its acknowledgement
    and a restart, and those behind the findings on C44 and C45. *)
From Verif Require Import Spec_Model Spec_Spec Disk_Model System_Model System_Spec Spec_Proof AsyncDisk_Proof System_Proof
  System_Example Token_Model Token_Spec Token_Proof.

Section phases.
  Context `{Geometry} `{Decoder} (c : API.Config) (Hwf : addr_wf superblock_addr).
  Notation PM := Concrete.model_fixed.
  Notation nx := (API.next PM c).
  Notation st p n ct := (API.mkState (Tokens.mkState p ∅ ∅ ∅ ∅) None n (AsyncDisk.mkState ∅ ∅ ct)).
  Notation ready h pv m := (AtomicState.mkState AtomicState.RecoveryComplete h pv None m).

  (** One request to the disk, from the prediction to the response. *)
  Definition disk_round (n : ID) (r : DiskRequest) (resp : DiskResponse) : list API.Label :=
    [API.Predict n; API.Step (Tokens.DiskOp {[+ (n, r) +]} ∅); API.Send n n r; API.DiskInternal;
     API.ReceiveResponse n resp; API.Step (Tokens.DiskOp ∅ {[+ (n, resp) +]})].
  Definition exchange (req : XRequest) (rep : XReply) : list API.Label :=
    [API.Receive req; API.Step (Tokens.ExecuteOp req rep); API.SendReply rep].

  Lemma round p p1 p2 n ct r resp ct' :
    pm_next PM p p1 (DiskIO (mkInfo {[+ (n, r) +]} ∅)) →
    pm_next PM p1 p2 (DiskIO (mkInfo ∅ {[+ (n, resp) +]})) →
    AsyncDisk.next (AsyncDisk.mkState {[n := r]} ∅ ct) (AsyncDisk.mkState ∅ {[n := resp]} ct') AsyncDisk.Internal →
    run nx (st p n ct) (disk_round n r resp) (st p2 (n + 1)%N ct').
  Proof.
    intros H1 H2 H3. unfold disk_round.
    apply (run_cons _ _ _ (API.mkState (Tokens.mkState p ∅ ∅ ∅ ∅) (Some n) n (AsyncDisk.mkState ∅ ∅ ct))).
    { do 3 right; left. split; [exact (λ _, conj eq_refl eq_refl)|]. exact (conj eq_refl eq_refl). }
    apply (run_cons _ _ _ (API.mkState (Tokens.mkState p1 ∅ ∅ {[+ (n, r) +]} ∅) (Some n) n (AsyncDisk.mkState ∅ ∅ ct))).
    { do 2 right; left. exists (Tokens.DiskOp {[+ (n, r) +]} ∅), (Tokens.mkState p1 ∅ ∅ {[+ (n, r) +]} ∅).
      split; [exact eq_refl|]. split; [|split; [|exact eq_refl]].
      - exists p1. do 2 right; left. exists {[+ (n, r) +]}, ∅. split; [exact eq_refl|].
        split; [apply gmultiset_empty_subseteq|]. split; [exact H1|].
        unfold API.tokens, Tokens.requests, Tokens.replies, Tokens.disk_requests, Tokens.disk_responses.
        rewrite (left_id_L ∅ (⊎)), gmultiset_difference_diag. exact eq_refl.
      - intros reqs resps E. injection E as <- <-. right. exists n, r.
        split; [exact eq_refl|]. split; [exact eq_refl|]. exact (λ _, eq_refl). }
    apply (run_cons _ _ _ (API.mkState (Tokens.mkState p1 ∅ ∅ ∅ ∅) None (n + 1)%N (AsyncDisk.mkState {[n := r]} ∅ ct))).
    { do 4 right; left. exists n, r, (AsyncDisk.mkState {[n := r]} ∅ ct).
      split; [exact eq_refl|]. split; [exact eq_refl|].
      unfold API.tokens, Tokens.requests, Tokens.replies, Tokens.disk_requests, Tokens.disk_responses, Tokens.model, API.counter, API.disk.
      split; [by apply gmultiset_elem_of_singleton|]. split.
      - exists {[n := r]}, ∅. unfold AsyncDisk.requests, AsyncDisk.responses, AsyncDisk.content.
        split; [exact eq_refl|]. split; [set_solver|]. split; [set_solver|]. split; [apply map_empty_subseteq|].
        rewrite (right_id_L ∅ (∪)), map_difference_empty. exact eq_refl.
      - rewrite gmultiset_difference_diag. exact eq_refl. }
    apply (run_cons _ _ _ (API.mkState (Tokens.mkState p1 ∅ ∅ ∅ ∅) None (n + 1)%N (AsyncDisk.mkState ∅ {[n := resp]} ct'))).
    { do 6 right; left. exists (AsyncDisk.mkState ∅ {[n := resp]} ct'). split; [exact eq_refl|]. split; [exact H3|exact eq_refl]. }
    apply (run_cons _ _ _ (API.mkState (Tokens.mkState p1 ∅ ∅ ∅ {[+ (n, resp) +]}) None (n + 1)%N (AsyncDisk.mkState ∅ ∅ ct'))).
    { do 5 right; left. exists n, resp, (AsyncDisk.mkState ∅ ∅ ct'). split; [exact eq_refl|]. split.
      - exists ∅, {[n := resp]}. unfold API.disk, AsyncDisk.requests, AsyncDisk.responses, AsyncDisk.content.
        split; [exact eq_refl|]. split; [set_solver|]. split; [set_solver|]. split; [done|].
        rewrite (left_id_L ∅ (∪)), map_difference_diag. exact eq_refl.
      - unfold API.tokens, Tokens.requests, Tokens.replies, Tokens.disk_requests, Tokens.disk_responses.
        rewrite (left_id_L ∅ (⊎)). exact eq_refl. }
    apply run_one.
    do 2 right; left. exists (Tokens.DiskOp ∅ {[+ (n, resp) +]}), (Tokens.mkState p2 ∅ ∅ ∅ ∅).
    split; [exact eq_refl|]. split; [|split; [|exact eq_refl]].
    - exists p2. do 2 right; left. exists ∅, {[+ (n, resp) +]}. split; [exact eq_refl|].
      split; [done|]. split; [exact H2|].
      unfold API.tokens, Tokens.requests, Tokens.replies, Tokens.disk_requests, Tokens.disk_responses.
      rewrite (left_id_L ∅ (⊎)), gmultiset_difference_diag. exact eq_refl.
    - intros reqs resps E. injection E as <- <-. left. exact eq_refl.
  Qed.
  Lemma recover p n ct page x v :
    AtomicState.recovery_state p = AtomicState.Begin →
    ct !! superblock_addr = Some page → unmarshall page = mkSB x v →
    run nx (st p n ct) (disk_round n (ReadReq superblock_addr) (ReadResp page)) (st (ready (mkFS v [x]) v ∅) (n + 1)%N ct).
  Proof.
    intros Hp Hc Hu. eapply round.
    - left. exists n. split_and!; [done|done|done|reflexivity].
    - right; left. exists n, page. split_and!; [done|done|done|]. cbn. rewrite Hu, singleton_seq_eq. done.
    - right; left. exists n. split; [done|]. exists superblock_addr, page. cbn.
      split_and!; [apply lookup_singleton|done|by intros d; rewrite Hc; intros [= ->]|].
      by rewrite delete_singleton, insert_empty.
  Qed.
  Lemma flush hs pv m n ct page x :
    fs_entries hs ≠ [] → fs_last hs = Some x → unmarshall page = mkSB x (fs_len hs - 1) →
    run nx (st (ready hs pv m) n ct) (disk_round n (WriteReq superblock_addr page) WriteResp)
      (st (ready (fs_get_suffix hs (fs_len hs - 1)) (fs_len hs - 1) m) (n + 1)%N (<[superblock_addr := page]> ct)).
  Proof.
    intros Hne Hl Hu. eapply round.
    - right; right; left. exists n, (mkSB x (fs_len hs - 1)), page.
      split_and!; [|done|done|done|done|done|reflexivity].
      unfold AtomicState.ephemeral_sb, AtomicState.sb_at. cbn. unfold fs_last in Hl. by rewrite Hl.
    - right; right; right. eexists (AtomicState.mkInflight _ n). split_and!; [done|reflexivity|done|done|reflexivity].
    - right; right; left. exists n. split; [done|]. exists superblock_addr, page. cbn.
      split_and!; [apply lookup_singleton|done|]. by rewrite delete_singleton, insert_empty.
  Qed.
  Lemma operate p p' n ct i o : i ≠ XSync → (API.typed c = true → o ≠ XSyncOutput) →
    pm_next PM p p' (UserIO (Execute (mapspec_req (mkXReq i n)) (mapspec_reply (mkXReply o n)))) →
    run nx (st p n ct) (exchange (mkXReq i n) (mkXReply o n)) (st p' (n + 1)%N ct).
  Proof.
    intros Hi Ho Hp. unfold exchange.
    eapply run_cons. { left. exists i. split_and!; [done|done|reflexivity]. }
    eapply run_cons.
    { do 2 right; left. eexists _, _. split_and!; [reflexivity| |done|reflexivity].
      exists p'. right; left. exists (mkXReq i n), (mkXReply o n).
      split_and!; [done|done|done| |exact Hp|reflexivity].
      cbn [API.tokens API.counter Tokens.requests]. apply gmultiset_elem_of_disj_union. right. by apply gmultiset_elem_of_singleton. }
    eapply run_cons; [|constructor].
    right; left. exists (mkXReply o n). split_and!; [done| |].
    - cbn [API.tokens Tokens.replies]. apply gmultiset_elem_of_disj_union. right. by apply gmultiset_elem_of_singleton.
    - cbn [API.tokens API.counter API.predicted API.disk Tokens.requests Tokens.replies Tokens.disk_requests Tokens.disk_responses Tokens.model].
      f_equal. f_equal; multiset_solver.
  Qed.
  Lemma sync_request hs pv m n ct :
    run nx (st (ready hs pv m) n ct) [API.Receive (mkXReq XSync n); API.Step (Tokens.RequestSyncOp n)]
      (st (ready hs pv (<[n := fs_len hs - 1]> m)) (n + 1)%N ct).
  Proof.
    eapply run_cons. { left. exists XSync. split_and!; [done|done|reflexivity]. }
    eapply run_cons; [|constructor].
    do 2 right; left. eexists _, _. split_and!; [reflexivity| |done|].
    - eexists. do 3 right; left. exists n. split_and!; [done| |by split|reflexivity].
      cbn [API.tokens API.counter Tokens.requests]. apply gmultiset_elem_of_disj_union. right. by apply gmultiset_elem_of_singleton.
    - cbn [API.tokens API.counter API.predicted API.disk Tokens.requests Tokens.replies Tokens.disk_requests Tokens.disk_responses Tokens.model].
      f_equal. f_equal; multiset_solver.
  Qed.
  Lemma sync_reply hs pv m n ct id v :
    m !! id = Some v → v ≤ fs_start hs →
    run nx (st (ready hs pv m) n ct) [API.Step (Tokens.ReplySyncOp id); API.SendReply (mkXReply XSyncOutput id)]
      (st (ready hs pv (delete id m)) n ct).
  Proof.
    intros Hm Hv. eapply run_cons.
    { do 2 right; left. eexists _, _. split_and!; [reflexivity| |done|reflexivity].
      eexists. do 4 right. exists id. split_and!; [done| |reflexivity].
      split; [by eexists|]. split_and!; [done| |reflexivity]. cbn. intros v'. rewrite Hm. intros [= <-]. done. }
    eapply run_cons; [|constructor].
    right; left. eexists. split_and!; [reflexivity| |].
    - cbn [API.tokens Tokens.replies]. apply gmultiset_elem_of_disj_union. right. by apply gmultiset_elem_of_singleton.
    - cbn [API.tokens API.counter API.predicted API.disk Tokens.requests Tokens.replies Tokens.disk_requests Tokens.disk_responses Tokens.model].
      f_equal. f_equal; multiset_solver.
  Qed.
  Lemma restart p n ct : API.keeps c = true → run nx (st p n ct) [API.Crash] (st fresh_program n ct).
  Proof.
    intros Hk. eapply run_one. do 7 right. eexists (fresh_tokens fresh_program), _.
    split; [reflexivity|]. split; [by split|]. split; [by split|]. by rewrite Hk.
  Qed.

  (** *** The findings *)
  Lemma formatted ct : mkfs ct → API.init PM (st fresh_program 0%N ct).
  Proof. intros Hc. split_and!; by split. Qed.
  Lemma formatted_written ct : mkfs ct → API.init Concrete.model (st fresh_program 0%N ct).
  Proof. intros Hc. split_and!; by split. Qed.
  Lemma untyped_refuted ct : API.typed c = false → mkfs ct →
    ∃ m0 ls m, API.init PM m0 ∧ run nx m0 ls m ∧ ¬ syncs_answered_once (sys_label <$> ls).
  Proof.
    intros Ht Hmk. pose proof (formatted _ Hmk) as Hi. destruct Hmk as (page&Hc&Hm).
    eexists _, (disk_round 0 (ReadReq superblock_addr) (ReadResp page) ++ exchange (mkXReq XNoop 1) (mkXReply XSyncOutput 1)), _.
    split_and!; [exact Hi| |].
    - eapply run_app; [by eapply recover|]. eapply (operate _ (AtomicState.mkState _ (mkFS 0 [MapSpec.my_init]) _ _ _)); [done|by rewrite Ht|].
      exists (mkFS 0 [MapSpec.my_init]), MapSpec.my_init, MapSpec.my_init.
      split_and!; [done|cbn; lia|cbn; lia|done|done|done|done| |reflexivity].
      do 2 right. done.
    - intros Ho. destruct (Ho 8 1%N) as [(i&Hlt&Hi') _]; [done|].
      do 8 (destruct i as [|i]; [done|]). lia.
  Qed.
  Lemma early_refuted ct : API.strict c = false → mkfs ct →
    ∃ m0 ls m, API.init PM m0 ∧ run nx m0 ls m ∧ ¬ numbers_as_predicted ls.
  Proof.
    clear Hwf. intros Hs Hmk. pose proof (formatted _ Hmk) as Hi.
    assert (∀ m : API.State AtomicState.State, API.quiet c m) as Hq by (intros m; unfold API.quiet; by rewrite Hs).
    set (rd := ReadReq superblock_addr). set (aw := AtomicState.mkState AtomicState.AwaitingSuperblock (mkFS 0 []) 0 None ∅).
    set (d0 := AsyncDisk.mkState ∅ ∅ ct). set (no := mkXReq XNoop 0).
    exists (st fresh_program 0%N ct), [API.Predict 0; API.Receive no; API.Step (Tokens.DiskOp {[+ (0%N, rd) +]} ∅); API.Send 0 1 rd].
    exists (API.mkState (Tokens.mkState aw {[+ no +]} ∅ ∅ ∅) None 2%N (AsyncDisk.mkState {[1%N := rd]} ∅ ct)).
    split; [exact Hi|]. split.
    - apply (run_cons _ _ _ (API.mkState (fresh_tokens fresh_program) (Some 0%N) 0%N d0)).
      { do 3 right; left. split; [apply Hq|]. exact (conj eq_refl eq_refl). }
      apply (run_cons _ _ _ (API.mkState (Tokens.mkState fresh_program {[+ no +]} ∅ ∅ ∅) (Some 0%N) 1%N d0)).
      { left. exists XNoop. split; [apply Hq|]. split; [exact eq_refl|].
        unfold API.tokens, fresh_tokens, Tokens.requests, Tokens.replies, Tokens.disk_requests, Tokens.disk_responses.
        rewrite (left_id_L ∅ (⊎)). exact eq_refl. }
      apply (run_cons _ _ _ (API.mkState (Tokens.mkState aw {[+ no +]} ∅ {[+ (0%N, rd) +]} ∅) (Some 0%N) 1%N d0)).
      { do 2 right; left. exists (Tokens.DiskOp {[+ (0%N, rd) +]} ∅), (Tokens.mkState aw {[+ no +]} ∅ {[+ (0%N, rd) +]} ∅).
        split; [exact eq_refl|]. split; [|split; [|exact eq_refl]].
        - exists aw. do 2 right; left. exists {[+ (0%N, rd) +]}, ∅. split; [exact eq_refl|].
          split; [apply gmultiset_empty_subseteq|]. split.
          + left. exists 0%N. split; [exact eq_refl|]. split; [exact eq_refl|]. exact (conj eq_refl eq_refl).
          + unfold API.tokens, Tokens.requests, Tokens.replies, Tokens.disk_requests, Tokens.disk_responses.
            rewrite (left_id_L ∅ (⊎)), gmultiset_difference_diag. exact eq_refl.
        - intros reqs resps E. injection E as <- <-. right. exists 0%N, rd.
          split; [exact eq_refl|]. split; [exact eq_refl|]. by rewrite Hs. }
      apply run_one. do 4 right; left. exists 0%N, rd, (AsyncDisk.mkState {[1%N := rd]} ∅ ct).
      split; [exact eq_refl|]. split; [exact eq_refl|].
      unfold API.tokens, Tokens.requests, Tokens.replies, Tokens.disk_requests, Tokens.disk_responses, Tokens.model, API.counter, API.disk.
      split; [by apply gmultiset_elem_of_singleton|]. split.
      + exists {[1%N := rd]}, ∅. unfold d0, AsyncDisk.requests, AsyncDisk.responses, AsyncDisk.content.
        split; [exact eq_refl|]. split; [set_solver|]. split; [set_solver|]. split; [apply map_empty_subseteq|].
        rewrite (right_id_L ∅ (∪)), map_difference_empty. exact eq_refl.
      + rewrite gmultiset_difference_diag. exact eq_refl.
    - intros Hx. specialize (Hx 0%N 1%N rd). discriminate Hx. set_solver.
  Qed.
End phases.

(** ** The theorem for the program: a crash-tolerant store *)
Section store.
  Context `{Geometry} `{Decoder}.
  Lemma concrete_idle : idle_when_formatted Concrete.model_fixed.
  Proof. intros d (_&?&?). done. Qed.
  Lemma fixed_weaken s0 ls s : SystemModel.initialize Concrete.model_fixed s0 →
    run (SystemModel.next_fixed Concrete.model_fixed) s0 ls s →
    SystemModel.initialize Concrete.model s0 ∧ run (SystemModel.next Concrete.model) s0 ls s.
  Proof. intros Hi Hr. split; [done|]. by apply to_written. Qed.
  Lemma repaired_store m0 ls m : API.init Concrete.model_fixed m0 →
    run (API.next Concrete.model_fixed API.repaired) m0 ls m →
    let sls := sys_label <$> ls in
    requests_answered_once sls ∧ syncs_answered_once sls ∧
    ∃ als, Forall2 sys_event sls als ∧ (∃ t, run CTAM.next CTAM.init als t) ∧
      ∃ logs, explained als logs ∧ syncs_durable als logs ∧ client_syncs_durable sls logs.
  Proof.
    intros Hi Hr sls. destruct (repaired_is_system _ _ _ _ concrete_idle Hi Hr) as (s0&s&Hs0&Hrs&_).
    split_and!.
    - destruct (fixed_weaken _ _ _ Hs0 Hrs) as [Hw Hrw]. by eapply written_requests_once.
    - by eapply fixed_syncs_once.
    - by eapply fixed_correct.
  Qed.
End store.

Module TokenEx.
  (** Recover, put 7 at key 1, sync and get the acknowledgement, restart,
      recover, read 7. *)
  Definition session : list API.Label :=
    disk_round 0 (ReadReq superblock_addr) (ReadResp []) ++
    exchange (mkXReq (XPut 1 7) 1) (mkXReply XPutOutput 1) ++
    [API.Receive (mkXReq XSync 2); API.Step (Tokens.RequestSyncOp 2)] ++
    disk_round 3 (WriteReq superblock_addr [1; 1; 7]%N) WriteResp ++
    [API.Step (Tokens.ReplySyncOp 2); API.SendReply (mkXReply XSyncOutput 2)] ++
    [API.Crash] ++
    disk_round 4 (ReadReq superblock_addr) (ReadResp [1; 1; 7]%N) ++
    exchange (mkXReq (XQuery 1) 5) (mkXReply (XQueryOutput 7) 5).
  Definition seven : MapSpec.State := MapSpec.mkState (kmmap_insert kmmap_empty 1 (Define 7%N)).
  Definition put7 : FloatingSeq Version := mkFS 0 [MapSpec.my_init; seven].
  Definition start : API.State AtomicState.State :=
    booted fresh_program 0 (AsyncDisk.mkState ∅ ∅ SystemEx.disk0).
  Lemma starts : API.init Concrete.model_fixed start.
  Proof. apply formatted, SystemEx.disk0_mkfs. Qed.
  Lemma runs : ∃ m, run (API.next Concrete.model_fixed API.repaired) start session m.
  Proof.
    eexists. unfold session, start.
    eapply run_app. { by eapply recover; [apply SystemEx.sb_wf|..]. }
    eapply run_app.
    { eapply (operate _ SystemEx.sb_wf _ (AtomicState.mkState _ put7 _ _ _)); [done|done|].
      exists put7, MapSpec.my_init, seven. split_and!; [done|cbn; lia|cbn; lia|done|done|done|done| |reflexivity].
      right; left. by exists 1%N, 7%N. }
    eapply run_app. { apply sync_request, SystemEx.sb_wf. }
    eapply run_app. { eapply flush; [apply SystemEx.sb_wf|done|done|]. done. }
    eapply run_app. { eapply sync_reply; [apply SystemEx.sb_wf|apply lookup_insert|done]. }
    eapply run_app. { by apply restart. }
    eapply run_app. { eapply recover; [apply SystemEx.sb_wf|done|apply lookup_insert|reflexivity]. }
    eapply (operate _ SystemEx.sb_wf _ (AtomicState.mkState _ (mkFS 1 [seven]) _ _ _)); [done|done|].
    exists (mkFS 1 [seven]), seven, seven. split_and!; [done|cbn; lia|cbn; lia|done|done|done|done| |reflexivity].
    left. by exists 1%N, 7%N.
  Qed.
End TokenEx.
