(** Concrete runs of the whole system: a session with a sync, a crash and a
    recovery, and the runs behind the findings on C22 and C23. *)
From Verif Require Import Spec_Model Spec_Spec Disk_Model System_Model System_Spec Spec_Proof AsyncDisk_Proof System_Proof.

(** ** Phases of a session *)
Section phases.
  Context `{Geometry} `{Decoder} (Hwf : addr_wf superblock_addr).
  Notation fx := (SystemModel.next_fixed Concrete.model_fixed).
  Notation st p c rq rp sq sp h := (SystemModel.mkState p (AsyncDisk.mkState ∅ ∅ c) rq rp sq sp h).
  Notation ready h pv m := (AtomicState.mkState AtomicState.RecoveryComplete h pv None m).

  Definition read_sb (rid : ID) (page : RawPage) : list SystemModel.Label :=
    [SystemModel.ProgramDiskOp (mkInfo {[+ (rid, ReadReq superblock_addr) +]} ∅);
     SystemModel.DiskInternal;
     SystemModel.ProgramDiskOp (mkInfo ∅ {[+ (rid, ReadResp page) +]})].
  Definition write_sb (rid : ID) (page : RawPage) : list SystemModel.Label :=
    [SystemModel.ProgramDiskOp (mkInfo {[+ (rid, WriteReq superblock_addr page) +]} ∅);
     SystemModel.DiskInternal;
     SystemModel.ProgramDiskOp (mkInfo ∅ {[+ (rid, WriteResp) +]})].
  Definition operation (req : Request) (rep : Reply) : list SystemModel.Label :=
    [SystemModel.AcceptRequest req; SystemModel.ProgramUIOp (Execute req rep); SystemModel.DeliverReply rep].

  Lemma recover p c rq rp sq sp h rid page x v :
    AtomicState.recovery_state p = AtomicState.Begin →
    c !! superblock_addr = Some page → unmarshall page = mkSB x v →
    run fx (st p c rq rp sq sp h) (read_sb rid page) (st (ready (mkFS v [x]) v ∅) c rq rp sq sp h).
  Proof.
    intros Hp Hc Hu. unfold read_sb. eapply run_cons.
    { do 7 right; left. eexists _, _, _. split_and!; [done| | |done].
      - left. exists rid. split_and!; [done|done|done|reflexivity].
      - left. eexists _, _. cbn [info_reqs info_resps]. rewrite multiset_to_map_singleton, multiset_to_map_empty.
        split_and!; [done|set_solver|set_solver|apply map_empty_subseteq|reflexivity]. }
    eapply run_cons.
    { do 9 right; left. eexists. split_and!; [done| |done]. right; left. exists rid. split; [done|].
      exists superblock_addr, page. cbn [AsyncDisk.requests AsyncDisk.content AsyncDisk.responses SystemModel.disk].
      split_and!; [|done|by intros d; rewrite Hc; intros [= ->]|reflexivity].
      by rewrite (right_id_L ∅ (∪)), lookup_singleton. }
    eapply run_cons; [|constructor].
    do 7 right; left. eexists _, _, _. split_and!; [done| | |].
    - right; left. exists rid, page. split_and!; [done|done|done|reflexivity].
    - left. eexists _, _. cbn [info_reqs info_resps]. rewrite multiset_to_map_singleton, multiset_to_map_empty.
      split_and!; [done|set_solver|set_solver| |reflexivity].
      cbn [AsyncDisk.responses SystemModel.disk]. apply map_singleton_subseteq_l, lookup_insert.
    - cbn [AsyncDisk.requests AsyncDisk.responses AsyncDisk.content SystemModel.disk]. rewrite Hu, singleton_seq_eq.
      cbn [sb_version sb_store]. f_equal. f_equal.
      + by rewrite (right_id_L ∅ (∪)), (left_id_L ∅ (∪)), delete_singleton.
      + rewrite map_difference_empty, insert_empty. symmetry. apply map_difference_diag.
  Qed.
  Lemma flush hs pv m c rq rp sq sp h rid page x :
    fs_entries hs ≠ [] → fs_last hs = Some x → unmarshall page = mkSB x (fs_len hs - 1) →
    run fx (st (ready hs pv m) c rq rp sq sp h) (write_sb rid page)
      (st (ready (fs_get_suffix hs (fs_len hs - 1)) (fs_len hs - 1) m) (<[superblock_addr := page]> c) rq rp sq sp h).
  Proof.
    intros Hne Hl Hu. unfold write_sb. eapply run_cons.
    { do 7 right; left. eexists _, _, _. split_and!; [done| | |done].
      - right; right; left. exists rid, (mkSB x (fs_len hs - 1)), page.
        split_and!; [|done|done|done|done|done|reflexivity].
        unfold AtomicState.ephemeral_sb, AtomicState.sb_at. cbn. unfold fs_last in Hl.
        by rewrite Hl.
      - left. eexists _, _. cbn [info_reqs info_resps]. rewrite multiset_to_map_singleton, multiset_to_map_empty.
        split_and!; [done|set_solver|set_solver|apply map_empty_subseteq|reflexivity]. }
    eapply run_cons.
    { do 9 right; left. eexists. split_and!; [done| |done]. right; right; left. exists rid. split; [done|].
      exists superblock_addr, page. cbn [AsyncDisk.requests AsyncDisk.content AsyncDisk.responses SystemModel.disk].
      split_and!; [|done|reflexivity].
      by rewrite (right_id_L ∅ (∪)), lookup_singleton. }
    eapply run_cons; [|constructor].
    do 7 right; left. eexists _, _, _. split_and!; [done| | |].
    - right; right; right. eexists (AtomicState.mkInflight _ rid). split_and!; [done|reflexivity|done|done|reflexivity].
    - left. eexists _, _. cbn [info_reqs info_resps]. rewrite multiset_to_map_singleton, multiset_to_map_empty.
      split_and!; [done|set_solver|set_solver| |reflexivity].
      cbn [AsyncDisk.responses SystemModel.disk]. apply map_singleton_subseteq_l, lookup_insert.
    - cbn [AsyncDisk.requests AsyncDisk.responses AsyncDisk.content SystemModel.disk]. f_equal. f_equal.
      + by rewrite (right_id_L ∅ (∪)), (left_id_L ∅ (∪)), delete_singleton.
      + rewrite map_difference_empty, insert_empty. symmetry. apply map_difference_diag.
  Qed.
  Lemma operate hs hs' pv m c rq rp sq sp h req rep x x' :
    req_id req ∉ h → AtomicState.valid_request_reply_pair req rep →
    fs_len hs ≤ fs_len hs' ≤ fs_len hs + 1 → fs_get_prefix hs' (fs_len hs) = hs →
    fs_last hs = Some x → fs_last hs' = Some x' →
    MapSpec.next x x' (AtomicState.to_map_label req rep) →
    run fx (st (ready hs pv m) c rq rp sq sp h) (operation req rep)
      (st (ready hs' pv m) c rq rp sq sp (h ⊎ {[+ req_id req +]})).
  Proof.
    intros Hf Hv Hlen Hpre Hx Hx' Hm. unfold operation. eapply run_cons.
    { left. exists req. split_and!; [done|done|reflexivity]. }
    eapply run_cons.
    { do 2 right; left. eexists _, req, rep. split_and!; [done|cbn; multiset_solver| |reflexivity].
      exists hs', x, x'. split_and!; [done|apply Hlen|apply Hlen|done|exact Hv|exact Hx| |done|reflexivity]. exact Hx'. }
    eapply run_cons; [|constructor].
    right; left. exists rep. split_and!; [done|cbn; multiset_solver|].
    cbn. f_equal; multiset_solver.
  Qed.
  Lemma sync_request hs pv m c rq rp sq sp h id :
    id ∉ h →
    run fx (st (ready hs pv m) c rq rp sq sp h) [SystemModel.AcceptSyncRequest id; SystemModel.ProgramUIOp (AcceptSync id)]
      (st (ready hs pv (<[id := fs_len hs - 1]> m)) c rq rp sq sp (h ⊎ {[+ id +]})).
  Proof.
    intros Hf. eapply run_cons. { do 3 right; left. exists id. split_and!; [done|done|reflexivity]. }
    eapply run_cons; [|constructor]. do 4 right; left. eexists. split.
    - exists id. split_and!; [done|by split|]. cbn. f_equal; multiset_solver.
    - intros id' [= <-]. cbn. multiset_solver.
  Qed.
  Lemma sync_reply hs pv m c rq rp sq sp h id v :
    m !! id = Some v → v ≤ fs_start hs →
    run fx (st (ready hs pv m) c rq rp sq sp h) [SystemModel.ProgramUIOp (DeliverSync id); SystemModel.DeliverSyncReply id]
      (st (ready hs pv (delete id m)) c rq rp sq sp h).
  Proof.
    intros Hm Hv. eapply run_cons.
    { do 5 right; left. eexists _, id. split_and!; [done| |reflexivity].
      split; [by eexists|]. split_and!; [done| |reflexivity]. cbn. intros v'. rewrite Hm. intros [= <-]. done. }
    eapply run_cons; [|constructor]. do 6 right; left. exists id. split_and!; [done|cbn; multiset_solver|].
    cbn. f_equal; multiset_solver.
  Qed.
  (** As written: no request needed at all. *)
  Lemma sync_reply_unasked hs pv m c rq rp sq sp h id :
    m !! id = None →
    run (SystemModel.next Concrete.model) (st (ready hs pv m) c rq rp sq sp h)
      [SystemModel.ProgramUIOp (DeliverSync id); SystemModel.DeliverSyncReply id]
      (st (ready hs pv (delete id m)) c rq rp sq sp h).
  Proof.
    intros Hm. eapply run_cons.
    { do 5 right; left. eexists _, id. split_and!; [done| |reflexivity].
      split_and!; [done| |reflexivity]. cbn. intros v'. rewrite Hm. done. }
    eapply run_cons; [|constructor]. do 6 right; left. exists id. split_and!; [done|cbn; multiset_solver|].
    cbn. f_equal; multiset_solver.
  Qed.
  Lemma crash p p' c rq rp sq sp h :
    AtomicState.recovery_state p' = AtomicState.Begin →
    run fx (st p c rq rp sq sp h) [SystemModel.Crash] (st p' c ∅ ∅ ∅ sp h).
  Proof.
    intros Hp. eapply run_cons; [|constructor]. do 10 right; left. eexists _, _. split_and!; [done|exact Hp| |done].
    right; right; right. done.
  Qed.
  Lemma to_written s ls s' : run fx s ls s' → run (SystemModel.next Concrete.model) s ls s'.
  Proof.
    induction 1; [constructor|]. eapply run_snoc; [done|]. by apply fixed_guarded.
  Qed.

  (** ** The runs behind the findings *)
  Definition fresh_program : AtomicState.State := AtomicState.mkState AtomicState.Begin (mkFS 0 []) 0 None ∅.
  Definition fresh_system (c : gmap Address RawPage) : SystemModel.State := st fresh_program c ∅ ∅ ∅ ∅ ∅.
  Lemma fresh_initial c : mkfs c → SystemModel.initialize Concrete.model (fresh_system c).
  Proof. intros Hc. split_and!; [by split_and!|done|done]. Qed.

  (** Put 7 at key 1, sync, get the acknowledgement, crash: the put is gone. *)
  Definition lost_trace (page : RawPage) : list SystemModel.Label :=
    read_sb 10 page ++ operation (mkReq (PutInput 1 7) 0) (mkReply PutOutput 0) ++
    [SystemModel.AcceptSyncRequest 5] ++
    [SystemModel.ProgramUIOp (DeliverSync 5); SystemModel.DeliverSyncReply 5] ++
    [SystemModel.Crash] ++ read_sb 11 page ++
    operation (mkReq (QueryInput 1) 2) (mkReply (QueryOutput 0) 2).
  Lemma lost_run c page :
    c !! superblock_addr = Some page → unmarshall page = mkSB MapSpec.my_init 0 →
    ∃ s, run (SystemModel.next Concrete.model) (fresh_system c) (lost_trace page) s.
  Proof.
    intros Hc Hu. eexists. unfold lost_trace, fresh_system.
    eapply run_app. { apply to_written. by eapply recover. }
    eapply run_app.
    { apply to_written.
      eapply (operate _ (mkFS 0 [MapSpec.my_init; MapSpec.mkState (kmmap_insert kmmap_empty 1 (Define 7%N))])).
      - cbn [req_id]. multiset_solver.
      - done.
      - cbn. lia.
      - done.
      - done.
      - done.
      - right; left. by exists 1%N, 7%N. }
    eapply run_app.
    { eapply run_one. do 3 right; left. exists 5%N. split_and!; [done| |reflexivity].
      unfold SystemModel.fresh_id. cbn [SystemModel.id_history req_id]. multiset_solver. }
    eapply run_app. { by apply sync_reply_unasked. }
    eapply run_app. { apply to_written. by apply (crash _ fresh_program). }
    eapply run_app. { apply to_written. by eapply recover. }
    apply to_written. eapply (operate _ (mkFS 0 [MapSpec.my_init])); try done.
    - cbn [req_id]. multiset_solver.
    - cbn. lia.
    - left. by exists 1%N, 0%N.
  Qed.
  (** The same without any request: an acknowledgement out of nowhere. *)
  Definition unasked_trace (page : RawPage) : list SystemModel.Label :=
    read_sb 10 page ++ [SystemModel.ProgramUIOp (DeliverSync 5); SystemModel.DeliverSyncReply 5].
  Lemma unasked_run c page :
    c !! superblock_addr = Some page → unmarshall page = mkSB MapSpec.my_init 0 →
    ∃ s, run (SystemModel.next Concrete.model) (fresh_system c) (unasked_trace page) s.
  Proof.
    intros Hc Hu. eexists. unfold unasked_trace, fresh_system.
    eapply run_app. { apply to_written. by eapply recover. }
    by apply sync_reply_unasked.
  Qed.
  (** One request, two acknowledgements. *)
  Definition twice_trace (page : RawPage) : list SystemModel.Label :=
    read_sb 10 page ++ [SystemModel.AcceptSyncRequest 5; SystemModel.ProgramUIOp (AcceptSync 5)] ++
    [SystemModel.ProgramUIOp (DeliverSync 5); SystemModel.DeliverSyncReply 5] ++
    [SystemModel.ProgramUIOp (DeliverSync 5); SystemModel.DeliverSyncReply 5].
  Lemma twice_run c page :
    c !! superblock_addr = Some page → unmarshall page = mkSB MapSpec.my_init 0 →
    ∃ s, run (SystemModel.next Concrete.model) (fresh_system c) (twice_trace page) s.
  Proof.
    intros Hc Hu. eexists. unfold twice_trace, fresh_system.
    eapply run_app. { apply to_written. by eapply recover. }
    eapply run_app. { apply to_written. apply sync_request. multiset_solver. }
    eapply run_app. { apply to_written. eapply sync_reply; [apply lookup_insert|done]. }
    apply sync_reply_unasked. apply lookup_delete.
  Qed.
End phases.

Lemma run_cons_inv {S L} (next : S → S → L → Prop) s l ls s' :
  run next s (l :: ls) s' → ∃ s1, next s s1 l ∧ run next s1 ls s'.
Proof.
  remember (l :: ls) as l0 eqn:He. intros Hr. revert l ls He.
  induction Hr as [s|s ls0 s1 l1 s2 Hr IH Hn]; intros l ls He; [done|].
  destruct ls0 as [|l' ls0].
  - injection He as -> <-. apply run_nil_inv in Hr as ->. exists s2. split; [done|constructor].
  - injection He as -> <-. destruct (IH l ls0 eq_refl) as (t&Ht&Hrt). exists t. split; [done|]. by eapply run_snoc.
Qed.

(** ** Refutations of the system as written *)
Section refuted.
  Context `{Geometry} `{Decoder}.
  Lemma invisible_keeps_syncs l a t t' :
    label_correspondence l a → CTAM.next t t' a → 
    match l with SystemModel.ProgramUIOp (AcceptSync _) | SystemModel.ProgramUIOp (DeliverSync _) | SystemModel.Crash => False | _ => True end →
    CTAM.sync_requests t' = CTAM.sync_requests t.
  Proof.
    intros Hl Hn Hk. destruct Hn as [(nv&ne&bop&?&?&->&_&_&_&_&->)|[[-> ->]|[(i&->&_&->)|[(id&->&_&->)|[(id&v&->&_&_&->)|[-> ->]]]]]]; try done.
    all: destruct l as [| | | |[]| | | | |]; cbn in Hl; try done; exfalso; by apply Hl.
  Qed.
  Lemma unasked_refuted c :
    addr_wf superblock_addr → mkfs c →
    ∃ s0 ls s, SystemModel.initialize Concrete.model s0 ∧ run (SystemModel.next Concrete.model) s0 ls s ∧
      ¬ syncs_answered_once ls ∧
      ¬ ∃ als t, Forall2 label_correspondence ls als ∧ run CTAM.next CTAM.init als t.
  Proof.
    intros Hwf Hmk. pose proof (fresh_initial c Hmk) as Hi. destruct Hmk as (page&Hc&Hm).
    destruct (unasked_run Hwf c page Hc Hm) as [s Hs]. exists (fresh_system c), (unasked_trace page), s.
    split_and!; [done|done| |].
    - intros Ho. destruct (Ho 4 5%N) as [(i&Hlt&Hi') _]; [done|].
      do 4 (destruct i as [|i]; [done|]). lia.
    - intros (als&t&Hf&Hrun). unfold unasked_trace, read_sb in Hf. cbn in Hf.
      destruct als as [|a1 als]; [by inversion Hf|]. apply stdpp.list.Forall2_cons in Hf as [H1 Hf].
      destruct als as [|a2 als]; [by inversion Hf|]. apply stdpp.list.Forall2_cons in Hf as [H2 Hf].
      destruct als as [|a3 als]; [by inversion Hf|]. apply stdpp.list.Forall2_cons in Hf as [H3 Hf].
      destruct als as [|a4 als]; [by inversion Hf|]. apply stdpp.list.Forall2_cons in Hf as [H4 Hf].
      apply run_cons_inv in Hrun as (t1&N1&Hrun).
      apply run_cons_inv in Hrun as (t2&N2&Hrun).
      apply run_cons_inv in Hrun as (t3&N3&Hrun).
      apply run_cons_inv in Hrun as (t4&N4&Hrun).
      eapply invisible_keeps_syncs in N1; [|exact H1|done].
      eapply invisible_keeps_syncs in N2; [|exact H2|done].
      eapply invisible_keeps_syncs in N3; [|exact H3|done].
      cbn in H4. subst a4.
      destruct N4 as [(nv&ne&bop&?&?&[=]&_)|[[[=] ?]|[(i&[=]&_)|[(id&[=]&_)|[(id&v&[= <-]&Hlook&_)|[[=] _]]]]]].
      rewrite N3, N2, N1 in Hlook. done.
  Qed.
  Lemma twice_refuted c :
    addr_wf superblock_addr → mkfs c →
    ∃ s0 ls s i j k, SystemModel.initialize Concrete.model s0 ∧ run (SystemModel.next Concrete.model) s0 ls s ∧
      (∀ m, ls !! m = Some (SystemModel.AcceptSyncRequest 5) ↔ m = i) ∧ i < j < k ∧
      ls !! j = Some (SystemModel.DeliverSyncReply 5) ∧ ls !! k = Some (SystemModel.DeliverSyncReply 5).
  Proof.
    intros Hwf Hmk. pose proof (fresh_initial c Hmk) as Hi. destruct Hmk as (page&Hc&Hm).
    destruct (twice_run Hwf c page Hc Hm) as [s Hs]. exists (fresh_system c), (twice_trace page), s, 3, 6, 8.
    split_and!; [done|done| |lia|lia|done|done].
    intros m. split; [|by intros ->].
    intros Hx. do 9 (destruct m as [|m]; [by cbn in Hx|]). by cbn in Hx.
  Qed.
  Lemma lost_refuted c :
    addr_wf superblock_addr → mkfs c →
    ∃ s0 ls s, SystemModel.initialize Concrete.model s0 ∧ run (SystemModel.next Concrete.model) s0 ls s ∧
      ¬ ∃ als logs, Forall2 sys_data_event ls als ∧ explained als logs ∧ client_syncs_durable ls logs.
  Proof.
    intros Hwf Hmk. pose proof (fresh_initial c Hmk) as Hi. destruct Hmk as (page&Hc&Hm).
    destruct (lost_run Hwf c page Hc Hm) as [s Hs]. exists (fresh_system c), (lost_trace page), s.
    split_and!; [done|done|].
    intros (als&logs&Hf&(Hlen&HL0&He)&Hd).
    assert (∀ i l, lost_trace page !! i = Some l → ∃ a, als !! i = Some a ∧ sys_data_event l a) as Hev.
    { intros i l Hl. by destruct (Forall2_lookup_l _ _ _ _ _ Hf Hl) as (a&?&?); eauto. }
    assert (∀ i l, lost_trace page !! i = Some l → ∃ a b g, logs !! i = Some a ∧ logs !! S i = Some b ∧ sys_data_event l g ∧ log_step g a b) as Hst.
    { intros i l Hl. destruct (Hev i l Hl) as (g&Hg&Hgl). destruct (He i g Hg) as (a&b&?&?&?). by exists a, b, g. }
    destruct (Hd 6 8 5%N) as (a&Ha&Hpre); [done|done|].
    destruct (Hst 0 _ eq_refl) as (?&b0&g&E0&E1&Hg&S0). rewrite HL0 in E0. injection E0 as <-. cbn in Hg. subst g. cbn in S0. subst b0.
    destruct (Hst 1 _ eq_refl) as (?&b0&g&E0&E2&Hg&S0). rewrite E1 in E0. injection E0 as <-.
    cbn in Hg. destruct Hg as [->| ->]; cbn in S0; subst b0.
    all: destruct (Hst 2 _ eq_refl) as (?&b0&g&E0&E3&Hg&S0); rewrite E2 in E0; injection E0 as <-; cbn in Hg; subst g; cbn in S0; subst b0.
    all: destruct (Hst 3 _ eq_refl) as (?&b0&g&E0&E4&Hg&S0); rewrite E3 in E0; injection E0 as <-; cbn in Hg; subst g; cbn in S0; subst b0.
    all: destruct (Hst 4 _ eq_refl) as (?&b0&g&E0&E5&Hg&S0); rewrite E4 in E0; injection E0 as <-; cbn in Hg; subst g; cbn in S0; destruct S0 as (_&_&->).
    all: destruct (Hst 5 _ eq_refl) as (?&b0&g&E0&E6&Hg&S0); rewrite E5 in E0; injection E0 as <-; cbn in Hg; subst g; cbn in S0; subst b0.
    all: rewrite E6 in Ha; injection Ha as <-.
    all: destruct (Hst 6 _ eq_refl) as (?&b0&g&E0&E7&Hg&S0); rewrite E6 in E0; injection E0 as <-; cbn in Hg; subst g; cbn in S0; subst b0.
    all: destruct (Hst 7 _ eq_refl) as (?&b0&g&E0&E8&Hg&S0); rewrite E7 in E0; injection E0 as <-; cbn in Hg; subst g; cbn in S0; subst b0.
    all: destruct (Hst 8 _ eq_refl) as (?&b0&g&E0&E9&Hg&S0); rewrite E8 in E0; injection E0 as <-; cbn in Hg; subst g; cbn in S0; subst b0.
    all: destruct (Hst 9 _ eq_refl) as (?&b10&g&E0&E10&Hg&S0); rewrite E9 in E0; injection E0 as <-; cbn in Hg; subst g; cbn in S0.
    all: destruct (Hst 14 _ eq_refl) as (b14&b15&g&E14&E15&Hg&S14); cbn in Hg; subst g; cbn in S14; destruct S14 as (_&Ho&_).
    all: destruct (Hst 10 _ eq_refl) as (?&b0&g&E0&E11&Hg&S1); rewrite E10 in E0; injection E0 as <-; cbn in Hg; subst g; cbn in S1; subst b0.
    all: destruct (Hst 11 _ eq_refl) as (?&b0&g&E0&E12&Hg&S1); rewrite E11 in E0; injection E0 as <-; cbn in Hg; destruct Hg as [->| ->]; cbn in S1; subst b0.
    all: destruct (Hst 12 _ eq_refl) as (?&b0&g&E0&E13&Hg&S1); rewrite E12 in E0; injection E0 as <-; cbn in Hg; subst g; cbn in S1; subst b0.
    all: destruct (Hst 13 _ eq_refl) as (?&b0&g&E0&E14'&Hg&S1); rewrite E13 in E0; injection E0 as <-; cbn in Hg; subst g; cbn in S1; subst b0.
    all: rewrite E14 in E14'; injection E14' as ->.
    all: pose proof (Hpre 10 _ ltac:(lia) E10) as Hp.
    all: assert (b10 = [PutInput 1 7]) as ->.
    all: try (destruct Hp as [k Hk]; destruct S0 as [k2 Hk2]; subst b10; cbn in Hk2; injection Hk2 as Hk2; symmetry in Hk2; apply app_eq_nil in Hk2 as [-> _]; done).
    all: vm_compute in Ho; done.
  Qed.
End refuted.

(** ** A concrete disk format and a concrete session *)
Module SystemEx.
  Global Instance geometry : Geometry := {| page_count := 4; au_count := 4 |}.
  (** A page holds the version and then key-value pairs. *)
  Fixpoint decode_pairs (l : list N) (m : TotalKMMap) : TotalKMMap :=
    match l with k :: v :: l => decode_pairs l (kmmap_insert m k (Define v)) | _ => m end.
  Global Instance decoder : Decoder := {|
    unmarshall p := match p with
                    | [] => mkSB MapSpec.my_init 0
                    | v :: l => mkSB (MapSpec.mkState (decode_pairs l kmmap_empty)) (N.to_nat v)
                    end |}.
  Definition disk0 : gmap Address RawPage := {[ superblock_addr := [] ]}.
  Lemma disk0_mkfs : mkfs disk0.
  Proof. exists []. done. Qed.
  Lemma sb_wf : addr_wf superblock_addr.
  Proof. unfold addr_wf. cbn. lia. Qed.
  (** Recover, put 7 at key 1, sync and get the acknowledgement, put 9, crash,
      recover, read 7. *)
  Definition trace : list SystemModel.Label :=
    read_sb 10 [] ++ operation (mkReq (PutInput 1 7) 0) (mkReply PutOutput 0) ++
    [SystemModel.AcceptSyncRequest 5; SystemModel.ProgramUIOp (AcceptSync 5)] ++
    write_sb 11 [1; 1; 7]%N ++
    [SystemModel.ProgramUIOp (DeliverSync 5); SystemModel.DeliverSyncReply 5] ++
    operation (mkReq (PutInput 1 9) 1) (mkReply PutOutput 1) ++
    [SystemModel.Crash] ++ read_sb 12 [1; 1; 7]%N ++
    operation (mkReq (QueryInput 1) 2) (mkReply (QueryOutput 7) 2).
  Definition m7 : MapSpec.State := MapSpec.mkState (kmmap_insert kmmap_empty 1 (Define 7%N)).
  Definition m9 : MapSpec.State := MapSpec.mkState (kmmap_insert (MapSpec.kmmap m7) 1 (Define 9%N)).
  Lemma session : ∃ s, run (SystemModel.next_fixed Concrete.model_fixed) (fresh_system disk0) trace s.
  Proof.
    eexists. unfold trace, fresh_system. pose proof sb_wf as Hwf.
    eapply run_app. { by eapply recover. }
    eapply run_app.
    { eapply (operate Hwf _ (mkFS 0 [MapSpec.my_init; m7])); try done.
      - cbn [req_id]. multiset_solver.
      - cbn. lia.
      - right; left. by exists 1%N, 7%N. }
    eapply run_app. { apply (sync_request Hwf). multiset_solver. }
    eapply run_app. { by eapply (flush Hwf (mkFS 0 [MapSpec.my_init; m7])). }
    eapply run_app. { eapply (sync_reply Hwf); [apply lookup_insert|]. cbn. lia. }
    eapply run_app.
    { eapply (operate Hwf _ (mkFS 1 [m7; m9])); try done.
      - cbn [req_id]. multiset_solver.
      - cbn. lia.
      - right; left. by exists 1%N, 9%N. }
    eapply run_app. { by apply (crash _ fresh_program). }
    eapply run_app. { eapply recover; [done|done|apply lookup_insert|done]. }
    eapply (operate Hwf _ (mkFS 1 [m7])); try done.
    - cbn [req_id]. multiset_solver.
    - cbn. lia.
    - left. by exists 1%N, 7%N.
  Qed.
  Lemma initial : SystemModel.initialize Concrete.model (fresh_system disk0).
  Proof. apply fresh_initial, disk0_mkfs. Qed.
End SystemEx.

(** ** A concrete disk trace *)
Module DiskEx.
  Import SystemEx.
  Definition a1 : Address := mkAddr 1 2.
  Definition c0 : gmap Address RawPage := {[ a1 := [5%N] ]}.
  (** Two writes and a read are outstanding at once; the disk performs the second
      write, the read, then crashes before the first write. *)
  Definition tr : list disk_event :=
    [EOps {[ 1%N := WriteReq a1 [7%N] ]} ∅; EOps {[ 2%N := WriteReq a1 [8%N] ]} ∅; EOps {[ 3%N := ReadReq a1 ]} ∅;
     EWrite 2 a1 [8%N]; ERead 3 a1 [8%N]; EOps ∅ {[ 3%N := ReadResp [8%N] ]}; ECrash].
  Lemma runs : ∃ s, run disk_step (AsyncDisk.mkState ∅ ∅ c0) tr s ∧ AsyncDisk.content s !! a1 = Some [8%N].
  Proof.
    assert (addr_wf a1) as Hwf by (unfold addr_wf; cbn; lia).
    eexists. split.
    - unfold tr.
      eapply run_cons.
      { split; [|done]. left. eexists _, _. split_and!; [done|set_solver|set_solver|apply map_empty_subseteq|reflexivity]. }
      eapply run_cons.
      { split; [|done]. left. eexists _, _. split_and!; [done|set_solver|set_solver|apply map_empty_subseteq|reflexivity]. }
      eapply run_cons.
      { split; [|done]. left. eexists _, _. split_and!; [done|set_solver|set_solver|apply map_empty_subseteq|reflexivity]. }
      eapply run_cons.
      { split; [|split]. 2: reflexivity.
        - right; right; left. exists 2%N. split; [done|]. exists a1, [8%N]. split_and!; [reflexivity|done|reflexivity].
        - reflexivity. }
      eapply run_cons.
      { split; [|split_and!]. 2: reflexivity.
        - right; left. exists 3%N. split; [done|]. exists a1, [8%N]. split_and!; [reflexivity|done| |reflexivity].
          intros d Hd. by injection Hd as <-.
        - reflexivity.
        - reflexivity. }
      eapply run_cons.
      { split; [|done]. left. eexists _, _. split_and!; [done|set_solver|set_solver| |reflexivity].
        apply map_singleton_subseteq_l. reflexivity. }
      eapply run_cons; [|constructor]. split; [|done]. right; right; right. done.
    - reflexivity.
  Qed.
End DiskEx.
