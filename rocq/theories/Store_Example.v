(** A concrete run of the assembled store (C48): load, three puts, a flush and a
    freeze of the tree after the second one, a sync that commits, a crash. *)
From Verif Require Import Spec_Model Spec_Spec Spec_Proof Abs_Model Abs_Proof Betree_Model
  Journal_Model Journal_Spec Journal_Example AllocJournal_Model AllocJournal_Example
  CrashJournal_Model CrashJournal_Example Store_Model Store_Spec.

Local Existing Instance exg.
Notation ExStore := (Store.State (journal_layer SharedPages) (tree_layer PagedTree)).
Definition ex_put1 := mkReq (PutInput 1 7) 1%N.
Definition ex_put2 := mkReq (PutInput 1 9) 2%N.
Definition ex_put3 := mkReq (PutInput 5 4) 3%N.
Definition request (q : Request) := CTAM.OperateOp (AsyncMap.RequestOp q).
Definition execute_put (q : Request) := CTAM.OperateOp (AsyncMap.ExecuteOp q (mkReply PutOutput (req_id q))).
(** Up to the request of the sync. *)
Definition waiting_trace : list CTAM.Label :=
  [CTAM.Noop; CTAM.Noop; request ex_put1; execute_put ex_put1; CTAM.Noop; request ex_put2; execute_put ex_put2; CTAM.Noop;
   CTAM.Noop; CTAM.Noop; request ex_put3; execute_put ex_put3; CTAM.ReqSyncOp 8%N].
Definition store_trace : list CTAM.Label :=
  waiting_trace ++ [CTAM.Noop; CTAM.Noop; CTAM.SyncOp; CTAM.Noop; CTAM.ReplySyncOp 8%N; CTAM.CrashOp].

Definition mb0 : BState Betree_Model.Paged.BetreeNode := mkBS (empty_memtable 0) Betree_Model.Paged.Nil.
Definition mb1 := mkBS (apply_puts (memtable mb0) jm0) (root mb0).
Definition mb2 := mkBS (apply_puts (memtable mb1) jm1) (root mb1).
Definition mb3 := mkBS (mt_drain (memtable mb2)) (st_value (Betree_Model.Paged.push_memtable (root mb2) (memtable mb2))).
Definition mb4 := mkBS (apply_puts (memtable mb3) jm2) (root mb3).
Definition mfrozen : Stamped Betree_Model.Paged.BetreeNode := mkStamped (root mb3) 2.
Definition ex_j v f d : Unified.State := Unified.mkState (Some v) f is_empty_image d.
Definition ex_m (v : BState Betree_Model.Paged.BetreeNode) f : TreeMap.State (tree_layer PagedTree) :=
  TreeMap.mkState (M := paged_layer) Betree_Model.Paged.empty_image (Some v) f.
Definition ex_s (j : Unified.State) m e sb : ExStore := Store.mkState (J := journal_layer SharedPages) j m (Some e) sb.
Definition ex_s0 : ExStore :=
  Store.mkState (J := journal_layer SharedPages) us0 (TreeMap.mkState (M := paged_layer) Betree_Model.Paged.empty_image None None) None false.

Definition progress_asked (e : CoordSys.Known) (q : Request) : CoordSys.Known :=
  CoordSys.mkKnown (mkEph ({[q]} ∪ requests (CoordSys.progress e)) (replies (CoordSys.progress e))) (CoordSys.sync_reqs e) (CoordSys.map_lsn e).
Definition progress_put (e : CoordSys.Known) (q : Request) : CoordSys.Known :=
  CoordSys.mkKnown (mkEph (requests (CoordSys.progress e) ∖ {[q]}) ({[mkReply PutOutput (req_id q)]} ∪ replies (CoordSys.progress e)))
    (CoordSys.sync_reqs e) (CoordSys.map_lsn e + 1).
Lemma ex_request j m e sb q : bool_decide (q ∉ requests (CoordSys.progress e)) = true →
  Store.next (ex_s j m e sb) (ex_s j m (progress_asked e q) sb) (request q).
Proof. intros H%bool_decide_eq_true. do 2 right; left. by exists e, q. Qed.
Lemma ex_execute j j' m m' e sb q k v : req_input q = PutInput k v → bool_decide (q ∈ requests (CoordSys.progress e)) = true →
  bool_decide (mkReply PutOutput (req_id q) ∉ replies (CoordSys.progress e)) = true →
  let r := singleton_at (CoordSys.map_lsn e) (mkKM k (Define v)) in
  Unified.next j j' (AllocCrash.Put r) → TreeMap.next m m' (CTMap.PutRecordsLabel r) →
  Store.next (ex_s j m e sb) (ex_s j' m' (progress_put e q) sb) (execute_put q).
Proof.
  intros Hq H1%bool_decide_eq_true H2%bool_decide_eq_true r Hj Hm. do 4 right; left.
  exists j', m', e, q, (mkReply PutOutput (req_id q)), k, v. do 7 (split; [done|]). split; [|by split]. exists (AllocCrash.Put r). by split.
Qed.
Lemma ex_journal j j' m e sb x y : Unified.next j j' (AllocCrash.Internal x y) →
  Store.next (ex_s j m e sb) (ex_s j' m e sb) CTAM.Noop.
Proof. intros Hj. do 6 right; left. exists j', e. split; [done|]. split; [done|]. split; [|done]. exists (AllocCrash.Internal x y). by split. Qed.
Lemma ex_map j m m' e sb : TreeMap.next m m' CTMap.InternalLabel →
  Store.next (ex_s j m e sb) (ex_s j m' e sb) CTAM.Noop.
Proof. intros Hm. do 7 right; left. exists m', e. by split_and!. Qed.
Lemma ex_m_put v v' f r : Betree_Model.Paged.next v v' (Put r) → TreeMap.next (ex_m v f) (ex_m v' f) (CTMap.PutRecordsLabel r).
Proof. intros H. right; left. exists v', r, v. by split_and!. Qed.

Definition ex_e0 := CoordSys.mkKnown AsyncMap.init_ephemeral_state ∅ 0.
Definition ex_e1 := progress_put (progress_asked ex_e0 ex_put1) ex_put1.
Definition ex_e2 := progress_put (progress_asked ex_e1 ex_put2) ex_put2.
Definition ex_e3 := progress_put (progress_asked ex_e2 ex_put3) ex_put3.
Definition ex_e4 := CoordSys.mkKnown (CoordSys.progress ex_e3) (<[8%N := 3]> ∅) 3.
Definition ex_e5 := CoordSys.mkKnown (CoordSys.progress ex_e3) (delete 8%N (<[8%N := 3]> ∅)) 3.
Definition ex_m_done : TreeMap.State (tree_layer PagedTree) := TreeMap.mkState (M := paged_layer) mfrozen (Some mb4) None.
Definition ex_crashed : ExStore :=
  Store.mkState (J := journal_layer SharedPages) us_crashed (TreeMap.mkState (M := paged_layer) mfrozen None None) None false.
Lemma ex_query_end : Unified.next (ex_j ce6 None (cdv 2)) (ex_j ce6 None (cdv 2)) (AllocCrash.QueryEndLsn 3).
Proof.
  do 2 right; left. exists 3, ce6. split; [done|]. split; [done|]. split; [|done].
  do 2 right; left. split; [by eexists|]. split; [|done]. do 2 right; left. split; [|done].
  exact (inv_wf es6 (step_inv _ _ _ es5_inv est7)).
Qed.
Lemma ex_commit : Unified.next (ex_j ce7 None (cdv 3)) us_committing (AllocCrash.CommitStart 2 3).
Proof.
  do 6 right; left. exists cis2, 0. exists 2, 3, ce7. split; [done|]. split; [done|]. split; [done|].
  split; [vm_compute; lia|]. cbv zeta. split; [cbn; lia|]. split; [done|]. split; [exact I|]. split; [split; vm_compute; lia|].
  split; [intros _; by vm_compute|]. split; [by vm_compute|done].
Qed.
Definition ex_waiting : ExStore := ex_s (ex_j ce6 None (cdv 2)) (ex_m mb4 (Some mfrozen)) ex_e4 false.
Lemma store_waits : run Store.next ex_s0 waiting_trace ex_waiting.
Proof.
  unfold waiting_trace.
  apply (run_cons _ _ _ (ex_s (ex_j ce0 None ∅) (ex_m mb0 None) ex_e0 false)).
  { left. eexists (Unified.mkState _ _ _ _), (ex_m mb0 None), 0. split; [done|]. split; [|split; [|reflexivity]].
    - exists AllocCrash.LoadEphemeralFromPersistent. split; [done|]. exact us_load.
    - left. exists 0, mb0. by split_and!. }
  apply (run_cons _ _ _ (ex_s (ex_j ce1 None ∅) (ex_m mb0 None) ex_e0 false)).
  { eapply ex_journal. apply (us_internal ce0 ce1 ∅ ∅). exact est1. }
  apply (run_cons _ _ _ (ex_s (ex_j ce1 None ∅) (ex_m mb0 None) (progress_asked ex_e0 ex_put1) false)).
  { by apply ex_request. }
  apply (run_cons _ _ _ (ex_s (ex_j ce2 None ∅) (ex_m mb1 None) ex_e1 false)).
  { apply (ex_execute _ _ _ _ _ _ _ 1%N 7%N); [done|done|done| |].
    - apply (us_put ce1 ce2). exact est2.
    - apply ex_m_put. right; left. exists jm0. split; [done|]. split; [apply singleton_wf|]. by split. }
  apply (run_cons _ _ _ (ex_s (ex_j ce3 None (cdv 1)) (ex_m mb1 None) ex_e1 false)).
  { eapply ex_journal. apply (us_internal ce2 ce3 ∅ (cdv 1)). exact est3. }
  apply (run_cons _ _ _ (ex_s (ex_j ce3 None (cdv 1)) (ex_m mb1 None) (progress_asked ex_e1 ex_put2) false)).
  { by apply ex_request. }
  apply (run_cons _ _ _ (ex_s (ex_j ce4 None (cdv 1)) (ex_m mb2 None) ex_e2 false)).
  { apply (ex_execute _ _ _ _ _ _ _ 1%N 9%N); [done|done|done| |].
    - apply (us_put ce3 ce4). exact est4.
    - apply ex_m_put. right; left. exists jm1. split; [done|]. split; [apply singleton_wf|]. by split. }
  apply (run_cons _ _ _ (ex_s (ex_j ce5 None (cdv 2)) (ex_m mb2 None) ex_e2 false)).
  { eapply ex_journal. apply (us_internal ce4 ce5 (cdv 1) (cdv 2)). exact est5. }
  apply (run_cons _ _ _ (ex_s (ex_j ce5 None (cdv 2)) (ex_m mb3 None) ex_e2 false)).
  { apply ex_map. do 4 right; left. exists mb3, mb2. split_and!; try done. do 3 right; left. by split. }
  apply (run_cons _ _ _ (ex_s (ex_j ce5 None (cdv 2)) (ex_m mb3 (Some mfrozen)) ex_e2 false)).
  { apply ex_map. do 3 right; left. exists mfrozen, mb3, mb3. split_and!; try done. do 2 right; left.
    by split. }
  apply (run_cons _ _ _ (ex_s (ex_j ce5 None (cdv 2)) (ex_m mb3 (Some mfrozen)) (progress_asked ex_e2 ex_put3) false)).
  { by apply ex_request. }
  apply (run_cons _ _ _ (ex_s (ex_j ce6 None (cdv 2)) (ex_m mb4 (Some mfrozen)) ex_e3 false)).
  { apply (ex_execute _ _ _ _ _ _ _ 5%N 4%N); [done|done|done| |].
    - apply (us_put ce5 ce6). exact est7.
    - apply ex_m_put. right; left. exists jm2. split; [done|]. split; [apply singleton_wf|]. by split. }
  apply run_one.
  do 8 right; left. exists (ex_j ce6 None (cdv 2)), ex_e3, 8%N. split; [done|]. split; [done|]. split; [done|]. split; [|done].
  exists (AllocCrash.QueryEndLsn 3). split; [done|]. exact ex_query_end.
Qed.
Lemma store_example : Store.init ex_s0 ∧ run Store.next ex_s0 store_trace ex_crashed ∧ Store.ephemeral ex_crashed = None.
Proof.
  split; [done|]. split; [|done]. eapply run_app; [exact store_waits|].
  apply (run_cons _ _ _ (ex_s (ex_j ce7 None (cdv 3)) (ex_m mb4 (Some mfrozen)) ex_e4 false)).
  { eapply ex_journal. apply (us_internal ce6 ce7 (cdv 2) (cdv 3)). exact est8. }
  apply (run_cons _ _ _ (ex_s us_committing (ex_m mb4 (Some mfrozen)) ex_e4 true)).
  { do 11 right; left. exists 2, us_committing, ex_e4. split; [done|]. split; [done|]. split; [|split; [|done]].
    - exists (AllocCrash.CommitStart 2 3). split; [done|]. exact ex_commit.
    - do 5 right; left. exists 2, mb4, mfrozen. split_and!; try done. cbn. lia. }
  apply (run_cons _ _ _ (ex_s us_committing (ex_m mb4 (Some mfrozen)) ex_e4 false)).
  { by do 10 right; left. }
  apply (run_cons _ _ _ (ex_s us_committed ex_m_done ex_e4 false)).
  { do 12 right; left. exists ex_m_done, us_committed, ex_e4. split; [done|]. split; [done|]. split; [done|]. split; [|split; [|done]].
    - exists (AllocCrash.CommitComplete 3 {[3]}). split; [done|]. exact us_complete.
    - do 6 right; left. by exists mfrozen. }
  apply (run_cons _ _ _ (ex_s us_committed ex_m_done ex_e5 false)).
  { do 9 right; left. exists us_committed, ex_e4, 8%N, 3. split; [done|]. split; [done|]. split; [done|]. split; [|done].
    exists (AllocCrash.QueryLsnPersistence 3). split; [done|]. exact us_query. }
  apply run_one. do 13 right. eexists us_crashed, _. split; [done|]. split; [|split; [|reflexivity]].
  - exists (AllocCrash.Crash false). split; [done|]. exact us_crash.
  - do 7 right. by exists false.
Qed.
