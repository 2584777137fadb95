(** A concrete store on the be-tree of branches (C59): three puts, two of them on
    journal pages, a branch being built, a sync and a query that wait. *)
From Verif Require Import Spec_Model Spec_Spec Spec_Proof Abs_Model Abs_Proof Betree_Model LinkedBetree_Model BranchBetree_Model BranchBetree_Spec
  Journal_Model Journal_Spec Journal_Example AllocJournal_Model AllocJournal_Example
  CrashJournal_Model CrashJournal_Example JournalLive_Spec JournalLive_Example Store_Model Store_Spec Store_Example StoreLive_Spec Store_Proof Store_Live
  StoreAnswer_Example BranchStore_Model BranchStore_Spec BranchStore_Proof.
From Verif Require Import LikesBetree_Spec.
From Coq Require Import Lia.

Module BranchStoreEx.
  Local Existing Instance exg.
  Notation BL := (branch_layer true).
  Notation BStore := (Store.State (journal_layer SharedPages) BL).
  Definition trace : list CTAM.Label :=
    [CTAM.Noop; CTAM.Noop; request ex_put1; execute_put ex_put1; CTAM.Noop; CTAM.Noop; request ex_put2; execute_put ex_put2;
     CTAM.Noop; request ex_put3; execute_put ex_put3; CTAM.ReqSyncOp 8%N; request ex_get].
  Definition tree (mt : Memtable) : BState BLB := mkBS mt (mkLB None ∅ ∅).
  Definition b0 : ABB.State := ABB.mkState (tree (empty_memtable 0)) ∅ ∅ ∅ [] [].
  Definition putting (s : ABB.State) (m : MsgHistory) : ABB.State :=
    ABB.mkState (tree (apply_puts (memtable (ABB.betree s)) m)) (ABB.betree_aus s) (ABB.branch_aus s) (ABB.branch_summary s) (ABB.compactors s) (ABB.wip_branches s).
  Definition b1 := putting b0 jm0.
  Definition b2 : ABB.State := ABB.mkState (ABB.betree b1) ∅ ∅ ∅ [] [ABranch.new {[1]}].
  Definition b3 := putting b2 jm1.
  Definition b4 := putting b3 jm2.
  Definition bm (v : ABB.State) : TreeMap.State BL := TreeMap.mkState (M := BL) (ml_empty BL) (Some v) None.
  Definition bs (j : Unified.State) m e sb : BStore := Store.mkState (J := journal_layer SharedPages) (M := BL) j m (Some e) sb.
  Definition s0 : BStore := Store.mkState (J := journal_layer SharedPages) us0 (TreeMap.mkState (M := BL) (ml_empty BL) None None) None false.
  Definition e_waiting := progress_asked ex_e4 ex_get.
  Definition waiting : BStore := bs (ex_j ce6 None (cdv 2)) (bm b4) e_waiting false.
  Lemma asked j m e sb q : bool_decide (q ∉ requests (CoordSys.progress e)) = true →
    Store.next (bs j m e sb) (bs j m (progress_asked e q) sb) (request q).
  Proof. intros H%bool_decide_eq_true. do 2 right; left. by exists e, q. Qed.
  Lemma executed j j' m m' e sb q k v : req_input q = PutInput k v → bool_decide (q ∈ requests (CoordSys.progress e)) = true →
    bool_decide (mkReply PutOutput (req_id q) ∉ replies (CoordSys.progress e)) = true →
    let r := singleton_at (CoordSys.map_lsn e) (mkKM k (Define v)) in
    Unified.next j j' (AllocCrash.Put r) → TreeMap.next m m' (CTMap.PutRecordsLabel r) →
    Store.next (bs j m e sb) (bs j' m' (progress_put e q) sb) (execute_put q).
  Proof.
    intros Hq H1%bool_decide_eq_true H2%bool_decide_eq_true r Hj Hm. do 4 right; left.
    exists j', m', e, q, (mkReply PutOutput (req_id q)), k, v. do 7 (split; [done|]). split; [|by split]. exists (AllocCrash.Put r). by split.
  Qed.
  Lemma journaled j j' m e sb x y : Unified.next j j' (AllocCrash.Internal x y) → Store.next (bs j m e sb) (bs j' m e sb) CTAM.Noop.
  Proof. intros Hj. do 6 right; left. exists j', e. split; [done|]. split; [done|]. split; [|done]. exists (AllocCrash.Internal x y). by split. Qed.
  Lemma put_there v m : mh_wf m → seq_start m = mt_seq_end (memtable (ABB.betree v)) → root (ABB.betree v) = mkLB None ∅ ∅ →
    TreeMap.next (bm v) (bm (putting v m)) (CTMap.PutRecordsLabel m).
  Proof.
    intros Hw Hs Hr. right; left. exists (putting v m), m, v. split; [done|]. split; [done|]. split; [|done].
    left. eexists _, _. split; [reflexivity|]. split; [done|]. split; [|reflexivity]. right; left. exists m. split; [done|]. split; [done|].
    split; [done|]. by rewrite Hr.
  Qed.
  Lemma waits : run Store.next s0 trace waiting.
  Proof.
    unfold trace.
    apply (run_cons _ _ _ (bs (ex_j ce0 None ∅) (bm b0) ex_e0 false)).
    { left. eexists (Unified.mkState _ _ _ _), (bm b0), 0. split; [done|]. split; [|split; [|reflexivity]].
      - exists AllocCrash.LoadEphemeralFromPersistent. split; [done|]. exact us_load.
      - left. exists 0, b0. split; [done|]. split; [done|]. split; [done|]. split; [exact empty_start|done]. }
    apply (run_cons _ _ _ (bs (ex_j ce1 None ∅) (bm b0) ex_e0 false)).
    { eapply journaled. apply (us_internal ce0 ce1 ∅ ∅). exact est1. }
    apply (run_cons _ _ _ (bs (ex_j ce1 None ∅) (bm b0) (progress_asked ex_e0 ex_put1) false)).
    { by apply asked. }
    apply (run_cons _ _ _ (bs (ex_j ce2 None ∅) (bm b1) ex_e1 false)).
    { apply (executed _ _ _ _ _ _ _ 1%N 7%N); [done|done|done| |].
      - apply (us_put ce1 ce2). exact est2.
      - apply (put_there b0 jm0); [apply singleton_wf|done|done]. }
    apply (run_cons _ _ _ (bs (ex_j ce3 None (cdv 1)) (bm b1) ex_e1 false)).
    { eapply journaled. apply (us_internal ce2 ce3 ∅ (cdv 1)). exact est3. }
    apply (run_cons _ _ _ (bs (ex_j ce3 None (cdv 1)) (bm b2) ex_e1 false)).
    { do 7 right; left. exists (bm b2), ex_e1. split; [done|]. split; [done|]. split; [|done].
      do 4 right; left. exists b2, b1. split; [done|]. split; [done|]. split; [|done]. exists {[1]}, ∅. right; left.
      exists {[1]}. split; [done|]. split; [split_and!; by intros u Hu|]. done. }
    apply (run_cons _ _ _ (bs (ex_j ce3 None (cdv 1)) (bm b2) (progress_asked ex_e1 ex_put2) false)).
    { by apply asked. }
    apply (run_cons _ _ _ (bs (ex_j ce4 None (cdv 1)) (bm b3) ex_e2 false)).
    { apply (executed _ _ _ _ _ _ _ 1%N 9%N); [done|done|done| |].
      - apply (us_put ce3 ce4). exact est4.
      - apply (put_there b2 jm1); [apply singleton_wf|done|done]. }
    apply (run_cons _ _ _ (bs (ex_j ce5 None (cdv 2)) (bm b3) ex_e2 false)).
    { eapply journaled. apply (us_internal ce4 ce5 (cdv 1) (cdv 2)). exact est5. }
    apply (run_cons _ _ _ (bs (ex_j ce5 None (cdv 2)) (bm b3) (progress_asked ex_e2 ex_put3) false)).
    { by apply asked. }
    apply (run_cons _ _ _ (bs (ex_j ce6 None (cdv 2)) (bm b4) ex_e3 false)).
    { apply (executed _ _ _ _ _ _ _ 5%N 4%N); [done|done|done| |].
      - apply (us_put ce5 ce6). exact est7.
      - apply (put_there b3 jm2); [apply singleton_wf|done|done]. }
    apply (run_cons _ _ _ (bs (ex_j ce6 None (cdv 2)) (bm b4) ex_e4 false)).
    { do 8 right; left. exists (ex_j ce6 None (cdv 2)), ex_e3, 8%N. split; [done|]. split; [done|]. split; [done|]. split; [|done].
      exists (AllocCrash.QueryEndLsn 3). split; [done|]. exact ex_query_end. }
    apply run_one. by apply asked.
  Qed.
  Lemma no_ref is a : ¬ node_ref (mkLB None ∅ ∅ : BLB) is a.
  Proof. intros Hr. remember (mkLB None ∅ ∅ : BLB) as l eqn:E. induction Hr; by subst. Qed.
  Lemma free4 : branch_room b4.
  Proof.
    assert (Hn : ∀ u, needed b4 u → u = 1).
    { intros u ([|r|i]&Ho); cbn in Ho.
      - destruct Ho as (a&[is Ha]&_). by destruct (no_ref _ _ Ha).
      - destruct Ho as (_&U&[(ks&ms&E&_)|(ps&cs&p&E&_)]&_); by rewrite lookup_empty in E.
      - destruct Ho as (w&Hw&Hu). destruct i as [|i]; [|done]. injection Hw as <-. revert Hu.
        replace (all_aus (ABranch.mini_allocator (ABranch.new {[1]}))) with ({[1]} : gset AU); [by intros ?%elem_of_singleton|].
        by apply (bool_decide_eq_true_1 _). }
    split; [cbn; lia|]. exists 2, 3, 4. split; [by apply (bool_decide_eq_true_1 _)|].
    repeat constructor; try (vm_compute; lia); intros Hu%Hn; done.
  Qed.
  Lemma room6 : @journal_room exg SharedPages (Store.journal waiting).
  Proof. exists ce6. split; [done|]. left. apply ema2_room. Qed.
  Lemma example : Store.init s0 ∧ run Store.next s0 trace waiting ∧ Store.ephemeral waiting = Some e_waiting ∧
    CoordSys.sync_reqs e_waiting !! 8%N = Some 3 ∧ @journal_room exg SharedPages (Store.journal waiting) ∧
    TreeMap.ephemeral (Store.mapadt waiting) = Some b4 ∧ branch_room b4 ∧
    ex_get ∈ requests (CoordSys.progress e_waiting) ∧ (∀ y, y ∈ replies (CoordSys.progress e_waiting) → reply_id y ≠ req_id ex_get).
  Proof.
    split; [done|]. split; [exact waits|]. split; [done|]. split; [done|]. split; [exact room6|]. split; [done|]. split; [exact free4|].
    split; [by apply (bool_decide_eq_true_1 _)|].
    intros y Hy. assert (H : Forall (λ y, reply_id y ≠ req_id ex_get) (elements (replies (CoordSys.progress e_waiting)))).
    { apply (bool_decide_eq_true_1 _). by vm_compute. }
    rewrite stdpp.list.Forall_forall in H. apply H. by apply elem_of_elements.
  Qed.
  (** The sync is carried through, and then the machine crashes. *)
  Lemma crashed_example : ∃ ls (s : BStore), run Store.next s0 (trace ++ ls ++ [CTAM.ReplySyncOp 8%N; CTAM.CrashOp]) s ∧ Store.ephemeral s = None.
  Proof.
    destruct example as (H1&H2&H3&H4&H5&H6&H7&_).
    destruct (layer_can_sync SharedPages (branch_ok true) s0 trace waiting e_waiting 8%N 3 H1 H2 H3 H4 H5) as (ls&s&Hr&_).
    { intros v [= <-]. exact H7. }
    assert (∃ s', Store.next s s' CTAM.CrashOp ∧ Store.ephemeral s' = None) as (s'&Hc&He).
    { eexists (Store.mkState (J := journal_layer SharedPages) (M := BL) _ _ None false). split; [|reflexivity]. do 13 right. eexists _, _. split; [done|]. split; [|split; [|reflexivity]].
      - exists (AllocCrash.Crash (Store.keep_in_flight _ _ s)). split; [done|]. do 8 right. eexists. split; reflexivity.
      - do 7 right. eexists. split; reflexivity. }
    exists ls, s'. split; [|done]. eapply run_app; [exact H2|]. change [CTAM.ReplySyncOp 8%N; CTAM.CrashOp] with ([CTAM.ReplySyncOp 8%N] ++ [CTAM.CrashOp]).
    rewrite (assoc_L (++)). eapply run_snoc; [exact Hr|exact Hc].
  Qed.
End BranchStoreEx.
