(** Enabledness of coordination-system transitions: sync progress, recovery. *)
From Verif Require Import Spec_Model Spec_Spec Spec_Proof Abs_Model Abs_Spec Abs_Proof Coord_Proof.
Import CoordSys.

Definition kst (jp j : MsgHistory) (jf : option MsgHistory) (mp m : StampedMap)
    (mf : option StampedMap) (e : Known) (sb : bool) : State :=
  mkState (CTJournal.mkState jp (Some (AbstractJournal.mkState j)) jf)
          (CTMap.mkState mp (Some (AbstractMap.mkState m)) mf) (Some e) sb.

Lemma en_recover jp j jf mp m mf e sb r :
  mh_wf j → mh_wf r → includes_subseq j r → seq_start r = st_seq_end m →
  recover (kst jp j jf mp m mf e sb)
    (kst jp j jf mp (map_plus_history m r) mf (mkKnown (progress e) (sync_reqs e) (seq_end r)) sb)
    CTAM.Noop
    (CTJournal.mkState jp (Some (AbstractJournal.mkState j)) jf)
    (CTMap.mkState mp (Some (AbstractMap.mkState (map_plus_history m r))) mf) r.
Proof.
  intros Hj Hr Hin Hs. exists e. split_and!; try done.
  - right; left. eexists _, _. split_and!; [done|done| |done]. left. split; [done|]. by eexists.
  - right; left. eexists _, _, _. split_and!; [done|done| |done]. right; left. by eexists.
Qed.
Lemma en_recover_all jp j jf mp m mf e sb :
  mh_wf j → can_discard_to j (st_seq_end m) →
  next_fixed (kst jp j jf mp m mf e sb)
    (kst jp j jf mp (map_plus_history m (discard_old j (st_seq_end m))) mf
       (mkKnown (progress e) (sync_reqs e) (seq_end j)) sb) CTAM.Noop.
Proof.
  intros Hj Hd. left. right; left. eexists _, _, _.
  apply (en_recover jp j jf mp m mf e sb (discard_old j (st_seq_end m))); [done|by apply do_wf| |done].
  pose proof (includes_slice_inv j (st_seq_end m) (seq_end j) Hj) as Hx.
  rewrite dr_all in Hx by done. destruct Hd. apply Hx; lia.
Qed.
Lemma en_lands jp j jf mp m mf e :
  next_fixed (kst jp j jf mp m mf e true) (kst jp j jf mp m mf e false) CTAM.SyncOp.
Proof. left. do 10 right. left. done. Qed.
Lemma en_complete jp j jf mp m mf e :
  mh_wf j → can_discard_to j (seq_start jf) → map_lsn e = seq_end j →
  next_fixed (kst jp j (Some jf) mp m (Some mf) e false)
    (kst jf (discard_old j (seq_start jf)) None mf m None e false) CTAM.Noop.
Proof.
  intros Hj Hd He. left. do 11 right. left. eexists _, _, e. split_and!; try done.
  - do 7 right. left. eexists _, _, _, _. split_and!; [done|done|done| |done].
    do 4 right. left. split; [done|]. eexists _, _. split_and!; [done|done|done..].
  - do 6 right. left. by eexists.
Qed.
Lemma en_freeze jp j jf mp m e sb :
  next_fixed (kst jp j jf mp m None e sb) (kst jp j jf mp m (Some m) e sb) CTAM.Noop.
Proof.
  left. do 7 right. left. eexists. exists e. split_and!; try done.
  do 3 right. left. eexists _, _, _. split_and!; try done. right; right; left. done.
Qed.
Lemma en_commit_start jp j mp m mf e :
  mh_wf j → can_discard_to j (st_seq_end mf) → st_seq_end mp ≤ st_seq_end mf →
  seq_end jp ≤ seq_end j → st_seq_end mf ≤ map_lsn e →
  next_fixed (kst jp j None mp m (Some mf) e false)
    (kst jp j (Some (discard_old j (st_seq_end mf))) mp m (Some mf) e true) CTAM.Noop.
Proof.
  intros Hj Hd Hle Hjp Hml. right. eexists (st_seq_end mf), _, e. split_and!; try done.
  - do 6 right. left. eexists (discard_old j (st_seq_end mf)), _, _, _.
    split_and!; [done|done|done|by apply do_wf|done|done|done| |done].
    right; left. split; [done|]. eexists. split_and!; [done|by apply do_wf| |done].
    pose proof (includes_slice_inv j (st_seq_end mf) (seq_end j) Hj) as Hx.
    rewrite dr_all in Hx by done. destruct Hd. apply Hx; lia.
  - do 5 right. left. by eexists _, _, _.
Qed.
Lemma en_reply_sync jp j jf mp m mf e sb id lsn :
  sync_reqs e !! id = Some lsn → lsn ≤ seq_end jp →
  next_fixed (kst jp j jf mp m mf e sb)
    (kst jp j jf mp m mf (mkKnown (progress e) (delete id (sync_reqs e)) (map_lsn e)) sb)
    (CTAM.ReplySyncOp id).
Proof.
  intros Hs Hl. left. do 9 right. left. eexists _, e, id, lsn. split_and!; try done.
  do 5 right. left. by eexists.
Qed.
Lemma en_load jp mp sb :
  mh_wf jp →
  next_common (mkState (CTJournal.mkState jp None None) (CTMap.mkState mp None None) None sb)
    (kst jp jp None mp mp None (mkKnown AsyncMap.init_ephemeral_state ∅ (st_seq_end mp)) sb) CTAM.Noop.
Proof.
  intros Hw. left. eexists _, _, _. split_and!; [done| | |done].
  - left. by exists (AbstractJournal.mkState jp).
  - left. by exists (st_seq_end mp), (AbstractMap.mkState mp).
Qed.
Lemma en_request jp j jf mp m mf e sb req :
  req ∉ requests (progress e) →
  next_common (kst jp j jf mp m mf e sb)
    (kst jp j jf mp m mf
       (mkKnown (mkEph ({[req]} ∪ requests (progress e)) (replies (progress e))) (sync_reqs e) (map_lsn e)) sb)
    (CTAM.OperateOp (AsyncMap.RequestOp req)).
Proof. intros. right; right; left. by eexists e, req. Qed.
Lemma en_put jp j jf mp m mf e sb k v id :
  mkReq (PutInput k v) id ∈ requests (progress e) → mkReply PutOutput id ∉ replies (progress e) →
  mh_wf j → seq_end j = map_lsn e → map_lsn e = st_seq_end m →
  next_common (kst jp j jf mp m mf e sb)
    (kst jp (mh_concat j (singleton_at (map_lsn e) (mkKM k (Define v)))) jf mp
       (map_plus_history m (singleton_at (map_lsn e) (mkKM k (Define v)))) mf
       (mkKnown (mkEph (requests (progress e) ∖ {[mkReq (PutInput k v) id]})
                       ({[mkReply PutOutput id]} ∪ replies (progress e))) (sync_reqs e) (map_lsn e + 1)) sb)
    (CTAM.OperateOp (AsyncMap.ExecuteOp (mkReq (PutInput k v) id) (mkReply PutOutput id))).
Proof.
  intros H1 H2 Hj He1 He2. do 4 right. left. eexists _, _, e, _, _, k, v. split_and!; try done.
  split_and!; [| |done].
  - do 3 right. left. eexists _, _, _. split_and!; [done|done| |done].
    do 3 right. left. split; [done|]. by eexists.
  - right; left. eexists _, _, _. split_and!; [done|done| |done]. right; left. by eexists.
Qed.
Lemma en_query jp j jf mp m mf e sb k v id :
  mkReq (QueryInput k) id ∈ requests (progress e) → mkReply (QueryOutput v) id ∉ replies (progress e) →
  mh_wf j → seq_end j = map_lsn e → map_lsn e = st_seq_end m → msg_value (st_value m k) = v →
  next_common (kst jp j jf mp m mf e sb)
    (kst jp j jf mp m mf
       (mkKnown (mkEph (requests (progress e) ∖ {[mkReq (QueryInput k) id]})
                       ({[mkReply (QueryOutput v) id]} ∪ replies (progress e))) (sync_reqs e) (map_lsn e)) sb)
    (CTAM.OperateOp (AsyncMap.ExecuteOp (mkReq (QueryInput k) id) (mkReply (QueryOutput v) id))).
Proof.
  intros H1 H2 Hj He1 He2 Hv. do 3 right. left. eexists _, _, e, _, _, k, v. split_and!; try done.
  - right; right; left. eexists _, _. split_and!; [done|done| |done].
    right; right; left. split; [done|]. by eexists.
  - right; right; left. eexists (AbstractMap.mkState m), _, _, _, _. split_and!; [done|done| |done].
    left. by eexists _, _, _.
Qed.
Lemma en_req_sync jp j jf mp m mf e sb id :
  sync_reqs e !! id = None → mh_wf j → seq_end j = map_lsn e →
  next_common (kst jp j jf mp m mf e sb)
    (kst jp j jf mp m mf (mkKnown (progress e) (<[id := map_lsn e]> (sync_reqs e)) (map_lsn e)) sb)
    (CTAM.ReqSyncOp id).
Proof.
  intros Hs Hj He. do 8 right. left. eexists _, e, id. split_and!; try done.
  right; right; left. eexists _, _. split_and!; [done|done| |done].
  right; right; left. split; [done|]. by eexists.
Qed.
Lemma en_crash jp j mp m mf e :
  next_fixed (kst jp j None mp m mf e false)
    (mkState (CTJournal.mkState jp None None) (CTMap.mkState mp None None) None false) CTAM.CrashOp.
Proof.
  left. do 12 right. eexists _, _. split_and!; [done| | |done].
  - do 8 right. by eexists.
  - do 7 right. by eexists.
Qed.

(** ** Sync progress *)

(** From a loaded state with nothing in flight at the journal, a commit can be
    carried through so that everything logged becomes durable. *)
Lemma commit_all jp j mp m mf e :
  known_inv mp jp j m None mf false → map_lsn e = seq_end j → st_seq_end m = seq_end j →
  ∃ ls jp' j' mp', run next_fixed (kst jp j None mp m mf e false) ls (kst jp' j' None mp' m None e false) ∧
    Forall background ls ∧ seq_end jp' = seq_end j.
Proof.
  intros Hk He Hm.
  assert (∃ ls f, run next_fixed (kst jp j None mp m mf e false) ls (kst jp j None mp m (Some f) e false)
     ∧ Forall background ls ∧ known_inv mp jp j m None (Some f) false) as (ls&f&Hrun&Hb&Hk').
  { destruct mf as [f|].
    - exists [], f. split_and!; [constructor|done|done].
    - exists [CTAM.Noop], m. split_and!; [apply run_one, en_freeze|by repeat constructor|by apply known_freeze]. }
  pose proof Hk' as (Hj&Hs&Hd&Hle&Hjp&Hmeq&Hmf&_). destruct (Hmf f) as [Hf1 Hf2]; [done|].
  assert (can_discard_to j (st_seq_end f)) by (split; lia).
  eexists (ls ++ [CTAM.Noop; CTAM.SyncOp; CTAM.Noop]), _, _, _. split_and!.
  - eapply run_app; [done|]. eapply run_cons; [apply en_commit_start; (done || lia)|].
    eapply run_cons; [apply en_lands|]. apply run_one, en_complete; done.
  - apply Forall_app. split; [done|].
    constructor; [by left|]. constructor; [by right|]. constructor; [by left|]. constructor.
  - done.
Qed.

Lemma sync_progress s0 ls s e id lsn :
  init s0 → run next_fixed s0 ls s → ephemeral s = Some e → sync_reqs e !! id = Some lsn →
  ∃ ls' s', run next_fixed s (ls' ++ [CTAM.ReplySyncOp id]) s' ∧ Forall background ls'.
Proof.
  intros H0 Hr He Hid. destruct (cs_run _ _ _ H0 Hr) as [Hinv Hrun].
  destruct (cs_inv_known _ _ Hinv He) as (jp&mp&j&m&jf&mf&sb&->&Hwjp&Hsjp&Hml&Hk).
  destruct (known_bounds _ _ _ _ _ _ _ Hwjp Hsjp Hk) as (Hlen&_&_).
  assert (Hlsn : lsn ≤ seq_end j).
  { destruct (ctam_run _ _ Hrun) as [logs [_ (log&pos&_&_&_&_&_&Hreq&_)]].
    rewrite cs_i_known in Hreq. simpl in Hreq. destruct (Hreq _ _ Hid) as [Hlt _]. lia. }
  change (mkState _ _ _ _) with (kst jp j jf mp m mf e sb).
  pose proof Hk as (Hj&Hs&Hd&_).
  assert (Hincl : includes_subseq j (discard_old j (st_seq_end m))).
  { pose proof (includes_slice_inv j (st_seq_end m) (seq_end j) Hj) as Hx.
    rewrite dr_all in Hx by done. destruct Hd. apply Hx; lia. }
  (* replay *)
  set (m' := map_plus_history m (discard_old j (st_seq_end m))).
  set (e' := mkKnown (progress e) (sync_reqs e) (seq_end j)).
  assert (Hm' : st_seq_end m' = seq_end j) by (unfold m'; rewrite mph_seq_end; [done|by apply do_wf|done]).
  assert (Hk1 : known_inv mp jp j m' jf mf sb) by (apply known_recover; [done|by apply do_wf|done..]).
  (* finish an outstanding commit *)
  assert (∃ ls1 jp1 j1 mp1 mf1, run next_fixed (kst jp j jf mp m' mf e' sb) ls1
            (kst jp1 j1 None mp1 m' mf1 e' false) ∧ Forall background ls1 ∧
            known_inv mp1 jp1 j1 m' None mf1 false ∧ seq_end j1 = seq_end j)
    as (ls1&jp1&j1&mp1&mf1&Hr1&Hb1&Hk2&Hj1).
  { pose proof Hk1 as (_&_&_&_&_&_&Hmf&Hjf). destruct jf as [jf|].
    - destruct Hjf as (f&->&Hwjf&Hjfs&Hjfe&Hjfeq). destruct (Hmf f) as [Hf1 Hf2]; [done|].
      assert (known_inv mp jp j m' (Some jf) (Some f) false) as Hk3.
      { destruct Hk1 as (?&?&?&?&?&?&?&?). split_and!; try done. }
      assert (can_discard_to j (seq_start jf)) by (pose proof Hwjf as [? _]; split; lia).
      destruct sb.
      + eexists [CTAM.SyncOp; CTAM.Noop], _, _, _, _. split_and!.
        * eapply run_cons; [apply en_lands|]. apply run_one. by apply en_complete.
        * constructor; [by right|]. constructor; [by left|]. constructor.
        * by eapply known_commit_complete.
        * done.
      + eexists [CTAM.Noop], _, _, _, _. split_and!.
        * apply run_one. by apply en_complete.
        * constructor; [by left|]. constructor.
        * by eapply known_commit_complete.
        * done.
    - subst sb. exists [], jp, j, mp, mf. split_and!; try done. constructor. }
  destruct (commit_all jp1 j1 mp1 m' mf1 e') as (ls2&jp2&j2&mp2&Hr2&Hb2&Hjp2); [done|simpl; lia|lia|].
  eexists ((CTAM.Noop :: ls1) ++ ls2), _. split.
  - eapply run_app; [eapply run_app; [eapply run_cons; [by apply en_recover_all|done]|done]|].
    apply run_one. eapply en_reply_sync; [done|]. lia.
  - apply Forall_app. split; [|done]. constructor; [by left|done].
Qed.

(** ** The code as written never commits *)
Lemma ctj_commit_start_changes s b mx : ¬ CTJournal.next s s (CTJournal.CommitStartLabel b mx).
Proof.
  destruct s as [jp je jf]. intros H. unf. break.
Qed.
Lemma commit_start_disabled s s' l b : ¬ commit_start s s' l b.
Proof. intros (e&_&_&H&_). by eapply ctj_commit_start_changes. Qed.
Lemma next_is_common s s' l : next s s' l → next_common s s' l.
Proof. intros [?|[b ?]]; [done|]. by edestruct commit_start_disabled. Qed.
Lemma next_fixed_of_next s s' l : next s s' l → next_fixed s s' l.
Proof. intros H%next_is_common. by left. Qed.
Lemma run_mono {S L} (n1 n2 : S → S → L → Prop) s ls s' :
  (∀ a b l, n1 a b l → n2 a b l) → run n1 s ls s' → run n2 s ls s'.
Proof. intros Hm. induction 1; econstructor; eauto. Qed.

Definition never_durable (s : State) : Prop :=
  CTJournal.persistent (journal s) = mkMH ∅ 0 0 ∧
  CTMap.persistent (mapadt s) = stamped_empty ∧
  CTJournal.in_flight (journal s) = None.
Lemma never_durable_step s s' l : never_durable s → next s s' l → never_durable s'.
Proof.
  intros (H1&H2&H3) Hn%next_is_common.
  destruct s as [[jp je jf] [mp me mf] e sb]. simpl in *. subst.
  unfold next_common, load_ephemeral_from_persistent, recover, accept_request, query, put, deliver_reply,
    journal_internal, map_internal, req_sync, reply_sync, superblock_write_lands, commit_complete, crash in Hn.
  unf. break; unf; break; done.
Qed.
Lemma never_durable_run s0 ls s : init s0 → run next s0 ls s → never_durable s.
Proof.
  intros H0. apply run_inv; [|by apply never_durable_step].
  destruct s0 as [[jp je jf] [mp me mf] e sb], H0 as ([=-> -> ->]&[=-> -> ->]&_). done.
Qed.

Ltac unb := unf; break; unf; break.
(** A pending sync of executed work is never acknowledged, as written. *)
Definition stuck (id : SyncReqId) (s : State) : Prop :=
  never_durable s ∧ cs_inv s ∧ ∃ e lsn, ephemeral s = Some e ∧ sync_reqs e !! id = Some lsn ∧ 0 < lsn.
Lemma stuck_step id s s' l :
  stuck id s → next s s' l → l ≠ CTAM.CrashOp → stuck id s' ∧ l ≠ CTAM.ReplySyncOp id.
Proof.
  intros (Hd&Hinv&(e&lsn&He&Hid&Hlsn)) Hn Hc.
  assert (cs_inv s') by (eapply cs_step; [done|by apply next_fixed_of_next]).
  assert (never_durable s') by (by eapply never_durable_step).
  apply next_is_common in Hn.
  assert (l ≠ CTAM.ReplySyncOp id ∧
    ∃ e lsn, ephemeral s' = Some e ∧ sync_reqs e !! id = Some lsn ∧ 0 < lsn) as [? ?]; [|done].
  assert (is_Some (CTJournal.ephemeral (journal s))) as [j0 Hj0].
  { destruct (cs_inv_known _ _ Hinv He) as (?&?&?&?&?&?&?&->&_). by eexists. }
  clear Hinv. destruct s as [[jp je jf] [mp me mf] e' sb]. destruct Hd as (H1&H2&H3). simpl in *. subst.
  destruct Hn as [(?&?&?&Hn)|[(?&?&?&Hn)|[Hn|[(?&?&Hn)|[(?&?&Hn)|[Hn|[(?&Hn)|[(?&Hn)|
    [(?&Hn)|[(?&Hn)|[Hn|[(?&?&Hn)|(?&?&Hn)]]]]]]]]]]]].
  - destruct Hn as (_&Hj&_). unb.
  - destruct Hn as (e0&->&[= <-]&_&_&_&->). split; [done|]. by eexists _, lsn.
  - destruct Hn as (e0&r&[= <-]&->&_&->). split; [done|]. by eexists _, lsn.
  - destruct Hn as (e0&?&?&?&?&[= <-]&->&_&_&_&_&_&_&_&->). split; [done|]. by eexists _, lsn.
  - destruct Hn as (e0&?&?&?&?&[= <-]&->&_&_&_&_&_&_&_&->). split; [done|]. by eexists _, lsn.
  - destruct Hn as (e0&r&[= <-]&->&_&->). split; [done|]. by eexists _, lsn.
  - destruct Hn as (e0&[= <-]&->&_&->). split; [done|]. by eexists _, lsn.
  - destruct Hn as (e0&[= <-]&->&_&->). split; [done|]. by eexists _, lsn.
  - destruct Hn as (e0&id'&[= <-]&->&Hnone&_&->). split; [done|]. eexists _, lsn. split; [done|]. simpl.
    rewrite lookup_insert_ne; [done|]. intros ->. congruence.
  - destruct Hn as (e0&id'&lsn'&[= <-]&->&Hs'&Hj&->).
    assert (id' ≠ id).
    { intros ->. rewrite Hid in Hs'. injection Hs' as <-. unb. simpl in *. lia. }
    split; [congruence|]. eexists _, lsn. split; [done|]. simpl. by rewrite lookup_delete_ne.
  - destruct Hn as (->&_&->). split; [done|]. by eexists _, lsn.
  - destruct Hn as (e0&_&[= <-]&->&_&_&->). split; [done|]. by eexists _, lsn.
  - by destruct Hn as (->&_).
Qed.
Lemma stuck_run id s ls s' :
  stuck id s → run next s ls s' → CTAM.CrashOp ∉ ls → stuck id s' ∧ CTAM.ReplySyncOp id ∉ ls.
Proof.
  intros Hs Hr. induction Hr as [s|s ls s' l s'' Hr IH Hn]; [intros _; split; [done|apply not_elem_of_nil]|].
  rewrite not_elem_of_app. intros [H1 H2]. rewrite elem_of_list_singleton in H2.
  destruct IH as [IH1 IH2]; [done..|]. destruct (stuck_step id _ _ _ IH1 Hn) as [? ?]; [congruence|].
  split; [done|]. rewrite not_elem_of_app, elem_of_list_singleton. split; [done|]. intros ?; by subst.
Qed.

(** As written, nothing survives a crash. *)
Definition all_empty (s : State) : Prop :=
  never_durable s ∧
  (∀ j, CTJournal.ephemeral (journal s) = Some j → AbstractJournal.journal j = mkMH ∅ 0 0) ∧
  (∀ m, CTMap.ephemeral (mapadt s) = Some m → AbstractMap.stamped_map m = stamped_empty).
Lemma all_empty_step s s' l : all_empty s → next s s' l → ¬ executes_put l → all_empty s'.
Proof.
  intros (Hd&Hj&Hm) Hn Hp. split; [by eapply never_durable_step|]. apply next_is_common in Hn.
  destruct s as [[jp je jf] [mp me mf] e sb]. destruct Hd as (H1&H2&H3). simpl in *. subst.
  destruct Hn as [(?&?&?&Hn)|[(?&?&?&Hn)|[Hn|[(?&?&Hn)|[(?&?&Hn)|[Hn|[(?&Hn)|[(?&Hn)|
    [(?&Hn)|[(?&Hn)|[Hn|[(?&?&Hn)|(?&?&Hn)]]]]]]]]]]]].
  - destruct Hn as (_&HJ&HM&->). unb. split; intros ? [= <-]; done.
  - destruct Hn as (e0&->&_&Hw&HJ&HM&->). unb. split; [done|]. intros ? [= <-]. simpl.
    match goal with H : includes_subseq _ ?r |- _ => rename r into rr; destruct H as (Ha&Hb&_) end.
    rewrite (Hj _ eq_refl) in Hb. rewrite (Hm _ eq_refl). apply mph_empty. destruct Hw. simpl in *. lia.
  - destruct Hn as (?&?&_&_&_&->). done.
  - destruct Hn as (?&?&?&?&?&_&_&_&_&_&_&_&HJ&HM&->). unb. done.
  - destruct Hn as (?&?&?&?&?&_&->&?&_). destruct Hp. by eexists _, _, _, _.
  - destruct Hn as (?&?&_&_&_&->). done.
  - destruct Hn as (?&_&_&HJ&->). unb. done.
  - destruct Hn as (?&_&_&HM&->). unb; (split; [done|]; intros ? [= <-]; by apply Hm).
  - destruct Hn as (?&?&_&_&_&HJ&->). unb. done.
  - destruct Hn as (?&?&?&_&_&_&HJ&->). unb. done.
  - destruct Hn as (_&_&->). done.
  - destruct Hn as (?&_&_&_&HJ&_). unb.
  - destruct Hn as (_&HJ&HM&->). unb. done.
Qed.
Lemma crash_all_empty s s' : never_durable s → next s s' CTAM.CrashOp → all_empty s'.
Proof.
  intros Hd Hn. split; [by eapply never_durable_step|]. apply next_is_common in Hn.
  destruct Hn as [(?&?&?&Hn)|[(?&?&?&Hn)|[Hn|[(?&?&Hn)|[(?&?&Hn)|[Hn|[(?&Hn)|[(?&Hn)|
    [(?&Hn)|[(?&Hn)|[Hn|[(?&?&Hn)|(?&?&Hn)]]]]]]]]]]]];
    try (unfold load_ephemeral_from_persistent, recover, accept_request, query, put, deliver_reply,
      journal_internal, map_internal, req_sync, reply_sync, superblock_write_lands, commit_complete in Hn;
      by break).
  destruct s as [[jp je jf] [mp me mf] e sb]. destruct Hn as (_&HJ&HM&->). unb. done.
Qed.
Lemma all_empty_query s s' req rep k v :
  all_empty s → next s s' (CTAM.OperateOp (AsyncMap.ExecuteOp req rep)) →
  req_input req = QueryInput k → reply_output rep = QueryOutput v → v = 0%N.
Proof.
  intros (_&_&Hm) Hn Hq Hv. apply next_is_common in Hn.
  destruct Hn as [(?&?&?&Hn)|[(?&?&?&Hn)|[Hn|[(?&?&Hn)|[(?&?&Hn)|[Hn|[(?&Hn)|[(?&Hn)|
    [(?&Hn)|[(?&Hn)|[Hn|[(?&?&Hn)|(?&?&Hn)]]]]]]]]]]]];
    try (unfold load_ephemeral_from_persistent, recover, accept_request, put, deliver_reply,
      journal_internal, map_internal, req_sync, reply_sync, superblock_write_lands, commit_complete, crash in Hn;
      destruct Hn; break; congruence).
  destruct Hn as (?&?&?&k'&v'&_&[= <- <-]&Hq'&Hv'&_&_&_&_&HM&_).
  rewrite Hq in Hq'. rewrite Hv in Hv'. simplify_eq.
  destruct s as [[jp je jf] [mp me mf] e sb]. unb. simpl in *. by rewrite (Hm _ eq_refl).
Qed.
Lemma all_empty_run s ls s' :
  all_empty s → run next s ls s' → Forall (λ l, ¬ executes_put l) ls → all_empty s'.
Proof.
  intros Hs Hr. induction Hr as [s|s ls s' l s'' Hr IH Hn]; [done|].
  intros [Hf Hl]%Forall_app. apply Forall_inv in Hl. simpl in Hl. eapply all_empty_step; [by apply IH|done|done].
Qed.
Lemma run_app_inv {S L} (n : S → S → L → Prop) s l1 l2 s' :
  run n s (l1 ++ l2) s' → ∃ s1, run n s l1 s1 ∧ run n s1 l2 s'.
Proof.
  revert s'. induction l2 as [|l l2 IH] using rev_ind; intros s' H.
  - rewrite app_nil_r in H. exists s'. split; [done|constructor].
  - rewrite app_assoc in H. apply run_snoc_inv in H as (s2&H&Hn).
    destruct (IH _ H) as (s1&?&?). exists s1. split; [done|]. eapply run_app; [done|by apply run_one].
Qed.
Lemma as_written_forgets s0 ls1 ls2 req rep k v s :
  init s0 →
  run next s0 (ls1 ++ [CTAM.CrashOp] ++ ls2 ++ [CTAM.OperateOp (AsyncMap.ExecuteOp req rep)]) s →
  Forall (λ l, ¬ executes_put l) ls2 →
  req_input req = QueryInput k → reply_output rep = QueryOutput v → v = 0%N.
Proof.
  intros H0 Hr Hf Hq Hv.
  apply run_app_inv in Hr as (s1&Hr1&Hr). apply run_app_inv in Hr as (s2&Hr2&Hr).
  apply run_app_inv in Hr as (s3&Hr3&Hr4).
  change [CTAM.CrashOp] with ([] ++ [CTAM.CrashOp]) in Hr2. apply run_snoc_inv in Hr2 as (?&->%run_nil_inv&Hr2).
  change [CTAM.OperateOp ?x] with ([] ++ [CTAM.OperateOp x]) in Hr4.
  apply run_snoc_inv in Hr4 as (?&->%run_nil_inv&Hr4).
  eapply all_empty_query; [|done|done|done]. eapply all_empty_run; [|done|done].
  eapply crash_all_empty; [|done]. by eapply never_durable_run.
Qed.

(** ** Recovery *)
Lemma recovered_log s0 ls s m :
  init s0 → run next_fixed s0 ls s → recovered s m →
  ∃ logs log, explained ls logs ∧ syncs_durable ls logs ∧ logs !! length ls = Some log ∧
    ∀ k, m k = Define (last_write k log).
Proof.
  intros H0 Hr (e&j&v&He&Hj&Hv&Hl&->). destruct (cs_run _ _ _ H0 Hr) as [Hinv Hrun].
  destruct (ctam_explained _ _ Hrun) as (logs&log&store&?&?&?&Hlast&Hshow).
  exists logs, log. split_and!; try done.
  destruct (cs_inv_known _ _ Hinv He) as (jp&mp&j'&m&jf&mf&sb&->&Hwjp&Hsjp&Hml&Hk).
  rewrite cs_i_known in Hlast.
  destruct (known_bounds _ _ _ _ _ _ _ Hwjp Hsjp Hk) as (_&_&Hlast').
  simpl in Hlast. rewrite Hlast' in Hlast. injection Hlast as <-. clear Hlast'.
  simpl in He, Hj, Hv. injection Hj as <-. injection Hv as <-. simpl in Hl |- *.
  intros k. specialize (Hshow k). unfold to_version in Hshow. simpl in Hshow.
  destruct Hk as (?&?&?&?&?&Hm&_). rewrite <- Hshow, Hm. do 2 f_equal.
  rewrite <- Hml, Hl. rewrite dr_all; done.
Qed.

Definition recovering (jp : MsgHistory) (mp : StampedMap) (s : State) : Prop :=
  CTJournal.persistent (journal s) = jp ∧ CTMap.persistent (mapadt s) = mp ∧
  (CTJournal.ephemeral (journal s) = None ∧ CTMap.ephemeral (mapadt s) = None ∧ ephemeral s = None ∨
   ∃ e m, CTJournal.ephemeral (journal s) = Some (AbstractJournal.mkState jp) ∧
     CTMap.ephemeral (mapadt s) = Some (AbstractMap.mkState m) ∧ ephemeral s = Some e ∧
     map_lsn e = st_seq_end m ∧ can_discard_to jp (st_seq_end m) ∧
     m = map_plus_history mp (discard_recent jp (st_seq_end m))).
Lemma recovering_step jp mp s s' l :
  mh_wf jp → seq_start jp = st_seq_end mp →
  recovering jp mp s → recovery_step s s' l → recovering jp mp s'.
Proof.
  intros Hw Hs (Hjp&Hmp&Hc) Hn. destruct s as [[jp0 je jf] [mp0 me mf] e sb]. simpl in *. subst.
  destruct Hn as [(?&?&?&Hn)|(?&?&?&Hn)].
  - destruct Hn as (_&HJ&HM&->). unb.
    split_and!; [done|done|]. right. eexists _, mp. pose proof Hw as [? _]. split_and!; [done|done|done|done|split; lia|].
    symmetry. apply mph_empty. done.
  - destruct Hn as (e0&->&He0&Hwr&HJ&HM&->). simpl in He0. subst e.
    destruct Hc as [(_&_&?)|(e1&m&->&->&[= ->]&Hml&Hd&Hm)]; [done|]. unb.
    match goal with H : includes_subseq _ ?r |- _ => rename r into rr; rename H into Hin end.
    match goal with H : can_follow _ _ |- _ => rename H into Hf end. simpl in *.
    split_and!; [done|done|]. right. eexists _, (map_plus_history m rr).
    assert (seq_start rr ≤ seq_end rr) by (by destruct Hwr).
    assert (st_seq_end (map_plus_history m rr) = seq_end rr) as Hend by (by apply mph_seq_end).
    destruct Hin as (Hi1&Hi2&Hi3).
    split_and!; [done|done|done|simpl; congruence| |].
    + rewrite Hend. split; lia.
    + rewrite Hend.
      assert (rr = discard_old (discard_recent jp (seq_end rr)) (st_seq_end m)) as Hrr.
      { unfold can_follow in Hf. rewrite <- Hf. apply includes_slice; done. }
      unfold can_follow in Hf.
      rewrite (mph_split_at mp jp (st_seq_end m) (seq_end rr)); [|done|lia|lia].
      rewrite dr_do by lia. rewrite <- Hm, <- Hrr. done.
Qed.
Lemma recovery_exact s0 ls s ls' s' m l :
  init s0 → run next_fixed s0 ls s → ephemeral s = None →
  run recovery_step s ls' s' → recovered s' m →
  is_log (CTJournal.persistent (journal s)) l →
  ∀ k, m k = after l k (st_value (CTMap.persistent (mapadt s)) k).
Proof.
  intros H0 Hr He Hr' (e&j&v&He'&Hj&Hv&Hl&->) Hlog. destruct (cs_run _ _ _ H0 Hr) as [Hinv _].
  set (jp := CTJournal.persistent (journal s)) in *. set (mp := CTMap.persistent (mapadt s)) in *.
  assert (mh_wf jp ∧ seq_start jp = st_seq_end mp ∧ recovering jp mp s) as (Hw&Hs&Hrec).
  { unfold jp, mp, recovering. destruct s as [[jp0 je jf] [mp0 me mf] e' sb].
    unfold cs_inv in Hinv. simpl in *. subst e'. destruct Hinv as (?&?&?&?&?). split_and!; try done. by left. }
  assert (recovering jp mp s') as (_&_&Hc).
  { revert Hr'. apply run_inv; [done|]. intros ???. by apply recovering_step. }
  destruct Hc as [(?&_)|(e1&m&Hj1&Hm1&He1&Hml&Hd&Hm)]; [congruence|].
  rewrite Hj1 in Hj. rewrite Hm1 in Hv. rewrite He1 in He'. simplify_eq. simpl in *.
  rewrite <- Hml, Hl, dr_all in Hm by done. rewrite Hm. apply (mph_after mp jp l); [done|].
  done.
Qed.
Lemma recovery_possible s0 ls s :
  init s0 → run next_fixed s0 ls s → ephemeral s = None →
  ∃ ls' s' m, run recovery_step s ls' s' ∧ run next_fixed s ls' s' ∧ recovered s' m.
Proof.
  intros H0 Hr He. destruct (cs_run _ _ _ H0 Hr) as [Hinv _].
  destruct s as [[jp je jf] [mp me mf] e sb]. unfold cs_inv in Hinv. simpl in *. subst e.
  destruct Hinv as (Hw&Hs&->&->&Hrest). pose proof Hw as [? _].
  assert (jf = None ∧ mf = None ∧ sb = false) as (->&->&->) by (destruct Hrest; destruct_and?; done).
  exists [CTAM.Noop; CTAM.Noop]. eexists _, _. split_and!.
  - eapply run_cons; [left; eexists _, _, _; split_and!; [done| | |done]|].
    + left. by exists (AbstractJournal.mkState jp).
    + left. by exists (st_seq_end mp), (AbstractMap.mkState mp).
    + apply run_one. right. eexists _, _, jp.
      apply (en_recover jp jp None mp mp None); [done|done| |done]. split_and!; try done.
  - eapply run_cons; [left; by apply en_load|]. apply run_one. left. right; left. eexists _, _, jp.
    apply (en_recover jp jp None mp mp None); [done|done| |done]. split_and!; try done.
  - eexists _, _, _. split_and!; done.
Qed.

Lemma next_fixed_allowed s0 ls s :
  init s0 → run next_fixed s0 ls s →
  (∃ t, run CTAM.next CTAM.init ls t) ∧ ∃ logs, explained ls logs ∧ syncs_durable ls logs.
Proof.
  intros H0 Hr. destruct (cs_run _ _ _ H0 Hr) as [_ Hrun]. split; [by eexists|].
  destruct (ctam_explained _ _ Hrun) as (logs&_&_&?&?&_). eauto.
Qed.
Lemma next_allowed s0 ls s :
  init s0 → run next s0 ls s →
  (∃ t, run CTAM.next CTAM.init ls t) ∧ ∃ logs, explained ls logs ∧ syncs_durable ls logs.
Proof.
  intros H0 Hr. eapply next_fixed_allowed; [done|]. eapply run_mono; [apply next_fixed_of_next|done].
Qed.
Lemma durable_is_log s0 ls s :
  init s0 → run next_fixed s0 ls s →
  ∃ l, is_log (CTJournal.persistent (journal s)) l ∧
    seq_start (CTJournal.persistent (journal s)) = st_seq_end (CTMap.persistent (mapadt s)).
Proof.
  intros H0 Hr. destruct (cs_run _ _ _ H0 Hr) as [(Hw&Hs&_) _].
  destruct (wf_is_log _ Hw) as [l Hl]. by exists l.
Qed.

(** ** The parts of a truncated log *)
Lemma discard_logs h n l :
  is_log h l → can_discard_to h n →
  is_log (discard_recent h n) (take (n - seq_start h) l) ∧
  is_log (discard_old h n) (drop (n - seq_start h) l).
Proof.
  intros [He Hl] [H1 H2]. split.
  - split; [simpl; rewrite take_length; lia|]. intros lsn km. rewrite dr_lookup. simpl.
    case_decide as Hd.
    + rewrite Hl. rewrite lookup_take by lia. done.
    + split; [done|]. intros [? [? Hx]%lookup_take_Some]. lia.
  - split; [simpl; rewrite drop_length; lia|]. intros lsn km. rewrite do_lookup. simpl.
    rewrite lookup_drop. case_decide as Hd.
    + rewrite Hl. replace (n - seq_start h + (lsn - n)) with (lsn - seq_start h) by lia.
      split; intros [? ?]; split; (done || lia).
    + split; [done|]. intros [? Hx]. apply lookup_lt_Some in Hx. lia.
Qed.
