(** The coordination system refines the crash-tolerant specification. *)
From Verif Require Import Spec_Model Spec_Spec Spec_Proof Abs_Model Abs_Spec Abs_Proof.
Import CoordSys.

(** The version list shown while memory is loaded. *)
Definition cs_versions (mp : StampedMap) (jp j : MsgHistory) (jf : option MsgHistory)
    (mf : option StampedMap) (sb : bool) : FloatingSeq Version :=
  match jf, mf, sb with
  | Some jf, Some mf, false => floating_versions mf (discard_old j (st_seq_end mf)) (seq_end jf)
  | _, _, _ => floating_versions mp j (seq_end jp)
  end.

(** The part of [cs_inv] about a loaded system. *)
Definition known_inv (mp : StampedMap) (jp j : MsgHistory) (m : StampedMap)
    (jf : option MsgHistory) (mf : option StampedMap) (sb : bool) : Prop :=
  mh_wf j ∧ seq_start j = st_seq_end mp ∧ can_discard_to j (st_seq_end m) ∧
  seq_end jp ≤ seq_end j ∧
  jp = discard_recent j (seq_end jp) ∧
  m = map_plus_history mp (discard_recent j (st_seq_end m)) ∧
  (∀ f, mf = Some f →
     st_seq_end mp ≤ st_seq_end f ≤ seq_end j ∧
     f = map_plus_history mp (discard_recent j (st_seq_end f))) ∧
  match jf with
  | None => sb = false
  | Some jf => ∃ f, mf = Some f ∧
      mh_wf jf ∧ seq_start jf = st_seq_end f ∧
      seq_end jp ≤ seq_end jf ≤ seq_end j ∧
      jf = discard_old (discard_recent j (seq_end jf)) (st_seq_end f)
  end.

Lemma cs_inv_known s e :
  cs_inv s → ephemeral s = Some e →
  ∃ jp mp j m jf mf sb,
    s = mkState (CTJournal.mkState jp (Some (AbstractJournal.mkState j)) jf)
                (CTMap.mkState mp (Some (AbstractMap.mkState m)) mf) (Some e) sb ∧
    mh_wf jp ∧ seq_start jp = st_seq_end mp ∧ map_lsn e = st_seq_end m ∧
    known_inv mp jp j m jf mf sb.
Proof.
  destruct s as [[jp je jf] [mp me mf] e' sb]; unfold cs_inv; simpl.
  intros (H1&H2&H3) ->. destruct H3 as (j&m&->&->&?&?&?&?&?&?&?&?&?).
  exists jp, mp, j, m, jf, mf, sb. unfold known_inv. split_and!; done.
Qed.
Lemma cs_inv_intro jp mp j m jf mf sb e :
  mh_wf jp → seq_start jp = st_seq_end mp → map_lsn e = st_seq_end m →
  known_inv mp jp j m jf mf sb →
  cs_inv (mkState (CTJournal.mkState jp (Some (AbstractJournal.mkState j)) jf)
                  (CTMap.mkState mp (Some (AbstractMap.mkState m)) mf) (Some e) sb).
Proof.
  intros ??? (?&?&?&?&?&?&?&?). split_and!; simpl; [done|done|]. exists j, m. split_and!; done.
Qed.
Lemma cs_i_known jp mp j m jf mf sb e :
  cs_i (mkState (CTJournal.mkState jp (Some (AbstractJournal.mkState j)) jf)
                (CTMap.mkState mp (Some (AbstractMap.mkState m)) mf) (Some e) sb)
  = CTAM.mkState (cs_versions mp jp j jf mf sb) (progress e) (sync_reqs e).
Proof. done. Qed.

(** The in-flight versions are a suffix of the others. *)
Lemma versions_landed mp jp j m jf mf :
  known_inv mp jp j m (Some jf) (Some mf) false →
  cs_versions mp jp j (Some jf) (Some mf) false
  = fs_get_suffix (floating_versions mp j (seq_end jp)) (seq_end jf).
Proof.
  intros (Hj&Hs&Hd&Hle&Hjp&Hm&Hmf&f&[= <-]&Hjf&Hjfs&Hjfe&Hjfeq). simpl.
  destruct (Hmf mf) as [? ?]; [done|]. pose proof Hjf as [? _].
  apply fv_trunc; try done; lia.
Qed.

Lemma known_bounds mp jp j m jf mf sb :
  mh_wf jp → seq_start jp = st_seq_end mp → known_inv mp jp j m jf mf sb →
  fs_len (cs_versions mp jp j jf mf sb) = seq_end j + 1 ∧
  seq_end jp ≤ fs_start (cs_versions mp jp j jf mf sb) ≤ seq_end j ∧
  fs_last (cs_versions mp jp j jf mf sb) = Some (to_version (map_plus_history mp j)).
Proof.
  intros Hwjp Hsjp Hk. pose proof Hk as (Hj&Hs&Hd&Hle&_).
  assert (fs_len (floating_versions mp j (seq_end jp)) = seq_end j + 1 ∧
    seq_end jp ≤ fs_start (floating_versions mp j (seq_end jp)) ≤ seq_end j ∧
    fs_last (floating_versions mp j (seq_end jp)) = Some (to_version (map_plus_history mp j))) as Hbase.
  { rewrite fv_len, fv_last by done. simpl. split_and!; (done || lia). }
  destruct jf as [jf|]; [|done]. destruct mf as [mf|]; [|done]. destruct sb; [done|].
  rewrite (versions_landed _ _ _ m) by done.
  destruct Hk as (_&_&_&_&Hjp&Hm&Hmf&f&[= <-]&Hjf&Hjfs&Hjfe&Hjfeq).
  rewrite fs_get_suffix_len by (rewrite fv_len; simpl; lia).
  destruct Hbase as (Hl&?&Hlast). split_and!; [done|simpl; lia..|].
  unfold fs_last in *. rewrite fs_get_suffix_len by (rewrite fv_len; simpl; lia).
  rewrite fs_get_suffix_get; [done|]. rewrite fv_len; simpl; lia.
Qed.

(** *** Steps that change nothing visible *)
Lemma step_noop s : CTAM.next s s CTAM.Noop.
Proof. do 5 right. done. Qed.

(** *** put *)
Lemma known_put mp jp j m jf mf sb r :
  mh_wf jp → seq_start jp = st_seq_end mp → known_inv mp jp j m jf mf sb →
  mh_wf r → seq_start r = seq_end j → seq_start r = st_seq_end m →
  known_inv mp jp (mh_concat j r) (map_plus_history m r) jf mf sb.
Proof.
  intros Hwjp Hsjp (Hj&Hs&[Hd1 Hd2]&Hle&Hjp&Hm&Hmf&Hjf) Hr Hrj Hrm.
  assert (can_concat j r) as Hc by done. pose proof Hr as [Hrle _].
  assert (Hse : st_seq_end (map_plus_history m r) = seq_end r) by (by apply mph_seq_end).
  split_and!.
  - by apply concat_wf.
  - done.
  - rewrite Hse. split; simpl; lia.
  - simpl. lia.
  - rewrite dr_concat_l by (done || lia). done.
  - rewrite Hse. change (seq_end r) with (seq_end (mh_concat j r)).
    rewrite dr_all by by apply concat_wf. rewrite mph_concat by done.
    rewrite Hm at 1. replace (st_seq_end m) with (seq_end j) by lia. by rewrite dr_all.
  - intros f Hf. destruct (Hmf f Hf) as [??]. simpl. split; [lia|].
    rewrite dr_concat_l by (done || lia). done.
  - destruct jf as [jf|]; [|done]. destruct Hjf as (f&?&?&?&?&Heq). exists f.
    simpl. split_and!; try done; try lia.
    rewrite dr_concat_l by (done || lia). done.
Qed.
Lemma versions_put mp jp j m jf mf sb r :
  mh_wf jp → seq_start jp = st_seq_end mp → known_inv mp jp j m jf mf sb →
  mh_wf r → seq_start r = seq_end j → seq_end r = seq_end j + 1 →
  cs_versions mp jp (mh_concat j r) jf mf sb =
  fs_append (cs_versions mp jp j jf mf sb)
    [to_version (map_plus_history (map_plus_history mp j) r)].
Proof.
  intros Hwjp Hsjp Hk Hr Hrj Hre.
  pose proof Hk as (Hj&Hs&[Hd1 Hd2]&Hle&Hjp&Hm&Hmf&Hjf).
  destruct jf as [jf|]; [|by apply fv_append]. destruct mf as [mf|]; [|by apply fv_append].
  destruct sb; [by apply fv_append|]. unfold cs_versions.
  destruct Hjf as (f&[= <-]&Hwjf&Hjfs&Hjfe&Heq). destruct (Hmf mf) as [? Hmfeq]; [done|].
  pose proof Hwjf as [? _].
  assert (discard_old (mh_concat j r) (st_seq_end mf)
          = mh_concat (discard_old j (st_seq_end mf)) r) as ->.
  { apply mh_eq; [done|done|]. intros lsn. rewrite do_lookup, !concat_lookup, do_lookup. simpl.
    destruct (msgs r !! lsn) eqn:E.
    - assert (mh_contains r lsn) as Hc by (apply Hr; by eexists). unfold mh_contains in Hc.
      rewrite decide_True by lia. done.
    - destruct (msgs j !! lsn) eqn:E2; [|repeat case_decide; done].
      assert (mh_contains j lsn) as Hc by (apply Hj; by eexists). unfold mh_contains in Hc.
      repeat case_decide; try done; lia. }
  rewrite fv_append; [|apply do_wf; [done|split; lia]|done|done|done|simpl; lia].
  do 4 f_equal. rewrite (mph_split mp j (st_seq_end mf)); [by rewrite <- Hmfeq|done|].
  split; lia.
Qed.

(** *** recover *)
Lemma known_recover mp jp j m jf mf sb r :
  known_inv mp jp j m jf mf sb →
  mh_wf r → includes_subseq j r → seq_start r = st_seq_end m →
  known_inv mp jp j (map_plus_history m r) jf mf sb.
Proof.
  intros (Hj&Hs&[Hd1 Hd2]&Hle&Hjp&Hm&Hmf&Hjf) Hr Hin Hrm.
  assert (Hse : st_seq_end (map_plus_history m r) = seq_end r) by (by apply mph_seq_end).
  pose proof Hr as [? _]. pose proof Hin as (?&?&_).
  split_and!; try done.
  - rewrite Hse. split; lia.
  - rewrite Hse. rewrite (mph_split_at mp j (st_seq_end m) (seq_end r)) by (done || lia).
    rewrite <- Hm. f_equal. rewrite dr_do by lia.
    rewrite (includes_slice j r) at 1 by done. by rewrite Hrm.
Qed.

(** *** freezing the map *)
Lemma known_freeze mp jp j m jf sb :
  known_inv mp jp j m jf None sb → known_inv mp jp j m jf (Some m) sb.
Proof.
  intros (Hj&Hs&[Hd1 Hd2]&Hle&Hjp&Hm&Hmf&Hjf). split_and!; try done.
  - intros f [= <-]. split; [lia|done].
  - destruct jf; [|done]. destruct Hjf as (?&?&_). done.
Qed.
Lemma versions_freeze mp jp j m jf sb :
  known_inv mp jp j m jf None sb →
  cs_versions mp jp j jf (Some m) sb = cs_versions mp jp j jf None sb.
Proof.
  intros (_&_&_&_&_&_&_&Hjf). destruct jf; [|done]. destruct Hjf as (?&?&_). done.
Qed.

(** *** starting a commit *)
Lemma known_commit_start mp jp j m mf fj :
  known_inv mp jp j m None (Some mf) false →
  mh_wf fj → seq_start fj = st_seq_end mf → seq_end jp ≤ seq_end fj → includes_subseq j fj →
  known_inv mp jp j m (Some fj) (Some mf) true ∧ known_inv mp jp j m (Some fj) (Some mf) false.
Proof.
  intros (Hj&Hs&[Hd1 Hd2]&Hle&Hjp&Hm&Hmf&Hjf) Hw Hst Hend Hin.
  pose proof Hin as (?&?&_).
  assert (fj = discard_old (discard_recent j (seq_end fj)) (st_seq_end mf)).
  { rewrite (includes_slice j fj) at 1 by done. by rewrite Hst. }
  split; split_and!; try done; by exists mf.
Qed.

(** *** completing a commit *)
Lemma known_commit_complete mp jp j m jf mf :
  known_inv mp jp j m (Some jf) (Some mf) false → st_seq_end m = seq_end j →
  known_inv mf jf (discard_old j (seq_start jf)) m None None false.
Proof.
  intros (Hj&Hs&[Hd1 Hd2]&Hle&Hjp&Hm&Hmf&f&[= <-]&Hwjf&Hjfs&Hjfe&Heq) Hmj.
  destruct (Hmf mf) as [? Hmfeq]; [done|]. pose proof Hwjf as [? _].
  assert (can_discard_to j (seq_start jf)) by (split; lia).
  split_and!; try done.
  - by apply do_wf.
  - split; simpl; lia.
  - simpl. lia.
  - rewrite Hjfs, dr_do by lia. done.
  - rewrite Hm at 1. rewrite (mph_split_at mp j (st_seq_end mf)) by (done || lia).
    rewrite <- Hmfeq. by rewrite Hjfs.
Qed.

(** *** a crash *)
Lemma fv_singleton base h : mh_wf h →
  floating_versions base h (seq_end h) = mkFS (seq_end h) [to_version (map_plus_history base h)].
Proof.
  intros Hw. unfold floating_versions, fs_new. f_equal.
  replace (seq_end h + 1 - seq_end h) with 1 by lia. simpl. by rewrite dr_all.
Qed.
Lemma crash_versions base h st jp :
  mh_wf h → seq_start h ≤ st ≤ seq_end h → jp = discard_recent h st →
  floating_versions base jp (seq_end jp) =
  fs_get_prefix (floating_versions base h st) (st + 1).
Proof.
  intros Hw Hst ->.
  assert (mh_wf (discard_recent h st)) by (by apply dr_wf).
  rewrite fv_singleton by done. apply fs_ext.
  - by rewrite fs_get_prefix_start by (simpl; lia).
  - rewrite fs_get_prefix_len by (rewrite fv_len; simpl; lia). unfold fs_len; simpl. lia.
  - intros i Hi. unfold fs_is_active, fs_len in Hi. simpl in Hi. assert (i = st) as -> by lia.
    rewrite fs_get_prefix_get by (simpl; lia). rewrite fv_get by lia.
    unfold fs_get; simpl. rewrite decide_True by lia. by rewrite Nat.sub_diag.
Qed.


(** *** Inverting component steps by label *)
Ltac break :=
  repeat match goal with
    | H : _ ∨ _ |- _ => destruct H
    | H : ∃ _, _ |- _ => destruct H
    | H : _ ∧ _ |- _ => destruct H
    | H : ?a = ?a |- _ => clear H
    end; try discriminate; simplify_eq/=.
Ltac unf :=
  unfold CTJournal.next, CTMap.next, AbstractJournal.next, AbstractMap.next,
    CTJournal.load_ephemeral_from_persistent, CTJournal.read_for_recovery, CTJournal.query_end_lsn,
    CTJournal.put, CTJournal.internal, CTJournal.query_lsn_persistence, CTJournal.commit_start,
    CTJournal.commit_complete, CTJournal.crash,
    CTMap.load_ephemeral_from_persistent, CTMap.put_records, CTMap.query, CTMap.freeze_map_internal,
    CTMap.ephemeral_internal, CTMap.commit_start, CTMap.commit_complete, CTMap.crash,
    AbstractJournal.read_for_recovery, AbstractJournal.freeze_for_commit,
    AbstractJournal.observe_fresh_journal, AbstractJournal.put, AbstractJournal.discard_old,
    AbstractJournal.internal, AbstractJournal.initialize, AbstractMap.initialize,
    AbstractMap.query, AbstractMap.put, AbstractMap.freeze_as, AbstractMap.internal in *.


Ltac known Hinv He :=
  destruct (cs_inv_known _ _ Hinv He) as (jp&mp&j&m&jf&mf&sb&->&Hwjp&Hsjp&Hml&Hk); simpl in *;
  clear Hinv; unf; break; unf; break.
Ltac fin := apply cs_inv_intro; simpl; try done.

Lemma cs_commit_start s s' l b nj :
  cs_inv s → commit_start_fixed s s' l b nj → cs_inv s' ∧ CTAM.next (cs_i s) (cs_i s') l.
Proof.
  intros Hinv (e&He&->&HJ&HM&->). known Hinv He.
  assert (sb = false) as -> by (by destruct Hk as (?&?&?&?&?&?&?&?)).
  match goal with H : includes_subseq j ?x |- _ =>
    destruct (known_commit_start _ _ _ _ _ x Hk) as [H1' H2']; try done end.
  split; [by fin|]. rewrite !cs_i_known. apply step_noop.
Qed.

Lemma cs_load s s' l nj nm lsn :
  cs_inv s → load_ephemeral_from_persistent s s' l nj nm lsn →
  cs_inv s' ∧ CTAM.next (cs_i s) (cs_i s') l.
Proof.
  destruct s as [[jp je jf] [mp me mf] e sb]. intros Hinv. unfold cs_inv in Hinv; simpl in Hinv.
  destruct Hinv as (Hwjp&Hsjp&Hrest). intros (->&HJ&HM&->). simpl in *. unf; break; unf; break.
  destruct e as [e|]; break. split; [|apply step_noop].
  fin. pose proof Hwjp as [? _].
  split_and!; try done; try (split; simpl; lia).
  - symmetry. by apply dr_all.
  - by rewrite mph_empty.
Qed.

Lemma cs_recover s s' l nj nm r :
  cs_inv s → recover s s' l nj nm r → cs_inv s' ∧ CTAM.next (cs_i s) (cs_i s') l.
Proof.
  intros Hinv (e&->&He&Hr&HJ&HM&->). known Hinv He.
  split; [|apply step_noop]. fin.
  - symmetry. by apply mph_seq_end.
  - by apply known_recover.
Qed.

Lemma cs_accept s s' l :
  cs_inv s → accept_request s s' l → cs_inv s' ∧ CTAM.next (cs_i s) (cs_i s') l.
Proof.
  intros Hinv (e&req&He&->&Hnin&->). known Hinv He. split; [by fin|].
  rewrite !cs_i_known. destruct (known_bounds _ _ _ _ _ _ _ Hwjp Hsjp Hk) as (_&_&Hl).
  eapply (ctam_operate_same (CTAM.mkState _ _ _)); [done|]. left. by exists req.
Qed.

Lemma cs_deliver s s' l :
  cs_inv s → deliver_reply s s' l → cs_inv s' ∧ CTAM.next (cs_i s) (cs_i s') l.
Proof.
  intros Hinv (e&rep&He&->&Hin&->). known Hinv He. split; [by fin|].
  rewrite !cs_i_known. destruct (known_bounds _ _ _ _ _ _ _ Hwjp Hsjp Hk) as (_&_&Hl).
  eapply (ctam_operate_same (CTAM.mkState _ _ _)); [done|]. right; right. by exists rep.
Qed.

Lemma cs_query s s' l nj nm :
  cs_inv s → query s s' l nj nm → cs_inv s' ∧ CTAM.next (cs_i s) (cs_i s') l.
Proof.
  intros Hinv (e&req&rep&key&value&He&->&Hi&Ho&Hin&Hid&Hnin&HJ&HM&->). known Hinv He. split; [by fin|].
  rewrite !cs_i_known. destruct (known_bounds _ _ _ _ _ _ _ Hwjp Hsjp Hk) as (_&_&Hl).
  eapply (ctam_operate_same (CTAM.mkState _ _ _)); [done|]. right; left.
  eexists (MapSpec.Query (QueryInput _) (QueryOutput _)), _, _, _.
  split_and!; [done|done|done|done|done|done| |done].
  left. eexists _, _. split_and!; [done| |done]. unfold to_version. simpl.
  destruct Hk as (Hj&_&_&_&_&Hm&_).
  assert (st_seq_end m = seq_end j) as Hje by congruence.
  rewrite Hje, dr_all in Hm by done. by rewrite <- Hm.
Qed.

Lemma cs_put s s' l nj nm :
  cs_inv s → put s s' l nj nm → cs_inv s' ∧ CTAM.next (cs_i s) (cs_i s') l.
Proof.
  intros Hinv (e&req&rep&key&value&He&->&Hi&Ho&Hin&Hid&Hnin&HJ&HM&->). known Hinv He.
  set (r := singleton_at (map_lsn e) (mkKM key (Define value))) in *.
  assert (Hwr : mh_wf r) by apply singleton_wf.
  assert (Hje : seq_start r = seq_end j) by done.
  assert (Hjm : seq_start r = st_seq_end m) by done.
  split.
  - fin; [|by apply known_put]. rewrite (mph_seq_end m r) by done. simpl. lia.
  - rewrite !cs_i_known. destruct (known_bounds _ _ _ _ _ _ _ Hwjp Hsjp Hk) as (_&_&Hl). simpl.
    rewrite (versions_put _ _ _ m) by (done || simpl; lia).
    eapply (ctam_operate_append (CTAM.mkState _ _ _)); [done|]. right; left.
    eexists (MapSpec.Put (PutInput key value) PutOutput), _, _, _.
    split_and!; [done|done|done|done|done|done| |done].
    right; left. eexists _, _. split; [done|].
    assert (st_seq_end (map_plus_history mp j) = map_lsn e) as Hse.
    { destruct Hk as (Hj&?&_). rewrite mph_seq_end by done. simpl in *. lia. }
    unfold r. rewrite <- Hse, mph_singleton. unfold to_version, apply_msg. simpl.
    by rewrite merge_define.
Qed.

Lemma cs_journal_internal s s' l nj :
  cs_inv s → journal_internal s s' l nj → cs_inv s' ∧ CTAM.next (cs_i s) (cs_i s') l.
Proof.
  intros Hinv (e&He&->&HJ&->). known Hinv He. split; [by fin|apply step_noop].
Qed.
Lemma cs_map_internal s s' l nm :
  cs_inv s → map_internal s s' l nm → cs_inv s' ∧ CTAM.next (cs_i s) (cs_i s') l.
Proof.
  intros Hinv (e&He&->&HM&->). known Hinv He.
  - split; [by fin; apply known_freeze|]. rewrite !cs_i_known, (versions_freeze _ _ _ m) by done.
    apply step_noop.
  - split; [by fin|apply step_noop].
Qed.
Lemma cs_req_sync s s' l nj :
  cs_inv s → req_sync s s' l nj → cs_inv s' ∧ CTAM.next (cs_i s) (cs_i s') l.
Proof.
  intros Hinv (e&id&He&->&Hnone&HJ&->). known Hinv He. split; [by fin|].
  rewrite !cs_i_known. destruct (known_bounds _ _ _ _ _ _ _ Hwjp Hsjp Hk) as (Hlen&_&_).
  right; right; right; left. exists id. split_and!; [done|done|]. simpl. rewrite Hlen.
  do 2 f_equal. lia.
Qed.
Lemma cs_reply_sync s s' l nj :
  cs_inv s → reply_sync s s' l nj → cs_inv s' ∧ CTAM.next (cs_i s) (cs_i s') l.
Proof.
  intros Hinv (e&id&lsn&He&->&Hsome&HJ&->). known Hinv He. split; [by fin|].
  rewrite !cs_i_known. destruct (known_bounds _ _ _ _ _ _ _ Hwjp Hsjp Hk) as (Hlen&?&_).
  right; right; right; right; left. eexists id, _. split_and!; [done|done| |done].
  unfold CTAM.stable_index, fs_first_active_index. simpl. lia.
Qed.
Lemma cs_lands s s' l :
  cs_inv s → superblock_write_lands s s' l → cs_inv s' ∧ CTAM.next (cs_i s) (cs_i s') l.
Proof.
  intros Hinv (->&Hsb&->). destruct (ephemeral s) as [e|] eqn:He.
  2:{ unfold cs_inv in Hinv. rewrite He in Hinv. break. congruence. }
  known Hinv He.
  pose proof Hk as (?&?&?&?&?&?&?&Hjf). destruct jf as [jf|]; [|done].
  destruct Hjf as (f&->&Hjf).
  assert (Hk' : known_inv mp jp j m (Some jf) (Some f) false).
  { split_and!; try done. by exists f. }
  split; [by fin|]. rewrite !cs_i_known, (versions_landed _ _ _ m) by done.
  right; right; left. exists (seq_end jf). split_and!; [done|simpl..|done].
  - unfold CTAM.stable_index, fs_first_active_index. simpl. lia.
  - rewrite fv_len by done. lia.
Qed.
Lemma cs_commit_complete s s' l nm nj :
  cs_inv s → commit_complete s s' l nm nj → cs_inv s' ∧ CTAM.next (cs_i s) (cs_i s') l.
Proof.
  intros Hinv (e&Hsb&He&->&HJ&HM&->). known Hinv He.
  match goal with H : known_inv _ _ _ _ (Some ?a) (Some ?b) _ |- _ => set (jf := a) in *; set (mf := b) in * end.
  assert (Hs : seq_start jf = st_seq_end mf ∧ mh_wf jf).
  { destruct Hk as (_&_&_&_&_&_&_&f&[= <-]&?&?&_). done. }
  destruct Hs as [Hs Hwf].
  split.
  - fin. apply (known_commit_complete mp jp j m jf mf); [done|]. lia.
  - rewrite !cs_i_known. unfold cs_versions. rewrite Hs. apply step_noop.
Qed.
Lemma cs_crash s s' l nj nm :
  cs_inv s → crash s s' l nj nm → cs_inv s' ∧ CTAM.next (cs_i s) (cs_i s') l.
Proof.
  intros Hinv (->&HJ&HM&->). destruct (ephemeral s) as [e|] eqn:He.
  - known Hinv He.
    pose proof Hk as (Hj&Hs&Hd&Hle&Hjp&Hm&Hmf&Hjf). pose proof Hwjp as [? _].
    unfold keep_in_flight; simpl.
    assert (Hcrash : ∀ b h st jp', mh_wf h → seq_start h ≤ st ≤ seq_end h →
      jp' = discard_recent h st → seq_start jp' = st_seq_end b →
      cs_inv (mkState (CTJournal.mkState jp' None None) (CTMap.mkState b None None) None false) ∧
      CTAM.next (CTAM.mkState (floating_versions b h st) (progress e) (sync_reqs e))
        (cs_i (mkState (CTJournal.mkState jp' None None) (CTMap.mkState b None None) None false))
        CTAM.CrashOp).
    { intros b h st jp' Hh Hst -> Hb. split.
      - unfold cs_inv; simpl. split_and!; try done. by apply dr_wf.
      - right; left. split; [done|]. unfold cs_i; simpl. f_equal. by apply crash_versions. }
    rewrite cs_i_known.
    destruct jf as [jf|]; simpl.
    + destruct Hjf as (f&->&Hwjf&Hjfs&Hjfe&Hjfeq). destruct (Hmf f) as [? Hf]; [done|].
      pose proof Hwjf as [? _].
      destruct sb; simpl.
      * apply Hcrash; try done. lia.
      * apply (Hcrash f (discard_old j (st_seq_end f)) (seq_end jf) jf).
        -- apply do_wf; [done|]. split; lia.
        -- simpl. lia.
        -- rewrite dr_do by lia. done.
        -- done.
    + apply Hcrash; try done. lia.
  - destruct s as [[jp je jf] [mp me mf] e' sb]. unfold cs_inv in *. simpl in *. subst.
    unf; break. split; [done|].
    right; left. split; [done|]. unfold cs_i; simpl. f_equal.
    assert (mh_wf jp) as Hw by done. pose proof Hw as [Hle _]. 
    unfold CTAM.stable_index, fs_first_active_index; simpl.
    apply crash_versions; [done|lia|]. symmetry. by apply dr_all.
Qed.

Lemma cs_step s s' l :
  cs_inv s → next_fixed s s' l → cs_inv s' ∧ CTAM.next (cs_i s) (cs_i s') l.
Proof.
  intros Hinv [Hn|(b&nj&Hn)]; [|by eapply cs_commit_start].
  destruct Hn as [(?&?&?&Hn)|[(?&?&?&Hn)|[Hn|[(?&?&Hn)|[(?&?&Hn)|[Hn|[(?&Hn)|[(?&Hn)|
    [(?&Hn)|[(?&Hn)|[Hn|[(?&?&Hn)|(?&?&Hn)]]]]]]]]]]]].
  - by eapply cs_load.
  - by eapply cs_recover.
  - by eapply cs_accept.
  - by eapply cs_query.
  - by eapply cs_put.
  - by eapply cs_deliver.
  - by eapply cs_journal_internal.
  - by eapply cs_map_internal.
  - by eapply cs_req_sync.
  - by eapply cs_reply_sync.
  - by eapply cs_lands.
  - by eapply cs_commit_complete.
  - by eapply cs_crash.
Qed.

Lemma cs_run s0 ls s :
  init s0 → run next_fixed s0 ls s → cs_inv s ∧ run CTAM.next CTAM.init ls (cs_i s).
Proof.
  intros H0 Hr. destruct (cs_init_refines _ H0) as [Hi0 Hi].
  induction Hr as [s|s ls s' l s'' Hr IH Hn]; [split; [done|]; rewrite Hi; constructor|].
  destruct IH as [IH1 IH2]; try done. destruct (cs_step _ _ _ IH1 Hn). split; [done|].
  econstructor; eauto.
Qed.
