(** Proofs about message histories and the abstract coordination system. *)
From Verif Require Import Spec_Model Spec_Spec Spec_Proof Abs_Model Abs_Spec.

(** ** Message histories *)
Lemma mh_eq h1 h2 :
  seq_start h1 = seq_start h2 → seq_end h1 = seq_end h2 →
  (∀ lsn, msgs h1 !! lsn = msgs h2 !! lsn) → h1 = h2.
Proof. destruct h1, h2; simpl. intros -> -> H. f_equal. by apply map_eq. Qed.

Lemma mh_wf_Some h lsn : mh_wf h → mh_contains h lsn → is_Some (msgs h !! lsn).
Proof. intros [_ H] ?. by apply H. Qed.
Lemma mh_wf_None h lsn : mh_wf h → ¬ mh_contains h lsn → msgs h !! lsn = None.
Proof. intros [_ H] Hn. apply eq_None_not_Some. by rewrite H. Qed.

Lemma dr_lookup h n lsn :
  msgs (discard_recent h n) !! lsn =
    if decide (seq_start h ≤ lsn < n) then msgs h !! lsn else None.
Proof.
  unfold discard_recent; simpl. case_decide as Hd.
  - destruct (msgs h !! lsn) eqn:E.
    + apply map_filter_lookup_Some. done.
    + apply map_filter_lookup_None. by left.
  - apply map_filter_lookup_None. right. intros x _. done.
Qed.
Lemma do_lookup h n lsn :
  msgs (discard_old h n) !! lsn =
    if decide (n ≤ lsn < seq_end h) then msgs h !! lsn else None.
Proof.
  unfold discard_old; simpl. case_decide as Hd.
  - destruct (msgs h !! lsn) eqn:E.
    + apply map_filter_lookup_Some. done.
    + apply map_filter_lookup_None. by left.
  - apply map_filter_lookup_None. right. intros x _. done.
Qed.
Lemma concat_lookup h1 h2 lsn :
  msgs (mh_concat h1 h2) !! lsn =
    match msgs h2 !! lsn with Some x => Some x | None => msgs h1 !! lsn end.
Proof.
  simpl. destruct (msgs h2 !! lsn) eqn:E.
  - by apply lookup_union_Some_l.
  - by apply lookup_union_r.
Qed.

Lemma dr_wf h n : mh_wf h → can_discard_to h n → mh_wf (discard_recent h n).
Proof.
  intros [Hle H] [??]. split; [simpl; lia|]. intros lsn. rewrite dr_lookup.
  unfold mh_contains; simpl. case_decide as Hd.
  - rewrite H. unfold mh_contains. lia.
  - split; [by intros [? ?]|done].
Qed.
Lemma do_wf h n : mh_wf h → can_discard_to h n → mh_wf (discard_old h n).
Proof.
  intros [Hle H] [??]. split; [simpl; lia|]. intros lsn. rewrite do_lookup.
  unfold mh_contains; simpl. case_decide as Hd.
  - rewrite H. unfold mh_contains. lia.
  - split; [by intros [? ?]|done].
Qed.
Lemma concat_wf h1 h2 : mh_wf h1 → mh_wf h2 → can_concat h1 h2 → mh_wf (mh_concat h1 h2).
Proof.
  intros [Hle1 H1] [Hle2 H2] Hc. unfold can_concat, can_follow in Hc. split; [simpl; lia|].
  intros lsn. rewrite concat_lookup.
  pose proof (H1 lsn) as H1'. pose proof (H2 lsn) as H2'. unfold mh_contains in *; simpl.
  destruct (msgs h2 !! lsn) eqn:E.
  - split; [|by eexists]. intros _. assert (is_Some (Some k)) as HS by by eexists. apply H2' in HS. lia.
  - rewrite H1'. split; [lia|]. intros ?. destruct (decide (lsn < seq_end h1)); [lia|].
    destruct (proj2 H2') as [? ?]; [lia|done].
Qed.
Lemma singleton_wf lsn km : mh_wf (singleton_at lsn km).
Proof.
  split; simpl; [lia|]. intros n. unfold mh_contains; simpl.
  destruct (decide (n = lsn)) as [->|].
  - rewrite lookup_singleton. split; [lia|by eexists].
  - rewrite lookup_singleton_ne by done. split; [by intros []|lia].
Qed.
Lemma empty_history_wf lsn : mh_wf (empty_history_at lsn).
Proof.
  split; simpl; [lia|]. intros n. unfold mh_contains; simpl. rewrite lookup_empty.
  split; [by intros []|lia].
Qed.

Lemma dr_all h : mh_wf h → discard_recent h (seq_end h) = h.
Proof.
  intros Hw. apply mh_eq; [done|done|]. intros lsn. rewrite dr_lookup. case_decide; [done|].
  symmetry. by apply mh_wf_None.
Qed.
Lemma do_all h : mh_wf h → discard_old h (seq_start h) = h.
Proof.
  intros Hw. apply mh_eq; [done|done|]. intros lsn. rewrite do_lookup. case_decide; [done|].
  symmetry. by apply mh_wf_None.
Qed.
Lemma dr_dr h n k : n ≤ k → discard_recent (discard_recent h k) n = discard_recent h n.
Proof.
  intros. apply mh_eq; [done|done|]. intros lsn. rewrite !dr_lookup. simpl.
  repeat case_decide; try done. lia.
Qed.
Lemma do_do h n k : k ≤ n → discard_old (discard_old h k) n = discard_old h n.
Proof.
  intros. apply mh_eq; [done|done|]. intros lsn. rewrite !do_lookup. simpl.
  repeat case_decide; try done. lia.
Qed.
Lemma dr_do h n k :
  seq_start h ≤ n → k ≤ seq_end h →
  discard_recent (discard_old h n) k = discard_old (discard_recent h k) n.
Proof.
  intros. apply mh_eq; [done|done|]. intros lsn.
  rewrite dr_lookup, !do_lookup, dr_lookup. simpl. repeat case_decide; try done; lia.
Qed.
Lemma dr_concat_l h1 h2 n :
  mh_wf h2 → can_concat h1 h2 → n ≤ seq_end h1 →
  discard_recent (mh_concat h1 h2) n = discard_recent h1 n.
Proof.
  intros Hw Hc Hn. apply mh_eq; [done|done|]. intros lsn. rewrite !dr_lookup. simpl.
  case_decide; [|done]. apply lookup_union_r.
  apply mh_wf_None; [done|]. unfold mh_contains, can_concat, can_follow in *. lia.
Qed.
Lemma dr_concat h1 h2 :
  mh_wf h1 → mh_wf h2 → can_concat h1 h2 → discard_recent (mh_concat h1 h2) (seq_end h1) = h1.
Proof. intros. rewrite dr_concat_l by done. by apply dr_all. Qed.
Lemma concat_split h n :
  mh_wf h → can_discard_to h n → mh_concat (discard_recent h n) (discard_old h n) = h.
Proof.
  intros Hw [??]. apply mh_eq; [done|done|]. intros lsn.
  rewrite concat_lookup, do_lookup, dr_lookup.
  repeat case_decide; try lia; try done.
  { by destruct (msgs h !! lsn). }
  symmetry. apply mh_wf_None; [done|]. unfold mh_contains. lia.
Qed.
Lemma concat_assoc h1 h2 h3 :
  mh_concat (mh_concat h1 h2) h3 = mh_concat h1 (mh_concat h2 h3).
Proof. unfold mh_concat; simpl. f_equal. by rewrite (assoc_L (∪)). Qed.

(** A well-formed slice is a slice of the whole. *)
Lemma includes_slice h r :
  mh_wf h → mh_wf r → includes_subseq h r →
  r = discard_old (discard_recent h (seq_end r)) (seq_start r).
Proof.
  intros Hh Hr (H1&H2&H3). apply mh_eq; [done|done|]. intros lsn.
  rewrite do_lookup, dr_lookup. simpl.
  case_decide as Hd.
  - rewrite decide_True by lia. destruct (H3 lsn) as [_ E]; [done|]. by rewrite E.
  - by apply mh_wf_None.
Qed.
Lemma includes_slice_inv h a b :
  mh_wf h → seq_start h ≤ a ≤ b → b ≤ seq_end h →
  includes_subseq h (discard_old (discard_recent h b) a).
Proof.
  intros Hh ??. split_and!; simpl; [lia|lia|]. unfold mh_contains; simpl. intros lsn Hl.
  split; [lia|]. change (msgs h !! lsn = msgs (discard_old (discard_recent h b) a) !! lsn).
  rewrite do_lookup, dr_lookup. simpl. by rewrite !decide_True by lia.
Qed.

(** ** Replay *)
Lemma apply_first_ext ms ms' start n o :
  (∀ lsn, start ≤ lsn < start + n → ms !! lsn = ms' !! lsn) →
  apply_first ms start n o = apply_first ms' start n o.
Proof.
  induction n as [|n IH]; [done|]. intros H. simpl. rewrite IH by (intros; apply H; lia).
  by rewrite (H (start + n)) by lia.
Qed.
Lemma apply_first_seq_end ms start n o :
  st_seq_end (apply_first ms start n o) = st_seq_end o + n.
Proof. induction n; simpl; lia. Qed.
Lemma apply_first_add ms start n k o :
  apply_first ms start (n + k) o = apply_first ms (start + n) k (apply_first ms start n o).
Proof.
  induction k as [|k IH].
  - by rewrite Nat.add_0_r.
  - rewrite Nat.add_succ_r. simpl. rewrite IH. by rewrite Nat.add_assoc.
Qed.

Lemma mph_seq_end m h :
  mh_wf h → can_follow h (st_seq_end m) → st_seq_end (map_plus_history m h) = seq_end h.
Proof.
  intros [? _] Hf. unfold map_plus_history, apply_to_stamped_map, can_follow in *.
  rewrite apply_first_seq_end. lia.
Qed.
Lemma mph_concat m h1 h2 :
  mh_wf h1 → mh_wf h2 → can_concat h1 h2 →
  map_plus_history m (mh_concat h1 h2) = map_plus_history (map_plus_history m h1) h2.
Proof.
  intros H1 H2 Hc. unfold map_plus_history, apply_to_stamped_map. simpl.
  pose proof H1 as [? _]. pose proof H2 as [? _]. unfold can_concat, can_follow in Hc.
  replace (seq_end h2 - seq_start h1) with ((seq_end h1 - seq_start h1) + (seq_end h2 - seq_start h2)) by lia.
  rewrite apply_first_add. replace (seq_start h1 + (seq_end h1 - seq_start h1)) with (seq_start h2) by lia.
  rewrite (apply_first_ext (msgs h2 ∪ msgs h1) (msgs h1) (seq_start h1)).
  - apply apply_first_ext. intros lsn ?. apply lookup_union_l.
    apply mh_wf_None; [done|]. unfold mh_contains. lia.
  - intros lsn ?. apply lookup_union_r. apply mh_wf_None; [done|]. unfold mh_contains. lia.
Qed.
Lemma mph_split m h n :
  mh_wf h → can_discard_to h n →
  map_plus_history m h = map_plus_history (map_plus_history m (discard_recent h n)) (discard_old h n).
Proof.
  intros Hw Hd. rewrite <- (concat_split h n) at 1 by done. apply mph_concat.
  - by apply dr_wf.
  - by apply do_wf.
  - done.
Qed.
Lemma mph_split_at m h n k :
  mh_wf h → seq_start h ≤ n ≤ k → k ≤ seq_end h →
  map_plus_history m (discard_recent h k) =
    map_plus_history (map_plus_history m (discard_recent h n)) (discard_recent (discard_old h n) k).
Proof.
  intros Hw ??. rewrite (mph_split m (discard_recent h k) n).
  - rewrite dr_dr by lia. by rewrite dr_do by lia.
  - apply dr_wf; [done|]. split; lia.
  - split; simpl; lia.
Qed.
Lemma mph_empty m h : seq_start h = seq_end h → map_plus_history m h = m.
Proof.
  intros E. unfold map_plus_history, apply_to_stamped_map. by rewrite E, Nat.sub_diag.
Qed.
Lemma mph_singleton m km :
  map_plus_history m (singleton_at (st_seq_end m) km)
  = mkStamped (apply_msg (st_value m) km) (st_seq_end m + 1).
Proof.
  unfold map_plus_history, apply_to_stamped_map; simpl.
  replace (st_seq_end m + 1 - st_seq_end m) with 1 by lia. simpl.
  by rewrite Nat.add_0_r, lookup_singleton.
Qed.

(** Replay against the independent specification [after]. *)
Lemma after_snoc l km k m :
  after (l ++ [km]) k m =
    if decide (km_key km = k) then merge (after l k m) (km_message km) else after l k m.
Proof. unfold after. by rewrite fold_left_app. Qed.

Lemma is_log_wf h l : is_log h l → mh_wf h.
Proof.
  intros [He Hl]. split; [lia|]. intros lsn. unfold mh_contains. split.
  - intros [km Hk]. apply Hl in Hk as [? Hk]. apply lookup_lt_Some in Hk. lia.
  - intros ?. destruct (lookup_lt_is_Some_2 l (lsn - seq_start h)) as [km ?]; [lia|].
    exists km. apply Hl. split; [lia|done].
Qed.
Lemma wf_is_log h : mh_wf h → ∃ l, is_log h l.
Proof.
  intros [Hle Hw].
  assert (∀ n, seq_start h + n ≤ seq_end h → ∃ l, length l = n ∧
    ∀ i, i < n → msgs h !! (seq_start h + i) = l !! i) as Hx.
  { induction n as [|n IH]; intros Hn.
    - exists []. split; [done|]. intros; lia.
    - destruct IH as (l&Hl&Hi); [lia|].
      destruct (proj2 (Hw (seq_start h + n))) as [km Hkm]; [unfold mh_contains; lia|].
      exists (l ++ [km]). rewrite app_length; simpl. split; [lia|]. intros i ?.
      destruct (decide (i = n)) as [->|].
      + rewrite Hkm, lookup_app_r by lia. by rewrite Hl, Nat.sub_diag.
      + rewrite lookup_app_l by lia. apply Hi. lia. }
  destruct (Hx (seq_end h - seq_start h)) as (l&Hl&Hi); [lia|]. exists l.
  split; [lia|]. intros lsn km. split.
  - intros Hk. assert (mh_contains h lsn) as Hc by (apply Hw; by eexists).
    unfold mh_contains in Hc. split; [lia|]. rewrite <- Hi by lia.
    by replace (seq_start h + (lsn - seq_start h)) with lsn by lia.
  - intros [? Hk]. pose proof (lookup_lt_Some _ _ _ Hk). rewrite <- Hi in Hk by lia.
    by replace (seq_start h + (lsn - seq_start h)) with lsn in Hk by lia.
Qed.

Lemma apply_first_after ms start l o k :
  (∀ i km, l !! i = Some km → ms !! (start + i) = Some km) →
  st_value (apply_first ms start (length l) o) k = after l k (st_value o k).
Proof.
  induction l as [|km l IH] using rev_ind; [done|]. intros H.
  rewrite app_length; simpl. rewrite Nat.add_1_r; simpl. rewrite after_snoc.
  rewrite (H (length l) km) by (by rewrite lookup_app_r, Nat.sub_diag).
  unfold apply_msg, kmmap_insert. specialize (IH (λ i km Hi, H i km (lookup_app_l_Some _ _ _ _ Hi))).
  destruct (decide (km_key km = k)) as [<-|Hne].
  - by rewrite decide_True, IH.
  - by rewrite decide_False.
Qed.
Lemma mph_after m h l :
  is_log h l → can_follow h (st_seq_end m) →
  st_seq_end (map_plus_history m h) = seq_end h ∧
  ∀ k, st_value (map_plus_history m h) k = after l k (st_value m k).
Proof.
  intros Hl Hf. split; [apply mph_seq_end; [by eapply is_log_wf|done]|]. intros k.
  unfold map_plus_history, apply_to_stamped_map.
  destruct Hl as [He Hl]. replace (seq_end h - seq_start h) with (length l) by lia.
  apply apply_first_after. intros i km Hi. apply Hl. split; [lia|].
  by replace (seq_start h + i - seq_start h) with i by lia.
Qed.

(** Replay in any number of pieces. *)
Lemma mph_pieces hs : ∀ m h0,
  mh_wf h0 → consecutive (seq_end h0) hs →
  fold_left map_plus_history hs (map_plus_history m h0)
  = map_plus_history m (fold_left mh_concat hs h0) ∧ mh_wf (fold_left mh_concat hs h0).
Proof.
  induction hs as [|h hs IH]; intros m h0 Hw; simpl; [done|].
  intros (Hwh&Hs&Hc).
  assert (can_concat h0 h) as Hcc by done.
  rewrite <- mph_concat by done. apply IH; [|done]. by apply concat_wf.
Qed.
Lemma replay_in_pieces m h hs :
  consecutive (st_seq_end m) (h :: hs) →
  fold_left map_plus_history (h :: hs) m = map_plus_history m (fold_left mh_concat hs h).
Proof.
  intros (Hw&Hs&Hc). simpl. by destruct (mph_pieces hs m h).
Qed.

(** ** The coordination system *)
(** AbstractCrashAwareSystemRefinement_v.rs 215-221 *)
Definition to_version (m : StampedMap) : Version := MapSpec.mkState (st_value m).
(** AbstractCrashAwareSystemRefinement_v.rs 227-248 *)
Definition floating_versions (base : StampedMap) (h : MsgHistory) (stable : LSN) : FloatingSeq Version :=
  fs_new stable (seq_end h + 1) (λ lsn, to_version (map_plus_history base (discard_recent h lsn))).

Section coord.
Import CoordSys.

(** AbstractCrashAwareSystemRefinement_v.rs 87-98 *)
Definition landed (s : State) : bool := keep_in_flight s.
(** AbstractCrashAwareSystemRefinement_v.rs 103-210 *)
Definition cs_i (s : State) : CTAM.State :=
  let mp := CTMap.persistent (mapadt s) in
  let jp := CTJournal.persistent (journal s) in
  match ephemeral s, CTJournal.ephemeral (journal s) with
  | Some e, Some j =>
      CTAM.mkState
        (match CTJournal.in_flight (journal s), CTMap.in_flight (mapadt s), superblock_in_flight s with
         | Some jf, Some mf, false =>
             floating_versions mf (discard_old (AbstractJournal.journal j) (st_seq_end mf)) (seq_end jf)
         | _, _, _ => floating_versions mp (AbstractJournal.journal j) (seq_end jp)
         end) (progress e) (sync_reqs e)
  | _, _ => CTAM.mkState (floating_versions mp jp (seq_end jp)) AsyncMap.init_ephemeral_state ∅
  end.

(** The invariant (AbstractCrashAwareSystemRefinement_v.rs 275-437). *)
Definition cs_inv (s : State) : Prop :=
  let mp := CTMap.persistent (mapadt s) in
  let jp := CTJournal.persistent (journal s) in
  mh_wf jp ∧ seq_start jp = st_seq_end mp ∧
  match ephemeral s with
  | None =>
      CTJournal.ephemeral (journal s) = None ∧ CTMap.ephemeral (mapadt s) = None ∧
      CTJournal.in_flight (journal s) = None ∧ CTMap.in_flight (mapadt s) = None ∧
      superblock_in_flight s = false
  | Some e => ∃ j m,
      CTJournal.ephemeral (journal s) = Some (AbstractJournal.mkState j) ∧
      CTMap.ephemeral (mapadt s) = Some (AbstractMap.mkState m) ∧
      mh_wf j ∧ seq_start j = st_seq_end mp ∧ can_discard_to j (st_seq_end m) ∧
      seq_end jp ≤ seq_end j ∧ map_lsn e = st_seq_end m ∧
      jp = discard_recent j (seq_end jp) ∧
      m = map_plus_history mp (discard_recent j (st_seq_end m)) ∧
      (∀ f, CTMap.in_flight (mapadt s) = Some f →
         st_seq_end mp ≤ st_seq_end f ≤ seq_end j ∧
         f = map_plus_history mp (discard_recent j (st_seq_end f))) ∧
      match CTJournal.in_flight (journal s) with
      | None => superblock_in_flight s = false
      | Some jf => ∃ f, CTMap.in_flight (mapadt s) = Some f ∧
          mh_wf jf ∧ seq_start jf = st_seq_end f ∧
          seq_end jp ≤ seq_end jf ≤ seq_end j ∧
          jf = discard_old (discard_recent j (seq_end jf)) (st_seq_end f)
      end
  end.

Lemma fv_start base h st : fs_start (floating_versions base h st) = st.
Proof. done. Qed.
Lemma fv_len base h st : st ≤ seq_end h → fs_len (floating_versions base h st) = seq_end h + 1.
Proof. intros. apply fs_new_len. lia. Qed.
Lemma fv_get base h st i :
  st ≤ i ≤ seq_end h →
  fs_get (floating_versions base h st) i
  = Some (to_version (map_plus_history base (discard_recent h i))).
Proof. intros. unfold floating_versions. by rewrite fs_new_get by lia. Qed.
Lemma fv_last base h st :
  mh_wf h → st ≤ seq_end h →
  fs_last (floating_versions base h st) = Some (to_version (map_plus_history base h)).
Proof.
  intros Hw ?. unfold fs_last. rewrite fv_len by done. rewrite fv_get by lia.
  replace (seq_end h + 1 - 1) with (seq_end h) by lia. by rewrite dr_all.
Qed.
Lemma fv_append base h r st :
  mh_wf h → mh_wf r → can_concat h r → seq_end r = seq_end h + 1 → st ≤ seq_end h →
  floating_versions base (mh_concat h r) st
  = fs_append (floating_versions base h st)
      [to_version (map_plus_history (map_plus_history base h) r)].
Proof.
  intros Hh Hr Hc He Hst. apply fs_ext.
  - done.
  - rewrite fs_append_len, !fv_len by (simpl; lia). simpl. lia.
  - intros i [Ha Hb]. rewrite fv_len in Hb by (simpl; lia). simpl in Ha, Hb.
    rewrite fv_get by (simpl; lia).
    destruct (decide (i = seq_end h + 1)) as [->|].
    + replace (seq_end h + 1) with (seq_end (mh_concat h r)) by done.
      rewrite dr_all by by apply concat_wf. rewrite mph_concat by done.
      unfold fs_get, fs_append. simpl. rewrite decide_True by lia.
      rewrite lookup_app_r by (rewrite fmap_length, seq_length; lia).
      rewrite fmap_length, seq_length.
      by replace (seq_end r - st - (seq_end h + 1 - st)) with 0 by lia.
    + rewrite fs_append_get_old; [|split; [simpl; lia|rewrite fv_len; lia]].
      rewrite fv_get by lia. by rewrite dr_concat_l by (done || lia).
Qed.

(** The two descriptions of the versions agree when the in-flight image has
    landed (lemma_iversions_known_inflight_landed_relation). *)
Lemma fv_trunc base j f st :
  mh_wf j → st_seq_end f ≤ st → st ≤ seq_end j → seq_start j ≤ st_seq_end f →
  f = map_plus_history base (discard_recent j (st_seq_end f)) → 
  ∀ st0, st0 ≤ st →
  floating_versions f (discard_old j (st_seq_end f)) st
  = fs_get_suffix (floating_versions base j st0) st.
Proof.
  intros Hj H1 H2 H3 Hf st0 Hst0. apply fs_ext.
  - done.
  - rewrite fs_get_suffix_len; rewrite ?fv_len; simpl; lia.
  - intros i [Ha Hb]. rewrite fv_len in Hb by (simpl; lia). simpl in Ha, Hb.
    rewrite fv_get by (simpl; lia). rewrite fs_get_suffix_get by (simpl; lia).
    rewrite fv_get by lia. do 2 f_equal.
    rewrite (mph_split_at base j (st_seq_end f) i) by (done || lia). by rewrite <- Hf.
Qed.

Lemma cs_init_refines s : init s → cs_inv s ∧ cs_i s = CTAM.init.
Proof.
  destruct s as [[jp je jf] [mp me mf] e sb]. intros ([=-> -> ->]&[=-> -> ->]&Hs&Hb); simpl in *.
  subst. split; [|done]. split_and!; try done. apply (empty_history_wf 0).
Qed.
End coord.
