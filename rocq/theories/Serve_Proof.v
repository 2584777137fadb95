(** The executable server obeys the interface (C46), and what the implementer may
    conclude from the tokens it holds (C47). *)
From Verif Require Import Spec_Model Spec_Spec Spec_Proof Abs_Spec Abs_Proof Disk_Model System_Model System_Spec
  AsyncDisk_Proof System_Proof Exec_Model Exec_Spec Exec_Proof Token_Model Token_Spec Token_Proof Serve_Model Serve_Spec.
From stdpp Require Import list.

(** ** The versions a journal stands for *)
Section versions.
  Implicit Types h : list KeyedMessage.
  Notation jn h := (mkJournal h 0).
  Notation V h := (floating_versions stamped_empty (journal_view (jn h)) 0).
  Definition vm h : Version := sb_store (superblock_view (jn h)).
  Lemma view_wf h : mh_wf (journal_view (jn h)).
  Proof. apply (is_log_wf _ h), (journal_log (jn h)). Qed.
  Lemma end_jn h : st_seq_end (to_stamped_map (jn h)) = length h.
  Proof.
    unfold to_stamped_map. rewrite mph_seq_end; [cbn; lia|apply view_wf|done].
  Qed.
  Lemma sb_version_jn h : sb_version (superblock_view (jn h)) = length h.
  Proof. apply end_jn. Qed.
  Lemma V_len h : fs_len (V h) = length h + 1.
  Proof. rewrite fv_len by (cbn; lia). cbn. lia. Qed.
  Lemma V_last h : fs_last (V h) = Some (vm h).
  Proof. rewrite fv_last; [done|apply view_wf|cbn; lia]. Qed.
  Lemma view_snoc h km :
    journal_view (jn (h ++ [km])) = mh_concat (journal_view (jn h)) (singleton_at (length h) km).
  Proof.
    apply mh_eq; cbn; [done|rewrite app_length; cbn; lia|].
    intros i. rewrite map_seq_app. cbn. destruct (decide (i = length h)) as [->|Hne].
    - rewrite lookup_union_r by (apply lookup_map_seq_None; lia).
      rewrite lookup_insert. symmetry. apply lookup_union_Some_l, lookup_singleton.
    - rewrite (lookup_union_r {[length h := km]}) by by rewrite lookup_singleton_ne.
      apply lookup_union_l. by rewrite lookup_insert_ne, lookup_empty.
  Qed.
  Lemma vm_snoc h k v :
    vm (h ++ [mkKM k (Define v)]) = MapSpec.mkState (kmmap_insert (MapSpec.kmmap (vm h)) k (Define v)).
  Proof.
    unfold vm, superblock_view. cbn [sb_store]. f_equal. unfold to_stamped_map.
    rewrite view_snoc. rewrite mph_concat; [|apply view_wf|apply singleton_wf|unfold can_concat, can_follow; cbn; lia].
    fold (to_stamped_map (jn h)). rewrite <- (end_jn h), mph_singleton. cbn [st_value]. unfold apply_msg. cbn [km_key km_message].
    f_equal. by match goal with |- Spec_Model.merge ?x _ = _ => destruct x end.
  Qed.
  Lemma V_snoc h km : V (h ++ [km]) = fs_append (V h) [vm (h ++ [km])].
  Proof.
    rewrite view_snoc at 1. rewrite fv_append; [|apply view_wf|apply singleton_wf|unfold can_concat, can_follow; cbn; lia|cbn; lia|cbn; lia].
    f_equal. unfold vm, superblock_view, to_stamped_map. cbn [sb_store]. rewrite view_snoc.
    rewrite mph_concat; [done|apply view_wf|apply singleton_wf|unfold can_concat, can_follow; cbn; lia].
  Qed.
  Definition defs h : Prop := ∀ km, km ∈ h → ∃ v, km_message km = Define v.
  Lemma defs_snoc h k v : defs h → defs (h ++ [mkKM k (Define v)]).
  Proof.
    intros Hd km [Hin|Hin]%elem_of_app; [by apply Hd|]. apply elem_of_list_singleton in Hin as ->. by eexists.
  Qed.
  Lemma defs_prefix h h' : defs h' → h `prefix_of` h' → defs h.
  Proof. intros Hd [k ->] km Hin. apply Hd, elem_of_app. by left. Qed.
  Lemma vm_get h k : defs h → MapSpec.kmmap (vm h) k = Define (journal_get (jn h) k).
  Proof.
    induction h as [|km h IH] using rev_ind; intros Hd; [done|].
    destruct km as [k' m]. destruct (Hd (mkKM k' m)) as [v Hm]; [apply elem_of_app; right; by apply elem_of_list_singleton|].
    cbn in Hm. subst m. rewrite vm_snoc. cbn [MapSpec.kmmap]. unfold kmmap_insert, journal_get.
    cbn [j_history]. rewrite fold_left_app. cbn [fold_left km_key km_message].
    destruct (decide (k = k')) as [->|Hne]; [by rewrite decide_True|]. rewrite decide_False by done.
    apply IH. eapply defs_prefix; [exact Hd|]. by apply prefix_app_r.
  Qed.
  Lemma V_end h : fs_get_suffix (V h) (length h) = mkFS (length h) [vm h].
  Proof.
    apply fs_ext; [done| |].
    - rewrite fs_get_suffix_len by (rewrite V_len; cbn; lia). rewrite V_len. unfold fs_len. cbn. lia.
    - intros i [Ha Hb]. rewrite fs_get_suffix_len in Hb by (rewrite V_len; cbn; lia). rewrite V_len in Hb.
      cbn in Ha. assert (i = length h) as -> by lia.
      rewrite fs_get_suffix_get by (cbn; lia).
      assert (fs_get (V h) (length h) = Some (vm h)) as ->.
      { rewrite <- V_last. unfold fs_last. rewrite V_len. f_equal. lia. }
      symmetry. by apply fs_singleton_get.
  Qed.
  Lemma suffix_suffix {T} (s : FloatingSeq T) a b : fs_start s ≤ a ≤ b →
    fs_get_suffix (fs_get_suffix s a) b = fs_get_suffix s b.
  Proof.
    intros Hab. unfold fs_get_suffix. cbn. f_equal. rewrite drop_drop. f_equal. lia.
  Qed.
  Lemma last_in_suffix h a : a ≤ length h → fs_last (fs_get_suffix (V h) a) = Some (vm h).
  Proof. intros Ha. rewrite fs_suffix_last by (rewrite V_len; cbn; lia). apply V_last. Qed.
  Lemma suffix_len h a : a ≤ length h → fs_len (fs_get_suffix (V h) a) = length h + 1.
  Proof. intros Ha. rewrite fs_get_suffix_len by (rewrite V_len; cbn; lia). apply V_len. Qed.
  Lemma suffix_snoc h km a : a ≤ length h →
    fs_get_suffix (V (h ++ [km])) a = fs_append (fs_get_suffix (V h) a) [vm (h ++ [km])].
  Proof. intros Ha. rewrite V_snoc. apply fs_suffix_append; [rewrite V_len; lia|cbn; lia]. Qed.
End versions.

Lemma foldr_delete_comm {A} (m : gmap ID A) id ids :
  foldr delete (delete id m) ids = delete id (foldr delete m ids).
Proof. induction ids as [|i ids IH]; cbn; [done|]. by rewrite IH, delete_commute. Qed.

(** ** Moves at the interface *)
Section moves.
  Context `{HG : Geometry} `{HD : Decoder} (kp : bool).
  Notation PM := Concrete.model_fixed.
  Notation cfg := (API.mkConfig true true kp).
  Notation nx := (API.next PM cfg).
  Notation st p n d := (API.mkState (Tokens.mkState p ∅ ∅ ∅ ∅) None n d).
  Notation PState := AtomicState.State.

  Lemma ask (p p1 : PState) n d d' r :
    pm_next PM p p1 (DiskIO (mkInfo {[+ (n, r) +]} ∅)) →
    AsyncDisk.disk_ops d d' (AsyncDisk.DiskOps {[n := r]} ∅) →
    run nx (st p n d) [API.Predict n; API.Step (Tokens.DiskOp {[+ (n, r) +]} ∅); API.Send n n r] (st p1 (n + 1)%N d').
  Proof.
    intros H1 H2.
    apply (run_cons _ _ _ (API.mkState (Tokens.mkState p ∅ ∅ ∅ ∅) (Some n) n d)).
    { do 3 right; left. split; [exact (λ _, conj eq_refl eq_refl)|]. exact (conj eq_refl eq_refl). }
    apply (run_cons _ _ _ (API.mkState (Tokens.mkState p1 ∅ ∅ {[+ (n, r) +]} ∅) (Some n) n d)).
    { do 2 right; left. exists (Tokens.DiskOp {[+ (n, r) +]} ∅), (Tokens.mkState p1 ∅ ∅ {[+ (n, r) +]} ∅).
      split; [exact eq_refl|]. split; [|split; [|exact eq_refl]].
      - exists p1. do 2 right; left. exists {[+ (n, r) +]}, ∅. split; [exact eq_refl|].
        split; [apply gmultiset_empty_subseteq|]. split; [exact H1|].
        unfold API.tokens, Tokens.requests, Tokens.replies, Tokens.disk_requests, Tokens.disk_responses.
        rewrite (left_id_L ∅ (⊎)), gmultiset_difference_diag. exact eq_refl.
      - intros reqs resps E. injection E as <- <-. right. exists n, r.
        split; [exact eq_refl|]. split; [exact eq_refl|]. exact (λ _, eq_refl). }
    apply run_one. do 4 right; left. exists n, r, d'.
    split; [exact eq_refl|]. split; [exact eq_refl|].
    unfold API.tokens, Tokens.requests, Tokens.replies, Tokens.disk_requests, Tokens.disk_responses, Tokens.model, API.counter, API.disk.
    split; [by apply gmultiset_elem_of_singleton|]. split; [exact H2|].
    rewrite gmultiset_difference_diag. exact eq_refl.
  Qed.
  Lemma answer (p p1 : PState) n d d' id resp :
    pm_next PM p p1 (DiskIO (mkInfo ∅ {[+ (id, resp) +]})) →
    AsyncDisk.disk_ops d d' (AsyncDisk.DiskOps ∅ {[id := resp]}) →
    run nx (st p n d) [API.ReceiveResponse id resp; API.Step (Tokens.DiskOp ∅ {[+ (id, resp) +]})] (st p1 n d').
  Proof.
    intros H1 H2.
    apply (run_cons _ _ _ (API.mkState (Tokens.mkState p ∅ ∅ ∅ {[+ (id, resp) +]}) None n d')).
    { do 5 right; left. exists id, resp, d'. split; [exact eq_refl|]. split; [exact H2|].
      unfold API.tokens, Tokens.requests, Tokens.replies, Tokens.disk_requests, Tokens.disk_responses.
      rewrite (left_id_L ∅ (⊎)). exact eq_refl. }
    apply run_one.
    do 2 right; left. exists (Tokens.DiskOp ∅ {[+ (id, resp) +]}), (Tokens.mkState p1 ∅ ∅ ∅ ∅).
    split; [exact eq_refl|]. split; [|split; [|exact eq_refl]].
    - exists p1. do 2 right; left. exists ∅, {[+ (id, resp) +]}. split; [exact eq_refl|].
      split; [done|]. split; [exact H1|].
      unfold API.tokens, Tokens.requests, Tokens.replies, Tokens.disk_requests, Tokens.disk_responses.
      rewrite (left_id_L ∅ (⊎)), gmultiset_difference_diag. exact eq_refl.
    - intros reqs resps E. injection E as <- <-. left. exact eq_refl.
  Qed.
  (** A request is taken. *)
  Notation taken p n d i := (API.mkState (Tokens.mkState p {[+ mkXReq i n +]} ∅ ∅ ∅) None (n + 1)%N d).
  Lemma take_req (p : PState) n d i :
    run nx (st p n d) [API.Receive (mkXReq i n)] (taken p n d i).
  Proof.
    apply run_one. left. exists i. split; [exact (λ _, conj eq_refl eq_refl)|]. split; [exact eq_refl|].
    unfold API.tokens, Tokens.requests, Tokens.replies, Tokens.disk_requests, Tokens.disk_responses, API.counter.
    rewrite (left_id_L ∅ (⊎)). exact eq_refl.
  Qed.
  (** ... and executed and answered. *)
  Lemma perform (p p' : PState) n d i o : i ≠ XSync → o ≠ XSyncOutput →
    pm_next PM p p' (UserIO (Execute (mapspec_req (mkXReq i n)) (mapspec_reply (mkXReply o n)))) →
    run nx (taken p n d i) [API.Step (Tokens.ExecuteOp (mkXReq i n) (mkXReply o n)); API.SendReply (mkXReply o n)]
      (st p' (n + 1)%N d).
  Proof.
    intros Hi Ho Hp.
    apply (run_cons _ _ _ (API.mkState (Tokens.mkState p' ∅ {[+ mkXReply o n +]} ∅ ∅) None (n + 1)%N d)).
    { do 2 right; left. exists (Tokens.ExecuteOp (mkXReq i n) (mkXReply o n)), (Tokens.mkState p' ∅ {[+ mkXReply o n +]} ∅ ∅).
      split; [exact eq_refl|]. split; [|split; [by intros ?? [=]|exact eq_refl]].
      exists p'. right; left. exists (mkXReq i n), (mkXReply o n).
      split; [exact eq_refl|]. split; [exact Hi|]. split; [exact (λ _, Ho)|].
      unfold API.tokens, Tokens.requests, Tokens.replies, Tokens.disk_requests, Tokens.disk_responses.
      split; [by apply gmultiset_elem_of_singleton|]. split; [exact Hp|].
      rewrite (left_id_L ∅ (⊎)), gmultiset_difference_diag. exact eq_refl. }
    apply run_one. right; left. exists (mkXReply o n). split; [exact eq_refl|].
    unfold API.tokens, Tokens.requests, Tokens.replies, Tokens.disk_requests, Tokens.disk_responses.
    split; [by apply gmultiset_elem_of_singleton|]. rewrite gmultiset_difference_diag. exact eq_refl.
  Qed.
  (** A sync request is accepted. *)
  Lemma accept (p : PState) n d : AtomicState.client_ready p →
    run nx (taken p n d XSync) [API.Step (Tokens.RequestSyncOp n)]
      (st (AtomicState.mkState (AtomicState.recovery_state p) (AtomicState.history p) (AtomicState.persistent_version p)
             (AtomicState.in_flight p) (<[n := fs_len (AtomicState.history p) - 1]> (AtomicState.sync_req_map p)))
         (n + 1)%N d).
  Proof.
    intros Hr. apply run_one. do 2 right; left. eexists (Tokens.RequestSyncOp n), (Tokens.mkState _ ∅ ∅ ∅ ∅).
    split; [exact eq_refl|]. split; [|split; [by intros ?? [=]|exact eq_refl]].
    eexists. do 3 right; left. exists n. split; [exact eq_refl|].
    unfold API.tokens, Tokens.requests, Tokens.replies, Tokens.disk_requests, Tokens.disk_responses.
    split; [by apply gmultiset_elem_of_singleton|]. split; [exact (conj Hr eq_refl)|].
    rewrite gmultiset_difference_diag. exact eq_refl.
  Qed.
  (** Syncs are acknowledged. *)
  Definition acked (p : PState) (ids : list ID) : PState :=
    AtomicState.mkState (AtomicState.recovery_state p) (AtomicState.history p) (AtomicState.persistent_version p)
      (AtomicState.in_flight p) (foldr delete (AtomicState.sync_req_map p) ids).
  Definition ack_moves (ids : list ID) : list API.Label :=
    concat ((λ id, [API.Step (Tokens.ReplySyncOp id); API.SendReply (mkXReply XSyncOutput id)]) <$> ids).
  Lemma acknowledge ids : ∀ (p : PState) n d, AtomicState.client_ready p → NoDup ids →
    (∀ id, id ∈ ids → ∃ v, AtomicState.sync_req_map p !! id = Some v ∧ v ≤ fs_start (AtomicState.history p)) →
    run nx (st p n d) (ack_moves ids) (st (acked p ids) n d).
  Proof.
    induction ids as [|id ids IH] using rev_ind; intros p n d Hr Hnd Hids.
    - destruct p. constructor.
    - unfold ack_moves. rewrite fmap_app, concat_app.
      apply NoDup_app in Hnd as (Hnd&Hni&_).
      eapply run_app. { apply IH; [done|done|]. intros id' Hid'. apply Hids. apply elem_of_app. by left. }
      cbn [fmap list_fmap concat app].
      destruct (Hids id) as (v&Hm&Hv); [apply elem_of_app; right; by apply elem_of_list_singleton|].
      assert (Hm' : AtomicState.sync_req_map (acked p ids) !! id = Some v).
      { cbn. rewrite lookup_foldr_delete_not_elem_of; [done|]. intros Hin. apply (Hni _ Hin). by apply elem_of_list_singleton. }
      apply (run_cons _ _ _ (API.mkState (Tokens.mkState (acked p (ids ++ [id])) ∅ {[+ mkXReply XSyncOutput id +]} ∅ ∅) None n d)).
      { do 2 right; left. exists (Tokens.ReplySyncOp id), (Tokens.mkState (acked p (ids ++ [id])) ∅ {[+ mkXReply XSyncOutput id +]} ∅ ∅).
        split; [exact eq_refl|]. split; [|split; [by intros ?? [=]|exact eq_refl]].
        exists (acked p (ids ++ [id])). do 4 right. exists id. split; [exact eq_refl|]. split.
        - split; [by eexists|]. split; [exact Hr|]. split.
          + intros v'. cbn in Hm' |- *. rewrite Hm'. intros [= <-]. exact Hv.
          + unfold acked. cbn. f_equal. rewrite foldr_app. cbn. apply foldr_delete_comm.
        - unfold API.tokens, Tokens.requests, Tokens.replies, Tokens.disk_requests, Tokens.disk_responses.
          rewrite (left_id_L ∅ (⊎)). exact eq_refl. }
      apply run_one. right; left. exists (mkXReply XSyncOutput id). split; [exact eq_refl|].
      unfold API.tokens, Tokens.requests, Tokens.replies, Tokens.disk_requests, Tokens.disk_responses.
      split; [by apply gmultiset_elem_of_singleton|]. rewrite gmultiset_difference_diag. exact eq_refl.
  Qed.
  Definition born : PState := AtomicState.mkState AtomicState.Begin (mkFS 0 []) 0 None ∅.
  Lemma fail (m : API.State PState) :
    run nx m [API.Crash] (st born (if kp then API.counter m else 0%N)
                            (AsyncDisk.mkState ∅ ∅ (AsyncDisk.content (API.disk m)))).
  Proof.
    apply run_one. do 7 right. exists (Tokens.mkState born ∅ ∅ ∅ ∅), (AsyncDisk.mkState ∅ ∅ (AsyncDisk.content (API.disk m))).
    split; [exact eq_refl|]. split; [split; exact eq_refl|]. split; [split; exact eq_refl|]. exact eq_refl.
  Qed.
  Lemma seen_acks ids : concat (seen_api <$> ack_moves ids) = Gave <$> ((λ id, mkXReply XSyncOutput id) <$> ids).
  Proof. unfold ack_moves. induction ids as [|id ids IH]; [done|]. cbn. f_equal. exact IH. Qed.
End moves.

(** ** The simulation *)
Section serve.
  Context `{HG : Geometry} `{HC : Codec} `{HD : Decoder} (Hdec : decodes_superblocks) (kp : bool).
  Notation PM := Concrete.model_fixed.
  Notation cfg := (API.mkConfig true true kp).
  Notation nx := (API.next PM cfg).
  Notation st p n d := (API.mkState (Tokens.mkState p ∅ ∅ ∅ ∅) None n d).
  Notation PState := AtomicState.State.
  Notation jn h := (mkJournal h 0).
  Notation V h := (floating_versions stamped_empty (journal_view (jn h)) 0).
  Notation waiting im := (satisfied_reqs im ++ deferred_reqs im).

  (** The encoding keeps this journal and its earlier states. *)
  Definition good (h : list KeyedMessage) : Prop :=
    ∀ g, g `prefix_of` h → unmarshall_journal (marshall (jn g)) = Some (jn g).
  Definition kept (h : list KeyedMessage) : Prop := defs h ∧ good h.
  Lemma good_prefix h g : good h → g `prefix_of` h → good g.
  Proof. intros Hg Hp g' Hg'. apply Hg. by etrans. Qed.
  Lemma decode_jn h : good h → unmarshall (marshall (jn h)) = mkSB (vm h) (length h).
  Proof.
    intros Hg. rewrite (Hdec _ (jn h)) by by apply Hg. rewrite <- (sb_version_jn h). unfold vm. by destruct (superblock_view (jn h)).
  Qed.

  (** What holds of a server in its main loop, apart from what is in flight. *)
  Record steady (im : Impl) (n : ID) (p : PState) (h : list KeyedMessage) : Prop := mk_steady {
    y_journal : journal im = jn h;
    y_defs : defs h;
    y_rec : AtomicState.client_ready p;
    y_hist : AtomicState.history p = fs_get_suffix (V h) (AtomicState.persistent_version p);
    y_pv : AtomicState.persistent_version p ≤ length h;
    y_sync : ∀ r, r ∈ waiting im → xreq_input r = XSync;
    y_ids : NoDup (xreq_id <$> waiting im);
    y_lt : ∀ id, id ∈ (xreq_id <$> waiting im) → (id < n)%N;
    y_map : ∀ id, is_Some (AtomicState.sync_req_map p !! id) ↔ id ∈ (xreq_id <$> waiting im);
    y_ver : ∀ id v, AtomicState.sync_req_map p !! id = Some v → v ≤ length h }.
  Definition idle (d : AsyncDisk.State) : Prop := AsyncDisk.requests d = ∅ ∧ AsyncDisk.responses d = ∅.
  Definition flying (im : Impl) (n : ID) (d : AsyncDisk.State) (p : PState) (h dh : list KeyedMessage) : Prop :=
    satisfied_reqs im ≠ [] ∧ ∃ wid hp, AtomicState.in_flight p = Some (AtomicState.mkInflight (length hp) wid) ∧
      hp `prefix_of` h ∧ AtomicState.persistent_version p ≤ length hp ∧ (wid < n)%N ∧
      (∀ r v, r ∈ satisfied_reqs im → AtomicState.sync_req_map p !! xreq_id r = Some v → v ≤ length hp) ∧
      ((AsyncDisk.requests d = {[wid := WriteReq superblock_addr (marshall (jn hp))]} ∧ AsyncDisk.responses d = ∅ ∧
          length dh = AtomicState.persistent_version p) ∨
       (AsyncDisk.requests d = ∅ ∧ AsyncDisk.responses d = {[wid := WriteResp]} ∧ dh = hp)).
  Definition ready (im : Impl) (n : ID) (d : AsyncDisk.State) (p : PState) (dh : list KeyedMessage) : Prop :=
    ∃ h, steady im n p h ∧ good h ∧ dh `prefix_of` h ∧
      ((satisfied_reqs im = [] ∧ deferred_reqs im = [] ∧ AtomicState.in_flight p = None ∧ idle d ∧
          length dh = AtomicState.persistent_version p) ∨ flying im n d p h dh).
  Definition sim (s : Exec.State) (p : PState) : Prop :=
    let d := Exec.disk s in let n := Exec.next_id s in
    ∃ dh, AsyncDisk.content d !! superblock_addr = Some (marshall (jn dh)) ∧ kept dh ∧
    match Exec.proc s with
    | Exec.Starting => AtomicState.recovery_state p = AtomicState.Begin ∧ idle d
    | Exec.Recovering => AtomicState.recovery_state p = AtomicState.AwaitingSuperblock ∧
        ∃ rid, (AsyncDisk.requests d = {[rid := ReadReq superblock_addr]} ∧ AsyncDisk.responses d = ∅) ∨
               (AsyncDisk.requests d = ∅ ∧ AsyncDisk.responses d = {[rid := ReadResp (marshall (jn dh))]})
    | Exec.Ready im => ready im n d p dh
    | Exec.Panicked => False
    end.

  Lemma len_last p h im n : steady im n p h →
    fs_len (AtomicState.history p) = length h + 1 ∧ fs_last (AtomicState.history p) = Some (vm h) ∧
    fs_start (AtomicState.history p) = AtomicState.persistent_version p.
  Proof.
    intros Hy. rewrite (y_hist _ _ _ _ Hy). split; [apply suffix_len, (y_pv _ _ _ _ Hy)|].
    split; [apply last_in_suffix, (y_pv _ _ _ _ Hy)|done].
  Qed.

  (** Writing the superblock, if somebody waits and nothing is in flight. *)
  Lemma launch im n p h d im' dr d' dh : steady im n p h → good h → satisfied_reqs im = [] →
    AtomicState.in_flight p = None → idle d →
    AsyncDisk.content d !! superblock_addr = Some (marshall (jn dh)) →
    dh `prefix_of` h → length dh = AtomicState.persistent_version p →
    maybe_launch_superblock im = (im', dr) →
    AsyncDisk.disk_ops d d' (AsyncDisk.DiskOps (Exec.numbered n dr) ∅) →
    ∃ als p', run nx (st p n d) als (st p' (n + Exec.used dr)%N d') ∧ concat (seen_api <$> als) = [] ∧
      ready im' (n + Exec.used dr)%N d' p' dh ∧
      AsyncDisk.content d' !! superblock_addr = Some (marshall (jn dh)).
  Proof.
    intros Hy Hg Hs Hf [Hq Hr] Hc Hdh Hdl Hl Hd. assert (Hd' := Hd). apply disk_ops_inv in Hd' as (_&_&_&->).
    unfold maybe_launch_superblock in Hl. destruct (deferred_reqs im) as [|r0 rs] eqn:Hdef.
    - injection Hl as <- <-. exists [], p. cbn [Exec.numbered Exec.used]. rewrite N.add_0_r.
      rewrite (left_id_L ∅ (∪)), map_difference_empty. split; [destruct d; constructor|]. split; [done|]. split; [|done].
      exists h. split; [done|]. split; [done|]. split; [done|]. left. done.
    - rewrite Hs in Hl. unfold send_superblock in Hl. injection Hl as <- <-.
      destruct (len_last _ _ _ _ Hy) as (Hlen&Hlast&Hst).
      eexists _, (AtomicState.mkState (AtomicState.recovery_state p) (AtomicState.history p) (AtomicState.persistent_version p)
        (Some (AtomicState.mkInflight (length h) n)) (AtomicState.sync_req_map p)).
      cbn [Exec.used]. split; [|split; [|split]].
      + eapply ask; [|exact Hd]. cbn [pm_next PM Concrete.next_fixed Concrete.next info_reqs info_resps].
        right; right; left. exists n, (mkSB (vm h) (length h)), (marshall (journal im)).
        split; [|split; [|split; [exact (y_rec _ _ _ _ Hy)|split; [done|split; [done|split; [done|done]]]]]].
        * unfold AtomicState.ephemeral_sb, AtomicState.sb_at. rewrite Hlen.
          unfold fs_last in Hlast. rewrite Hlen in Hlast. rewrite Hlast. cbn. do 2 f_equal. lia.
        * unfold marshalled. rewrite (y_journal _ _ _ _ Hy). by apply decode_jn.
      + done.
      + exists h. split.
        * destruct Hy. split; try done; cbn; rewrite ?Hdef, ?Hs, ?app_nil_r in *; try done.
          intros id Hin. specialize (y_lt0 id Hin). lia.
        * split; [done|]. split; [done|]. right. split; [cbn; by rewrite Hdef|]. exists n, h. cbn. split; [done|]. split; [done|].
          split; [exact (y_pv _ _ _ _ Hy)|]. split; [lia|]. split; [intros r v _; apply (y_ver _ _ _ _ Hy)|].
          left. rewrite Hq, Hr, (y_journal _ _ _ _ Hy). by rewrite (right_id_L ∅ (∪)), map_difference_empty.
      + done.
  Qed.

  (** A request other than a sync. *)
  Lemma operate im n p h input im' outs dr : steady im n p h → input ≠ XSync →
    handle_user_request (repaired kp) im (mkXReq input n) = (im', outs, dr) →
    ∃ o p' h', outs = [mkXReply o n] ∧ o ≠ XSyncOutput ∧ dr = None ∧
      pm_next PM p p' (UserIO (Execute (mapspec_req (mkXReq input n)) (mapspec_reply (mkXReply o n)))) ∧
      steady im' (n + 1)%N p' h' ∧ h `prefix_of` h' ∧ satisfied_reqs im' = satisfied_reqs im ∧
      deferred_reqs im' = deferred_reqs im ∧ AtomicState.in_flight p' = AtomicState.in_flight p ∧
      AtomicState.persistent_version p' = AtomicState.persistent_version p ∧
      AtomicState.sync_req_map p' = AtomicState.sync_req_map p.
  Proof.
    intros Hy Hi Hh. destruct (len_last _ _ _ _ Hy) as (Hlen&Hlast&Hst).
    assert (Hlt : ∀ id, id ∈ (xreq_id <$> waiting im) → (id < n + 1)%N).
    { intros id Hin. apply (y_lt _ _ _ _ Hy) in Hin. lia. }
    assert (Hsame : fs_get_prefix (AtomicState.history p) (fs_len (AtomicState.history p)) = AtomicState.history p).
    { unfold fs_get_prefix. assert (AtomicState.persistent_version p ≤ length h) by apply (y_pv _ _ _ _ Hy).
      rewrite decide_False by (rewrite Hlen, Hst; lia). destruct (AtomicState.history p) as [x es]. cbn. f_equal.
      apply take_ge. unfold fs_len. cbn. lia. }
    assert (Hstay : ∀ o, AtomicState.valid_request_reply_pair (mapspec_req (mkXReq input n)) (mapspec_reply (mkXReply o n)) →
      MapSpec.next (vm h) (vm h) (AtomicState.to_map_label (mapspec_req (mkXReq input n)) (mapspec_reply (mkXReply o n))) →
      pm_next PM p p (UserIO (Execute (mapspec_req (mkXReq input n)) (mapspec_reply (mkXReply o n))))).
    { intros o Hv Hn. exists (AtomicState.history p), (vm h), (vm h). unfold AtomicState.mapspec.
      split; [exact (y_rec _ _ _ _ Hy)|]. split; [lia|]. split; [done|]. split; [done|]. split; [done|].
      split; [done|]. split; [done|]. by destruct p. }
    destruct input as [k|k v| |]; cbn [handle_user_request xreq_input] in Hh.
    - unfold handle_query in Hh. cbn [answers repaired] in Hh. injection Hh as <- <- <-.
      eexists _, p, h. split; [done|]. split; [done|]. split; [done|]. split.
      { apply Hstay; [done|]. left. eexists _, _. split; [done|]. split; [|done].
        rewrite (vm_get _ _ (y_defs _ _ _ _ Hy)). cbn. by rewrite (y_journal _ _ _ _ Hy). }
      split; [|done]. destruct Hy; by split.
    - unfold handle_put in Hh. injection Hh as <- <- <-. set (h' := h ++ [mkKM k (Define v)]).
      set (H' := fs_append (AtomicState.history p) [vm h']).
      exists XPutOutput, (AtomicState.mkState (AtomicState.recovery_state p) H' (AtomicState.persistent_version p)
        (AtomicState.in_flight p) (AtomicState.sync_req_map p)), h'.
      split; [done|]. split; [done|]. split; [done|]. split.
      { exists H', (vm h), (vm h'). unfold AtomicState.mapspec.
        split; [exact (y_rec _ _ _ _ Hy)|]. split; [unfold H'; rewrite fs_append_len; cbn [length]; lia|].
        split. { assert (fs_drop_last H' = AtomicState.history p) as HH.
                 { destruct (fs_drop_last_append (AtomicState.history p) (vm h')) as [HH|He]; [done|].
                   unfold fs_len in Hlen. rewrite He in Hlen.
                   pose proof (y_pv _ _ _ _ Hy). cbn in Hlen. lia. }
                 unfold fs_drop_last in HH. unfold H' in HH at 2. rewrite fs_append_len in HH. cbn [length] in HH.
                 by replace (fs_len (AtomicState.history p) + 1 - 1) with (fs_len (AtomicState.history p)) in HH by lia. }
        split; [done|]. split; [done|]. split; [apply fs_last_append|]. split; [|done].
        right; left. exists k, v. split; [done|]. apply vm_snoc. }
      split; [|split; [by apply prefix_app_r|done]].
      pose proof (y_pv _ _ _ _ Hy) as Hpv. pose proof (y_hist _ _ _ _ Hy) as Hhist. pose proof (y_ver _ _ _ _ Hy) as Hver.
      destruct Hy. split; try done; cbn.
      + by rewrite y_journal0.
      + by apply defs_snoc.
      + unfold H', h'. rewrite suffix_snoc by done. by rewrite Hhist.
      + unfold h'. rewrite app_length. lia.
      + unfold h'. rewrite app_length. intros id v' Hv. apply Hver in Hv. lia.
    - done.
    - unfold handle_noop in Hh. injection Hh as <- <- <-.
      eexists _, p, h. split; [done|]. split; [done|]. split; [done|]. split.
      { apply Hstay; [done|]. right; right. done. }
      split; [|done]. destruct Hy; by split.
  Qed.

  Definition simulates (s : Exec.State) (p : PState) (s' : Exec.State) (l : Exec.Label) : Prop :=
    ∃ als p', run nx (st p (Exec.next_id s) (Exec.disk s)) als (st p' (Exec.next_id s') (Exec.disk s')) ∧
      concat (seen_api <$> als) = seen_exec l ∧ sim s' p'.

  Lemma disk_nothing (d d' : AsyncDisk.State) n :
    AsyncDisk.disk_ops d d' (AsyncDisk.DiskOps (Exec.numbered n None) ∅) → d' = d.
  Proof.
    intros Hd. apply disk_ops_inv in Hd as (_&_&_&->). cbn [Exec.numbered].
    rewrite (left_id_L ∅ (∪)), map_difference_empty. by destruct d.
  Qed.

  Lemma sim_boot s p s' l : sim s p → Exec.boot s s' l → simulates s p s' l.
  Proof.
    intros (dh&Hc&Hdf&Hp) (->&Hproc&d&Hd&->). rewrite Hproc in Hp. destruct Hp as (Hb&Hq&Hr).
    eexists _, _. cbn [Exec.next_id Exec.disk]. split; [|split].
    - eapply ask; [|exact Hd]. cbn [pm_next PM Concrete.next_fixed Concrete.next info_reqs info_resps].
      left. exists (Exec.next_id s). split; [exact Hb|]. split; [reflexivity|]. split; [reflexivity|]. reflexivity.
    - done.
    - apply disk_ops_inv in Hd as (_&_&_&->). exists dh. cbn. split; [done|]. split; [done|]. split; [done|].
      exists (Exec.next_id s). left. rewrite Hq, Hr. by rewrite map_union_empty, map_difference_empty.
  Qed.

  Lemma sim_recovered s p s' l : sim s p → Exec.recovered (repaired kp) s s' l → simulates s p s' l.
  Proof.
    intros (dh&Hc&Hdf&Hp) (Hproc&id&resp&d&Hd&Hl). rewrite Hproc in Hp. destruct Hp as (Hb&rid&Hp).
    assert (Hd' := Hd). apply disk_ops_inv in Hd' as (_&_&Hsub%singleton_sub&Hd').
    destruct Hp as [[_ Hr]|[Hq Hr]]; rewrite Hr in Hsub; [done|].
    apply lookup_singleton_Some in Hsub as [<- <-]. cbn [recover_response repaired restores] in Hl.
    destruct Hdf as [Hdf Hg]. rewrite (Hg dh) in Hl by done. destruct Hl as [-> ->].
    eexists _, _. cbn [Exec.next_id Exec.disk]. split; [|split].
    - eapply answer; [|exact Hd]. cbn [pm_next PM Concrete.next_fixed Concrete.next info_reqs info_resps].
      right; left. exists rid, (marshall (jn dh)). split; [exact Hb|]. split; [reflexivity|]. split; [reflexivity|]. reflexivity.
    - done.
    - subst d. exists dh. cbn [Exec.disk Exec.proc Exec.next_id AsyncDisk.content]. split; [done|]. split; [done|].
      rewrite decode_jn by done. cbn [sb_version sb_store]. rewrite singleton_seq_eq.
      exists dh. split.
      + split; cbn; try done.
        * by rewrite V_end.
        * by intros r ?%elem_of_nil.
        * apply NoDup_nil_2.
        * by intros id ?%elem_of_nil.
        * intros id. split; [by intros [??]|by intros ?%elem_of_nil].
      + split; [done|]. split; [done|]. left. split; [done|]. split; [done|]. split; [done|]. split; [|done].
        split; cbn [AsyncDisk.requests AsyncDisk.responses]; [by rewrite map_empty_union|].
        rewrite Hr. apply map_difference_diag.
  Qed.

  Lemma sim_crash (m : API.State PState) n d dh : API.counter m = n → API.disk m = d →
    AsyncDisk.content d !! superblock_addr = Some (marshall (jn dh)) → kept dh →
    let s' := Exec.after_crash (repaired kp) n d in
    ∃ p', run nx m [API.Crash] (st p' (Exec.next_id s') (Exec.disk s')) ∧ sim s' p'.
  Proof.
    intros <- <- Hc Hdf s'. exists born. split; [apply fail|]. exists dh. by split_and!.
  Qed.

  (** After a sync request was accepted, and before anything is written. *)
  Definition syncing (p : PState) (n : ID) : PState :=
    AtomicState.mkState (AtomicState.recovery_state p) (AtomicState.history p) (AtomicState.persistent_version p)
      (AtomicState.in_flight p) (<[n := fs_len (AtomicState.history p) - 1]> (AtomicState.sync_req_map p)).
  Lemma steady_sync im n p h : steady im n p h →
    steady (mkImpl (journal im) (satisfied_reqs im) (deferred_reqs im ++ [mkXReq XSync n])) (n + 1)%N (syncing p n) h.
  Proof.
    intros Hy. destruct (len_last _ _ _ _ Hy) as (Hlen&_&_). destruct Hy. split; try done; cbn [satisfied_reqs deferred_reqs].
    - intros r [Hin|[Hin|Hin]%elem_of_app]%elem_of_app.
      + apply y_sync0, elem_of_app. by left.
      + apply y_sync0, elem_of_app. by right.
      + by apply elem_of_list_singleton in Hin as ->.
    - rewrite (assoc_L (++)), fmap_app. apply NoDup_app. split; [done|]. split; [|apply NoDup_singleton].
      intros id Hid%y_lt0 Hin. apply elem_of_list_singleton in Hin. cbn in Hin. lia.
    - intros id. rewrite (assoc_L (++)), fmap_app. intros [Hid%y_lt0|Hin]%elem_of_app; [lia|].
      apply elem_of_list_singleton in Hin. cbn in Hin. lia.
    - intros id. rewrite (assoc_L (++)), fmap_app, elem_of_app. cbn [fmap list_fmap xreq_id].
      rewrite elem_of_list_singleton, <- y_map0. cbn [syncing AtomicState.sync_req_map].
      destruct (decide (id = n)) as [->|Hne]; [rewrite lookup_insert; split; [by right|by eexists]|].
      rewrite lookup_insert_ne by done. split; [by left|]. by intros [?|?].
    - intros id v. cbn [syncing AtomicState.sync_req_map].
      destruct (decide (id = n)) as [->|Hne]; [rewrite lookup_insert; intros [= <-]; lia|].
      rewrite lookup_insert_ne by done. apply y_ver0.
  Qed.

  Lemma sim_recv s p s' l : (∀ im, Exec.proc s' = Exec.Ready im → good (j_history (journal im))) →
    sim s p → Exec.recv (repaired kp) s s' l → simulates s p s' l.
  Proof.
    intros Hnew (dh&Hc&Hdf&Hp) (im&input&im'&outs&dr&d&Hproc&Hh&Hd&->&->). rewrite Hproc in Hp.
    destruct Hp as (h&Hy&Hg&Hdh&Hfl). specialize (Hnew _ eq_refl). unfold simulates, sim. cbn [Exec.next_id Exec.disk Exec.proc].
    destruct (decide (input = XSync)) as [->|Hi].
    - cbn [handle_user_request xreq_input] in Hh. unfold handle_sync_request in Hh.
      destruct (maybe_launch_superblock _) as [im1 dr1] eqn:Hl. injection Hh as <- <- <-.
      assert (Hgo : run nx (st p (Exec.next_id s) (Exec.disk s))
        ([API.Receive (mkXReq XSync (Exec.next_id s))] ++ [API.Step (Tokens.RequestSyncOp (Exec.next_id s))])
        (st (syncing p (Exec.next_id s)) (Exec.next_id s + 1)%N (Exec.disk s))).
      { eapply run_app; [apply take_req|]. apply accept, Hy. }
      apply steady_sync in Hy as Hy'. destruct Hfl as [(Hs&Hdef&Hf&Hid&Hdl)|Hfl].
      + destruct (launch _ _ _ _ _ _ _ _ dh Hy' Hg Hs Hf Hid Hc Hdh Hdl Hl Hd) as (als&p'&Hr&Hse&Hre&Hc').
        eexists _, p'. split; [eapply run_app; [exact Hgo|exact Hr]|]. split.
        { rewrite fmap_app, concat_app, Hse. done. }
        by exists dh.
      + assert (Hn0 : satisfied_reqs im ≠ []) by apply Hfl.
        unfold maybe_launch_superblock in Hl. cbn [deferred_reqs satisfied_reqs] in Hl.
        destruct (deferred_reqs im ++ [mkXReq XSync (Exec.next_id s)]) as [|r0 rs] eqn:Happ;
          [by apply app_eq_nil in Happ as [_ ?]|]. rewrite <- Happ in *. clear Happ.
        destruct (satisfied_reqs im) as [|r1 rs1] eqn:Hs; [done|]. injection Hl as <- <-.
        apply disk_nothing in Hd as ->. cbn [Exec.used]. rewrite N.add_0_r.
        eexists _, _. split; [exact Hgo|]. split; [done|]. exists dh. split; [done|]. split; [done|].
        exists h. split; [done|]. split; [done|]. split; [done|]. right. destruct Hfl as (_&wid&hp&Hf&Hpre&Hpv&Hw&Hv&Hio).
        split; [done|]. exists wid, hp. split; [done|]. split; [done|]. split; [done|]. split; [lia|]. split; [|done].
        intros r v Hin Hm. cbn [satisfied_reqs syncing AtomicState.sync_req_map] in *. rewrite <- Hs in *.
        assert (Hlt : (xreq_id r < Exec.next_id s)%N).
        { apply (y_lt _ _ _ _ Hy). apply elem_of_list_fmap_1, elem_of_app. by left. }
        rewrite lookup_insert_ne in Hm by lia. by eapply Hv.
    - destruct (operate _ _ _ _ _ _ _ _ Hy Hi Hh) as (o&p'&h'&->&Ho&->&Hpm&Hy'&Hpre&Hs&Hdef&Hf&Hpv&Hsm).
      apply disk_nothing in Hd as ->. cbn [Exec.used]. rewrite N.add_0_r.
      eexists _, p'. split; [eapply run_app; [apply take_req|by apply perform]|]. split; [done|].
      exists dh. split; [done|]. split; [done|]. exists h'. split; [done|].
      split; [by rewrite (y_journal _ _ _ _ Hy') in Hnew|]. split; [by etrans|]. rewrite Hs, Hdef, Hf, Hpv.
      destruct Hfl as [Hfl|Hfl]; [by left|right]. unfold flying in *. rewrite Hs, Hf, Hpv, Hsm.
      destruct Hfl as (Hn0&wid&hp&?&?&?&?&?&?). split; [done|]. exists wid, hp. split; [done|]. split; [by etrans|].
      split; [done|]. split; [lia|]. done.
  Qed.

  Lemma sim_recv_cut s p s' l : sim s p → Exec.recv_cut (repaired kp) s s' l → simulates s p s' l.
  Proof.
    intros (dh&Hc&Hdf&Hp) (im&input&im'&outs&dr&n&Hproc&Hh&->&->). rewrite Hproc in Hp.
    destruct Hp as (h&Hy&Hg&Hdh&Hfl). unfold simulates.
    destruct (decide (take n outs = [])) as [He|He].
    - rewrite He.
      destruct (sim_crash (API.mkState (Tokens.mkState p {[+ mkXReq input (Exec.next_id s) +]} ∅ ∅ ∅) None (Exec.next_id s + 1)%N (Exec.disk s))
        _ _ dh eq_refl eq_refl Hc Hdf) as (p'&Hr&Hs).
      eexists _, p'. split; [eapply run_app; [apply take_req|exact Hr]|]. done.
    - destruct (decide (input = XSync)) as [->|Hi].
      { destruct (handle_sync _ _ _ _ _ _ Hh) as (->&_). by rewrite take_nil in He. }
      destruct (operate _ _ _ _ _ _ _ _ Hy Hi Hh) as (o&p1&h'&->&Ho&->&Hpm&_).
      destruct n as [|n]; [done|]. cbn [take] in *. rewrite take_nil in *.
      destruct (sim_crash (st p1 (Exec.next_id s + 1)%N (Exec.disk s)) _ _ dh eq_refl eq_refl Hc Hdf) as (p'&Hr&Hs).
      eexists _, p'. split; [eapply run_app; [apply take_req|eapply run_app; [by apply perform|exact Hr]]|]. done.
  Qed.

  (** The acknowledgement of a write: the response is taken, the syncs it settles
      are acknowledged, the last of them first. *)
  Definition landed (p : PState) (info : AtomicState.InflightInfo) : PState :=
    AtomicState.mkState AtomicState.RecoveryComplete (fs_get_suffix (AtomicState.history p) (AtomicState.if_version info))
      (AtomicState.if_version info) None (AtomicState.sync_req_map p).
  Lemma deliver_take ready k :
    take k (deliver_inflight_replies ready) = (λ id, mkXReply XSyncOutput id) <$> take k (rev (xreq_id <$> ready)).
  Proof.
    unfold deliver_inflight_replies. rewrite fmap_take. f_equal.
    change (map (λ r, mkXReply XSyncOutput (xreq_id r)) (rev ready) = map (mkXReply XSyncOutput) (rev (map xreq_id ready))).
    by rewrite <- map_rev, map_map.
  Qed.
  Lemma settle im n p d h dh id resp d' k : steady im n p h → flying im n d p h dh →
    AsyncDisk.disk_ops d d' (AsyncDisk.DiskOps ∅ {[id := resp]}) →
    let ids := take k (rev (xreq_id <$> satisfied_reqs im)) in
    ∃ als, run nx (st p n d) als (st (acked (landed p (AtomicState.mkInflight (length dh) id)) ids) n d') ∧
      concat (seen_api <$> als) = Gave <$> take k (deliver_inflight_replies (satisfied_reqs im)) ∧
      idle d' ∧ AsyncDisk.content d' = AsyncDisk.content d ∧ dh `prefix_of` h ∧ AtomicState.persistent_version p ≤ length dh.
  Proof.
    intros Hy (Hn0&wid&hp&Hf&Hpre&Hpv&Hw&Hv&Hio) Hd ids.
    assert (Hd' := Hd). apply disk_ops_inv in Hd' as (_&_&Hsub%singleton_sub&->).
    destruct Hio as [(_&Hr&_)|(Hq&Hr&->)]; rewrite Hr in Hsub; [done|].
    apply lookup_singleton_Some in Hsub as [<- <-].
    assert (Hnd : NoDup ids).
    { unfold ids. assert (Hnd := y_ids _ _ _ _ Hy). rewrite fmap_app in Hnd. apply NoDup_app in Hnd as (Hnd&_).
      rewrite (Permutation_rev (_ <$> _)) in Hnd. rewrite <- (take_drop k) in Hnd. by apply NoDup_app in Hnd as (?&_). }
    eexists _. split; [|split; [|split; [|split; [done|split; [done|done]]]]].
    - eapply run_app.
      + eapply answer; [|exact Hd]. instantiate (1 := landed p (AtomicState.mkInflight (length hp) wid)).
        cbn [pm_next PM Concrete.next_fixed Concrete.next info_reqs info_resps]. do 3 right.
        eexists. split; [exact (y_rec _ _ _ _ Hy)|]. split; [exact Hf|]. split; [reflexivity|]. split; reflexivity.
      + apply acknowledge; [reflexivity|exact Hnd|].
        intros id Hid. unfold ids in Hid. apply prefix_take_in in Hid.
        rewrite elem_of_list_In, <- in_rev, <- elem_of_list_In in Hid.
        assert (is_Some (AtomicState.sync_req_map p !! id)) as [v Hm].
        { apply (y_map _ _ _ _ Hy). rewrite fmap_app. apply elem_of_app. by left. }
        exists v. split; [exact Hm|]. cbn. apply elem_of_list_fmap in Hid as (r&->&Hin). by eapply Hv.
    - rewrite fmap_app, concat_app, seen_acks, deliver_take. done.
    - split; cbn [AsyncDisk.requests AsyncDisk.responses]; [by rewrite map_empty_union|]. rewrite Hr. apply map_difference_diag.
  Qed.

  Lemma lookup_foldr_deleted (m : gmap ID nat) ids id :
    is_Some (foldr delete m ids !! id) ↔ is_Some (m !! id) ∧ id ∉ ids.
  Proof.
    induction ids as [|i ids IH]; cbn.
    - split; [intros ?; split; [done|apply not_elem_of_nil]|by intros [? _]].
    - rewrite not_elem_of_cons. destruct (decide (i = id)) as [->|Hne].
      + rewrite lookup_delete. split; [by intros [??]|by intros (_&?&_)].
      + rewrite lookup_delete_ne by done. rewrite IH. split; [by intros [??]|by intros (?&?&?)].
  Qed.
  Lemma lookup_foldr_kept (m : gmap ID nat) ids id v : foldr delete m ids !! id = Some v → m !! id = Some v.
  Proof.
    induction ids as [|i ids IH]; cbn; [done|]. intros Hm. apply IH.
    by apply lookup_delete_Some in Hm as [_ ?].
  Qed.
  Lemma steady_settled im n p h hp wid : steady im n p h → hp `prefix_of` h →
    AtomicState.persistent_version p ≤ length hp →
    steady (mkImpl (journal im) [] (deferred_reqs im)) n
      (acked (landed p (AtomicState.mkInflight (length hp) wid)) (rev (xreq_id <$> satisfied_reqs im))) h.
  Proof.
    intros Hy Hpre Hpv. apply prefix_length in Hpre as Hle. destruct Hy. split; try done; cbn [satisfied_reqs deferred_reqs app].
    - cbn. rewrite y_hist0. apply suffix_suffix. cbn. lia.
    - intros r Hin. apply y_sync0, elem_of_app. by right.
    - rewrite fmap_app in y_ids0. by apply NoDup_app in y_ids0 as (_&_&?).
    - intros id Hin. apply y_lt0. rewrite fmap_app. apply elem_of_app. by right.
    - intros id. cbn [acked landed AtomicState.sync_req_map]. rewrite lookup_foldr_deleted, y_map0, fmap_app, elem_of_app.
      rewrite (elem_of_list_In (rev _)), <- in_rev, <- elem_of_list_In.
      rewrite fmap_app in y_ids0. apply NoDup_app in y_ids0 as (_&Hdis&_).
      split; [by intros [[?|?] ?]|]. intros Hin. split; [by right|]. intros Hin'. by apply (Hdis id).
    - intros id v Hm%lookup_foldr_kept. by eapply y_ver0.
  Qed.
  (** A response and a request in one go, as the response and then the request. *)
  Lemma disk_split (d d' : AsyncDisk.State) reqs resps :
    AsyncDisk.disk_ops d d' (AsyncDisk.DiskOps reqs resps) →
    ∃ d1, AsyncDisk.disk_ops d d1 (AsyncDisk.DiskOps ∅ resps) ∧ AsyncDisk.disk_ops d1 d' (AsyncDisk.DiskOps reqs ∅).
  Proof.
    intros Hd. apply disk_ops_inv in Hd as (Hq&Hr&Hsub&->).
    exists (AsyncDisk.mkState (∅ ∪ AsyncDisk.requests d) (AsyncDisk.responses d ∖ resps) (AsyncDisk.content d)). split.
    - exists ∅, resps. rewrite dom_empty_L. split; [done|]. split; [set_solver|]. split; [set_solver|]. by split.
    - exists reqs, ∅. cbn [AsyncDisk.requests AsyncDisk.responses AsyncDisk.content].
      rewrite map_empty_union, map_difference_empty. split; [done|]. split; [done|].
      split; [|split; [apply map_empty_subseteq|done]].
      rewrite dom_difference_L. set_solver.
  Qed.

  Lemma sim_done s p s' l : sim s p → Exec.done s s' l → simulates s p s' l.
  Proof.
    intros (dh&Hc&Hdf&Hp) (im&id&resp&im'&outs&dr&d&Hproc&Hh&Hd&->&->). rewrite Hproc in Hp.
    destruct Hp as (h&Hy&Hg&Hdh&Hfl). unfold simulates, sim. cbn [Exec.next_id Exec.disk Exec.proc].
    apply disk_split in Hd as (d1&Hd1&Hd2).
    destruct Hfl as [(_&_&_&(_&Hr)&_)|Hfl].
    { apply disk_ops_inv in Hd1 as (_&_&Hsub%singleton_sub&_). by rewrite Hr in Hsub. }
    unfold handle_disk_response in Hh. destruct (maybe_launch_superblock _) as [im1 dr1] eqn:Hl. injection Hh as <- <- <-.
    set (k := length (satisfied_reqs im)).
    destruct (settle _ _ _ _ _ _ _ _ _ k Hy Hfl Hd1) as (als&Hrun&Hseen&Hid&Hcd&Hpre&Hpv).
    rewrite (take_ge (rev _)) in Hrun by (rewrite rev_length, fmap_length; done).
    rewrite (take_ge (deliver_inflight_replies _)) in Hseen by (unfold deliver_inflight_replies; rewrite map_length, rev_length; done).
    pose proof (steady_settled _ _ _ _ _ id Hy Hpre Hpv) as Hy'.
    destruct (launch _ _ _ _ _ _ _ _ dh Hy' Hg eq_refl eq_refl Hid ltac:(by rewrite Hcd) Hdh eq_refl Hl Hd2) as (als2&p'&Hr2&Hs2&Hre&Hc').
    exists (als ++ als2), p'. split; [eapply run_app; [exact Hrun|exact Hr2]|]. split.
    { rewrite fmap_app, concat_app, Hseen, Hs2. by rewrite app_nil_r. }
    by exists dh.
  Qed.

  Lemma sim_done_cut s p s' l : sim s p → Exec.done_cut (repaired kp) s s' l → simulates s p s' l.
  Proof.
    intros (dh&Hc&Hdf&Hp) (im&id&resp&im'&outs&dr&k&Hproc&Hh&Hresp&->&->). rewrite Hproc in Hp.
    destruct Hp as (h&Hy&Hg&Hdh&Hfl). unfold simulates.
    destruct Hfl as [(_&_&_&(_&Hr)&_)|Hfl]; [by rewrite Hr in Hresp|].
    destruct (handle_disk _ _ _ _ _ _ Hh) as (->&_).
    assert (∃ d1, AsyncDisk.disk_ops (Exec.disk s) d1 (AsyncDisk.DiskOps ∅ {[id := resp]})) as [d1 Hd1].
    { eexists. exists ∅, {[id := resp]}. rewrite dom_empty_L. split; [done|]. split; [set_solver|]. split; [set_solver|].
      split; [by apply map_singleton_subseteq_l|done]. }
    destruct (settle _ _ _ _ _ _ _ _ _ k Hy Hfl Hd1) as (als&Hrun&Hseen&_&Hcd&_).
    destruct (sim_crash (API.mkState (Tokens.mkState (acked (landed p (AtomicState.mkInflight (length dh) id))
        (take k (rev (xreq_id <$> satisfied_reqs im)))) ∅ ∅ ∅ ∅) None (Exec.next_id s) d1)
      (Exec.next_id s) d1 dh eq_refl eq_refl ltac:(by rewrite Hcd) Hdf) as (p'&Hr&Hs).
    assert (Hsame : Exec.after_crash (repaired kp) (Exec.next_id s) d1 = Exec.after_crash (repaired kp) (Exec.next_id s) (Exec.disk s)).
    { unfold Exec.after_crash. by rewrite Hcd. }
    rewrite Hsame in Hr, Hs. exists (als ++ [API.Crash]), p'. split; [eapply run_app; [exact Hrun|exact Hr]|]. split; [|done].
    rewrite fmap_app, concat_app, Hseen. done.
  Qed.

  Lemma sim_internal s p s' l : sim s p → Exec.disk_internal s s' l → simulates s p s' l.
  Proof.
    intros (dh&Hc&Hdf&Hp) (->&d&Hd&->). exists [API.DiskInternal], p. cbn [Exec.next_id Exec.disk Exec.proc].
    split; [apply run_one; do 6 right; left; by exists d|]. split; [done|].
    unfold sim. cbn [Exec.next_id Exec.disk Exec.proc].
    destruct Hd as [(?&?&?&_)|[(id&_&from&data&Hid&Hwf&Hdata&->)|[(id&_&to&data&Hid&Hwf&->)|[? _]]]]; try done;
      destruct (Exec.proc s) as [| |im|]; try done.
    - destruct Hp as (_&Hrq&_). by rewrite Hrq in Hid.
    - destruct Hp as (Hb&rid&[[Hq Hr]|[Hq _]]); [|by rewrite Hq in Hid].
      rewrite Hq in *. apply lookup_singleton_Some in Hid as [<- [= <-]].
      exists dh. split; [done|]. split; [done|]. split; [done|]. exists rid. right.
      cbn [AsyncDisk.requests AsyncDisk.responses]. rewrite delete_singleton, Hr. split; [done|]. by rewrite (Hdata _ Hc).
    - exfalso. destruct Hp as (h&_&_&_&[(_&_&_&[Hq _]&_)|(_&wid&hp&_&_&_&_&_&[[Hq _]|[Hq _]])]); rewrite Hq in Hid; try done.
      by apply lookup_singleton_Some in Hid as [_ [=]].
    - destruct Hp as (_&Hrq&_). by rewrite Hrq in Hid.
    - destruct Hp as (Hb&rid&[[Hq Hr]|[Hq _]]); rewrite Hq in Hid; [|done].
      by apply lookup_singleton_Some in Hid as [_ [=]].
    - destruct Hp as (h&Hy&Hg&Hdh&[(_&_&_&[Hq _]&_)|(Hs0&wid&hp&Hf&Hpre&Hpv&Hw&Hv&[(Hq&Hr&_)|[Hq _]])]); [by rewrite Hq in Hid| |by rewrite Hq in Hid].
      rewrite Hq in *. apply lookup_singleton_Some in Hid as [<- [= <- <-]].
      exists hp. cbn [AsyncDisk.content]. split; [apply lookup_insert|].
      split; [split; [eapply defs_prefix; [exact (y_defs _ _ _ _ Hy)|done]|by eapply good_prefix]|].
      exists h. split; [done|]. split; [done|]. split; [done|]. right. split; [done|]. exists wid, hp. split; [done|]. split; [done|]. split; [done|].
      split; [done|]. split; [done|]. right. cbn [AsyncDisk.requests AsyncDisk.responses].
      by rewrite Hr, delete_singleton.
  Qed.

  Lemma sim_step s p s' l : (∀ im, Exec.proc s' = Exec.Ready im → good (j_history (journal im))) →
    sim s p → Exec.next (repaired kp) s s' l → simulates s p s' l.
  Proof.
    intros Hnew Hs [Hn|[Hn|[Hn|[Hn|[Hn|[Hn|[Hn|Hn]]]]]]].
    - by apply sim_boot.
    - by apply sim_recovered.
    - by apply sim_recv.
    - by apply sim_recv_cut.
    - by apply sim_done.
    - by apply sim_done_cut.
    - by apply sim_internal.
    - destruct Hn as (->&->). destruct Hs as (dh&Hc&Hdf&_).
      destruct (sim_crash (st p (Exec.next_id s) (Exec.disk s)) _ _ dh eq_refl eq_refl Hc Hdf) as (p'&Hr&Hs).
      by exists [API.Crash], p'.
  Qed.

  Lemma ready_good s0 ls s im : codec_fits ls → Exec.init s0 → run (Exec.next (repaired kp)) s0 ls s →
    Exec.proc s = Exec.Ready im → good (j_history (journal im)).
  Proof.
    intros Hf Hi Hr Hp g Hg. destruct (calm_run _ _ _ _ Hf Hi Hr) as [[_ Hc] _]. rewrite Hp in Hc. destruct Hc as [_ Hc].
    apply Hf. etrans; [|exact Hc]. destruct Hg as [k ->]. by apply sublist_inserts_r.
  Qed.
  Lemma empty_good ls : codec_fits ls → good [].
  Proof. intros Hf g [k Hk]. symmetry in Hk. apply app_eq_nil in Hk as [-> _]. apply Hf, sublist_nil_l. Qed.
  Lemma sim_run s0 ls s : codec_fits ls → Exec.init s0 → run (Exec.next (repaired kp)) s0 ls s →
    ∃ als p, run nx (st born 0%N (Exec.disk s0)) als (st p (Exec.next_id s) (Exec.disk s)) ∧
      concat (seen_api <$> als) = concat (seen_exec <$> ls) ∧ sim s p.
  Proof.
    intros Hf Hi Hr. induction Hr as [s|s ls s1 l s2 Hr IH Hn].
    - destruct Hi as (c&->&Hc). exists [], born. split; [constructor|]. split; [done|]. exists []. split; [done|].
      split; [split; [by intros ? ?%elem_of_nil|by eapply empty_good]|]. done.
    - assert (Hnew : ∀ im, Exec.proc s2 = Exec.Ready im → good (j_history (journal im))).
      { intros im. eapply ready_good; [exact Hf|exact Hi|]. by eapply run_snoc. }
      apply fits_app in Hf. destruct (IH Hf Hi) as (als&p&Hrun&Hseen&Hsim).
      destruct (sim_step _ _ _ _ Hnew Hsim Hn) as (als'&p'&Hrun'&Hseen'&Hsim').
      exists (als ++ als'), p'. split; [by eapply run_app|]. split; [|done].
      rewrite !fmap_app, !concat_app, Hseen, Hseen'. cbn. by rewrite app_nil_r.
  Qed.
  Lemma api_init s0 : good [] → Exec.init s0 → API.init PM (st born 0%N (Exec.disk s0)).
  Proof.
    intros Hg (c&->&Hc). split; [by split|]. split; [|by split].
    cbn [pm_is_mkfs PM]. split; [|by split]. eexists. split; [exact Hc|].
    exact (decode_jn [] Hg).
  Qed.
  Lemma sim_agree s p : sim s p → agree s (st p (Exec.next_id s) (Exec.disk s)).
  Proof.
    intros (dh&Hc&[_ Hgd]&Hp). split; [done|]. split; [done|]. split; [by split; [|eexists]|].
    cbn [API.tokens Tokens.model]. intros im Hproc. rewrite Hproc in Hp. destruct Hp as (h&Hy&Hg&Hdh&Hfl).
    destruct (len_last _ _ _ _ Hy) as (Hlen&Hlast&Hst). pose proof (y_pv _ _ _ _ Hy) as Hpv.
    assert (Hw : view_as_floating_versions im = V h).
    { unfold view_as_floating_versions. rewrite (y_journal _ _ _ _ Hy). done. }
    assert (Hver : version im = length h) by (unfold version; by rewrite (y_journal _ _ _ _ Hy)).
    assert (Hnd := y_ids _ _ _ _ Hy). rewrite fmap_app in Hnd. apply NoDup_app in Hnd as (Hnd1&Hdis&Hnd2).
    split; [|split; [|split]].
    - unfold kept_inv, inv_with. rewrite Hw, Hver. split; [exact (y_rec _ _ _ _ Hy)|]. split; [exact (y_hist _ _ _ _ Hy)|].
      split.
      { destruct Hfl as [(Hs&_&Hf&_)|(Hs&wid&hp&Hf&_)]; rewrite Hf; [|by split; [|eexists]].
        split; [by intros [??]|by intros ?]. }
      split; [exact (y_sync _ _ _ _ Hy)|]. split; [lia|]. split; [by rewrite (y_journal _ _ _ _ Hy)|].
      split; [|split; [split; [|done]|]].
      + intros info Hi. destruct Hfl as [(_&_&Hf&_)|(Hs&wid&hp&Hf&Hpre&Hpv'&_&Hv&_)]; rewrite Hf in Hi; [done|].
        injection Hi as <-. cbn [AtomicState.if_version]. apply prefix_length in Hpre.
        split; [split; [rewrite Hst; lia|rewrite Hlen; lia]|]. split; [|done].
        intros r Hr. split; [apply (y_sync _ _ _ _ Hy), elem_of_app; by left|]. intros v. by apply Hv.
      + intros r Hr. split; [apply (y_sync _ _ _ _ Hy), elem_of_app; by right|]. intros v. apply (y_ver _ _ _ _ Hy).
      + intros r r' Hr Hr' He. apply (Hdis (xreq_id r)); [by apply elem_of_list_fmap_1|]. rewrite He. by apply elem_of_list_fmap_1.
    - unfold AtomicState.mapspec. rewrite Hlast. unfold vm, volatile_map. by rewrite (y_journal _ _ _ _ Hy).
    - exact (y_map _ _ _ _ Hy).
    - exists (jn dh). unfold on_disk. cbn [API.disk]. rewrite Hc. cbn. split; [by apply Hgd|].
      split; [by rewrite (y_journal _ _ _ _ Hy)|].
      destruct Hfl as [(_&_&_&_&Hl)|(_&wid&hp&Hf&_&_&_&_&[(_&_&Hl)|(_&_&->)])]; [by left|by left|right; by eexists].
  Qed.
End serve.

(** ** C46 *)
Lemma serve_obeys `{Geometry} `{Codec} `{Decoder} k s0 ls s :
  codec_fits ls → decodes_superblocks → Exec.init s0 → run (Exec.next (repaired k)) s0 ls s →
  ∃ m0 als m, API.init Concrete.model_fixed m0 ∧ API.disk m0 = Exec.disk s0 ∧
    run (API.next Concrete.model_fixed (API.mkConfig true true k)) m0 als m ∧
    concat (seen_api <$> als) = concat (seen_exec <$> ls) ∧ agree s m.
Proof.
  intros Hc Hd Hi Hr. destruct (sim_run Hd k s0 ls s Hc Hi Hr) as (als&p&Hrun&Hseen&Hsim).
  eexists _, als, _. split; [apply api_init; [done|by eapply empty_good|done]|]. split; [done|]. split; [exact Hrun|]. split; [done|]. by eapply sim_agree.
Qed.
(** The invariant as stated fails in every state whose persistent version is not 0. *)
Lemma stated_starts_at_0 im p : stated_inv im p → fs_start (AtomicState.history p) = 0.
Proof. intros (_&->&_&_&_&Hj&_). exact Hj. Qed.
Lemma stated_broken `{Codec} s m im j : agree s m → Exec.proc s = Exec.Ready im → satisfied_reqs im = [] →
  on_disk (Exec.disk s) = Some j → j_history j ≠ [] → ¬ stated_inv im (Tokens.model (API.tokens m)).
Proof.
  intros (_&_&_&Ha) Hp Hs Hj Hne Hst%stated_starts_at_0. specialize (Ha _ Hp) as (Hk&_&_&j'&Hj'&_&Hv).
  destruct Hk as (_&Hh&Hf&_). rewrite Hh in Hst. cbn in Hst. rewrite Hj in Hj'. injection Hj' as <-.
  destruct Hv as [Hv|(info&Hi&_)].
  - destruct (j_history j); [done|]. cbn in Hv. lia.
  - by apply Hf; [eexists|].
Qed.

(** ** C47 *)
Section tokens.
  Context `{HG : Geometry} `{HD : Decoder}.
  Notation PM := Concrete.model_fixed.
  Definition pwf (p : AtomicState.State) : Prop :=
    AtomicState.client_ready p →
    let h := AtomicState.history p in
    fs_entries h ≠ [] ∧ fs_start h = AtomicState.persistent_version p ∧
    ∀ info, AtomicState.in_flight p = Some info → fs_start h ≤ AtomicState.if_version info < fs_len h.
  Lemma nonempty_len {T} (h : FloatingSeq T) : fs_entries h ≠ [] → fs_start h < fs_len h.
  Proof. unfold fs_len. destruct (fs_entries h); [done|cbn; lia]. Qed.
  Lemma last_active {T} (h : FloatingSeq T) : fs_entries h ≠ [] → fs_start h ≤ fs_len h - 1 < fs_len h.
  Proof. intros Hne%nonempty_len. lia. Qed.
  Lemma pwf_step p p' l : pwf p → pm_next PM p p' l → pwf p'.
  Proof.
    intros Hp Hn. destruct l as [[req reply|id|id]|info|]; cbn in Hn.
    - destruct Hn as (h&x&x'&Hrdy&Hlen&Hpre&_&_&_&_&->). intros _. cbn. destruct (Hp Hrdy) as (Hne&Hst&Hf).
      apply fs_extend_cases in Hpre; [|done|done]. destruct Hpre as [->|[y ->]]; [done|].
      split; [cbn; by destruct (fs_entries (AtomicState.history p))|]. split; [done|].
      intros info Hi%Hf. rewrite fs_append_len. cbn [length fs_append fs_start]. lia.
    - destruct Hn as [Hrdy ->]. intros _. by apply Hp.
    - destruct Hn as (_&Hrdy&_&->). intros _. by apply Hp.
    - destruct Hn as [(rid&_&_&_&->)|[(rid&page&_&_&_&->)|[(rid&sb&data&Hsb&_&Hrdy&_&_&_&->)|(inf&Hrdy&Hi&_&_&->)]]].
      + by intros [=].
      + intros _. rewrite singleton_seq_eq. by split_and!.
      + intros _. cbn. destruct (Hp Hrdy) as (Hne&Hst&Hf). split_and!; [done|done|]. intros i [= <-]. cbn.
        apply fmap_Some in Hsb as (?&_&->). cbn. apply nonempty_len in Hne. lia.
      + intros _. cbn. destruct (Hp Hrdy) as (Hne&Hst&Hf). specialize (Hf _ Hi). split_and!; [|done|done].
        apply fs_suffix_entries. lia.
    - destruct Hn as [<- ?]. done.
  Qed.
  Lemma pwf_run c m0 ls m : API.init PM m0 → run (API.next PM c) m0 ls m → pwf (Tokens.model (API.tokens m)).
  Proof.
    intros ((Hi&_)&_) Hr. induction Hr as [m|m ls m1 l m2 Hr IH Hn].
    - intros Hrdy. unfold AtomicState.client_ready in Hrdy. cbn in Hi. unfold AtomicState.init in Hi. congruence.
    - specialize (IH Hi).
      destruct Hn as [(?&_&_&->)|[(?&_&_&->)|[(tl&t'&_&Ht&_&->)|[(_&_&->)|[(?&?&?&_&_&_&_&->)|[(?&?&?&_&_&->)|[(?&_&_&->)|(t&d&_&(Ht&_)&_&->)]]]]]]]; try done.
      + destruct Ht as (new&[(_&Ht&->)|[(?&?&_&_&_&_&Ht&->)|[(?&?&_&_&Ht&->)|[(?&_&_&Ht&->)|(?&_&Ht&->)]]]]); cbn; by eapply pwf_step.
      + cbn. intros Hrdy. unfold AtomicState.client_ready in Hrdy. cbn in Ht. unfold AtomicState.init in Ht. congruence.
  Qed.
  Lemma fs_get_is_Some {T} (h : FloatingSeq T) i : fs_start h ≤ i < fs_len h → is_Some (fs_get h i).
  Proof.
    intros Hi. unfold fs_get, fs_len in *. rewrite decide_True by lia. apply lookup_lt_is_Some. lia.
  Qed.
  Lemma pwf_kept m : pwf (Tokens.model (API.tokens m)) → versions_kept m.
  Proof.
    intros Hp Hrdy. cbv zeta. destruct (Hp Hrdy) as (Hne&Hst&Hf). split_and!; [| |done].
    - unfold AtomicState.mapspec, fs_last. apply fs_get_is_Some. exact (last_active _ Hne).
    - intros info Hi%Hf. unfold AtomicState.sb_at. apply fmap_is_Some, fs_get_is_Some. exact Hi.
  Qed.
  Lemma kept_wf m : versions_kept m → state_wf (Tokens.model (API.tokens m)).
  Proof.
    intros Hk Hrdy. cbv zeta. destruct (Hk Hrdy) as ((x&Hx)&Hf&Hst). split_and!; [| |done].
    - unfold AtomicState.mapspec, fs_last in Hx. by apply fs_get_Some in Hx.
    - intros info Hi. destruct (Hf _ Hi) as (y&Hy). unfold AtomicState.sb_at in Hy. apply fmap_Some in Hy as (z&Hz&_). by apply fs_get_Some in Hz.
  Qed.
  Lemma model_wf c m0 ls m : API.init PM m0 → run (API.next PM c) m0 ls m →
    versions_kept m ∧ state_wf (Tokens.model (API.tokens m)).
  Proof. intros Hi Hr. assert (versions_kept m) by by eapply pwf_kept, pwf_run. split; [done|]. by apply kept_wf. Qed.
  Lemma held_tokens m0 ls m : API.init PM m0 → run (API.next PM API.repaired) m0 ls m →
    nothing_before_asking m ∧ superblock_comes m ∧ write_comes m ∧ sync_is_new m ∧ versions_kept m.
  Proof.
    intros Hi Hr. destruct (repaired_sim PM m0 ls m) as (_&s0&s&Hs0&Hrs&Hrel); [by intros d (_&?&?)|done|done|].
    destruct (fixed_sim _ _ _ Hs0 Hrs) as (Ht&_&V&_&[(page&Hpage&Hv) _]&_).
    assert (Hresp : ∀ id r, (id, r) ∈ Tokens.disk_responses (API.tokens m) → AsyncDisk.responses (SystemModel.disk s) !! id = Some r).
    { intros id r Hin. apply (r_dresp _ _ Hrel). by right. }
    rewrite (r_prog _ _ Hrel) in Hv. split; [|split; [|split; [|split; [|by eapply pwf_kept, pwf_run]]]].
    - intros Hb [id r] Hin%Hresp. rewrite Hb in Hv. destruct Hv as (_&Hv&_). by rewrite Hv in Hin.
    - intros Hb id r Hin%Hresp. rewrite Hb in Hv. exists page.
      destruct Hv as (_&rid&[[_ Hv]|[_ Hv]]); rewrite Hv in Hin; [done|].
      apply lookup_singleton_Some in Hin as [_ <-]. by rewrite <- (r_content _ _ Hrel).
    - intros Hb id r Hin%Hresp. unfold AtomicState.client_ready in Hb. rewrite Hb in Hv. destruct Hv as (_&Hv).
      destruct (AtomicState.in_flight (Tokens.model (API.tokens m))) as [info|] eqn:Hf.
      + destruct Hv as (_&[(data&_&Hv&_)|(_&Hv&_)]); rewrite Hv in Hin; [done|].
        apply lookup_singleton_Some in Hin as [<- <-]. split; [done|]. by exists info.
      + destruct Hv as (_&Hv&_). by rewrite Hv in Hin.
    - intros Hb id Hin. destruct (AtomicState.sync_req_map (Tokens.model (API.tokens m)) !! id) as [v|] eqn:Hm; [|done]. exfalso.
      assert (Hs : id ∈ SystemModel.sync_requests s).
      { rewrite elem_of_multiplicity, (r_sreq _ _ Hrel), <- elem_of_multiplicity. done. }
      destruct (t_sreq _ _ Ht id Hs) as (_&_&_&Hna&_).
      destruct (t_smap _ _ Ht) with (id := id) as (_&i'&_&_&_&Hacc&_).
      + by rewrite (r_prog _ _ Hrel).
      + rewrite (r_prog _ _ Hrel), Hm. by eexists.
      + apply Hna. eapply elem_of_list_lookup_2. by apply (Hacc i').
  Qed.
End tokens.
