(** The whole program on the crashing disk can always answer what it accepted
    (C57). *)
From Verif Require Import Spec_Model Spec_Spec Disk_Model System_Model System_Spec Spec_Proof AsyncDisk_Proof System_Proof
  System_Example SystemLive_Spec.

Lemma open_snoc {L} (ls : list L) l opens closes :
  open_since (ls ++ [l]) opens closes → opens l ∨ (open_since ls opens closes ∧ ¬ closes l).
Proof.
  intros (i&l0&Hi&Ho&Hc). apply lookup_snoc_Some in Hi as [[Hlt Hi]|[-> ->]]; [|by left].
  right. split.
  - exists i, l0. split_and!; [done|done|]. intros m l' Hm Hl. eapply Hc; [exact Hm|]. by apply lookup_app_l_Some.
  - apply (Hc (length ls)); [done|]. apply lookup_snoc_Some. by right.
Qed.
Lemma open_nil {L} (opens closes : L → Prop) : ¬ open_since [] opens closes.
Proof. by intros (i&l&Hi&_). Qed.

Section live.
  Context `{Geometry} `{Decoder} (Hwf : addr_wf superblock_addr).
  Notation SState := (SystemModel.State (P := AtomicState.State)).
  Notation fx := (SystemModel.next_fixed Concrete.model_fixed).
  Notation st p c rq rp sq sp h := (SystemModel.mkState p (AsyncDisk.mkState ∅ ∅ c) rq rp sq sp h).
  Notation ready h pv m := (AtomicState.mkState AtomicState.RecoveryComplete h pv None m).

  (** ** Finishing what is under way *)
  Lemma end_read p c rq rp sq sp h rid page :
    AtomicState.recovery_state p = AtomicState.AwaitingSuperblock →
    run fx (SystemModel.mkState p (AsyncDisk.mkState ∅ {[rid := ReadResp page]} c) rq rp sq sp h)
      [SystemModel.ProgramDiskOp (mkInfo ∅ {[+ (rid, ReadResp page) +]})]
      (st (ready (mkFS (sb_version (unmarshall page)) [sb_store (unmarshall page)]) (sb_version (unmarshall page)) ∅)
          c rq rp sq sp h).
  Proof.
    intros Hp. eapply run_cons; [|constructor]. do 7 right; left. eexists _, _, _. split_and!; [done| | |].
    - right; left. exists rid, page. split_and!; [done|done|done|reflexivity].
    - left. eexists _, _. cbn [info_reqs info_resps]. rewrite multiset_to_map_singleton, multiset_to_map_empty.
      split_and!; [done|set_solver|set_solver| |reflexivity].
      cbn [AsyncDisk.responses SystemModel.disk]. done.
    - cbn [AsyncDisk.requests AsyncDisk.responses AsyncDisk.content SystemModel.disk]. rewrite singleton_seq_eq.
      f_equal. f_equal; [by rewrite (left_id_L ∅ (∪))|]. symmetry. apply map_difference_diag.
  Qed.
  Lemma do_read p c rq rp sq sp h rid page :
    c !! superblock_addr = Some page →
    run fx (SystemModel.mkState p (AsyncDisk.mkState {[rid := ReadReq superblock_addr]} ∅ c) rq rp sq sp h)
      [SystemModel.DiskInternal]
      (SystemModel.mkState p (AsyncDisk.mkState ∅ {[rid := ReadResp page]} c) rq rp sq sp h).
  Proof.
    intros Hc. eapply run_cons; [|constructor]. do 9 right; left. eexists. split_and!; [done| |].
    - right; left. exists rid. split; [done|].
      exists superblock_addr, page. cbn [AsyncDisk.requests AsyncDisk.content AsyncDisk.responses SystemModel.disk].
      split_and!; [by rewrite lookup_singleton|done|by intros d; rewrite Hc; intros [= ->]|reflexivity].
    - cbn. by rewrite delete_singleton, insert_empty.
  Qed.
  Lemma do_write p c rq rp sq sp h rid page :
    run fx (SystemModel.mkState p (AsyncDisk.mkState {[rid := WriteReq superblock_addr page]} ∅ c) rq rp sq sp h)
      [SystemModel.DiskInternal]
      (SystemModel.mkState p (AsyncDisk.mkState ∅ {[rid := WriteResp]} (<[superblock_addr := page]> c)) rq rp sq sp h).
  Proof.
    eapply run_cons; [|constructor]. do 9 right; left. eexists. split_and!; [done| |].
    - right; right; left. exists rid. split; [done|].
      exists superblock_addr, page. cbn [AsyncDisk.requests AsyncDisk.content AsyncDisk.responses SystemModel.disk].
      split_and!; [by rewrite lookup_singleton|done|reflexivity].
    - cbn. by rewrite delete_singleton, insert_empty.
  Qed.
  Lemma end_write hs pv v rid m c rq rp sq sp h :
    run fx (SystemModel.mkState (AtomicState.mkState AtomicState.RecoveryComplete hs pv (Some (AtomicState.mkInflight v rid)) m)
              (AsyncDisk.mkState ∅ {[rid := WriteResp]} c) rq rp sq sp h)
      [SystemModel.ProgramDiskOp (mkInfo ∅ {[+ (rid, WriteResp) +]})]
      (st (ready (fs_get_suffix hs v) v m) c rq rp sq sp h).
  Proof.
    eapply run_cons; [|constructor]. do 7 right; left. eexists _, _, _. split_and!; [done| | |].
    - right; right; right. eexists (AtomicState.mkInflight v rid). split_and!; [done|reflexivity|done|done|reflexivity].
    - left. eexists _, _. cbn [info_reqs info_resps]. rewrite multiset_to_map_singleton, multiset_to_map_empty.
      split_and!; [done|set_solver|set_solver| |reflexivity].
      cbn [AsyncDisk.responses SystemModel.disk]. done.
    - cbn [AsyncDisk.requests AsyncDisk.responses AsyncDisk.content SystemModel.disk].
      f_equal. f_equal; [by rewrite (left_id_L ∅ (∪))|]. symmetry. apply map_difference_diag.
  Qed.
  Lemma get_ready p d rq rp sq sp h V :
    vrel p d V →
    ∃ ls' hs pv m c, run fx (SystemModel.mkState p d rq rp sq sp h) ls' (st (ready hs pv m) c rq rp sq sp h) ∧
      Forall own_step ls' ∧ fs_entries hs ≠ [] ∧ fs_last hs = fs_last V ∧
      (AtomicState.client_ready p → m = AtomicState.sync_req_map p ∧ fs_len hs = fs_len (AtomicState.history p)).
  Proof.
    intros (page&Hc&Hv). destruct d as [dq dr c]. cbn in Hc.
    destruct p as [r hs pv inf m]. cbn in Hv. unfold AtomicState.client_ready; cbn. destruct r.
    - destruct Hv as (->&->&->). destruct (unmarshall page) as [x v] eqn:Hu. cbn.
      eexists _, _, _, _, _. split; [eapply (recover Hwf _ _ _ _ _ _ _ 0%N); [done|exact Hc|exact Hu]|].
      split_and!; [|done|done|done]. by repeat constructor.
    - destruct Hv as (->&rid&[[-> ->]|[-> ->]]).
      + eexists _, _, _, _, _. split; [eapply run_app; [by apply do_read|by apply end_read]|].
        split_and!; [|done|done|done]. by repeat constructor.
      + eexists _, _, _, _, _. split; [by apply end_read|].
        split_and!; [|done|done|done]. by repeat constructor.
    - destruct Hv as [Hne Hv]. destruct inf as [[v rid]|]; cbn in Hv.
      + destruct Hv as (Hr&[(data&->&->&_&_&->)|(->&->&_&->)]).
        * eexists _, _, _, _, _. split; [eapply run_app; [by apply do_write|by apply end_write]|].
          split_and!; [by repeat constructor|by apply fs_suffix_entries|by apply fs_suffix_last|].
          intros _. split; [done|]. apply fs_get_suffix_len. lia.
        * eexists _, _, _, _, _. split; [by apply end_write|].
          split_and!; [by repeat constructor|by apply fs_suffix_entries|done|].
          intros _. split; [done|]. apply fs_get_suffix_len. lia.
      + destruct Hv as (->&->&_&->). eexists [], _, _, _, _. split; [constructor|]. by split_and!.
  Qed.
  Lemma last_is {T} (hs : FloatingSeq T) : fs_entries hs ≠ [] → is_Some (fs_last hs).
  Proof.
    intros Hne. unfold fs_last. apply fs_get_active. unfold fs_is_active, fs_len.
    destruct (fs_entries hs); [done|]. simpl. lia.
  Qed.

  (** ** Executing a request *)
  Lemma prefix_all {T} (hs : FloatingSeq T) l : fs_entries hs ≠ [] → fs_get_prefix (fs_append hs l) (fs_len hs) = hs.
  Proof.
    intros Hne. unfold fs_get_prefix, fs_append, fs_len. destruct hs as [b es]; cbn in *.
    assert (length es ≠ 0) by (by destruct es). rewrite decide_False by lia. f_equal.
    rewrite take_app_alt; [done|lia].
  Qed.
  Lemma execute hs pv m c rq rp sq sp h req :
    fs_entries hs ≠ [] → req ∈ rq →
    ∃ reply hs', reply_id reply = req_id req ∧
      fx (st (ready hs pv m) c rq rp sq sp h)
         (st (ready hs' pv m) c (rq ∖ {[+ req +]}) (rp ⊎ {[+ reply +]}) sq sp h)
         (SystemModel.ProgramUIOp (Execute req reply)).
  Proof.
    intros Hne Hin. destruct (last_is hs Hne) as [x Hx].
    assert (Hsame : ∀ x', fs_last (fs_append hs []) = Some x' → x' = x).
    { intros x'. unfold fs_append. rewrite app_nil_r. destruct hs; cbn in *. rewrite Hx. by intros [= ->]. }
    assert (Hx0 : fs_last (fs_append hs []) = Some x).
    { unfold fs_append. rewrite app_nil_r. by destruct hs. }
    destruct req as [[k|k v|] id].
    - exists (mkReply (QueryOutput (msg_value (MapSpec.kmmap x k))) id), (fs_append hs []). split; [done|].
      do 2 right; left. eexists _, _, _. split_and!; [done|done| |done].
      exists (fs_append hs []), x, x. rewrite fs_append_len. cbn [AtomicState.history SystemModel.program length].
      split_and!; [done|lia|lia|by apply prefix_all|done|done|done| |done].
      left. by exists k, (msg_value (MapSpec.kmmap x k)).
    - exists (mkReply PutOutput id),
        (fs_append hs [MapSpec.mkState (kmmap_insert (MapSpec.kmmap x) k (Define v))]). split; [done|].
      do 2 right; left. eexists _, _, _. split_and!; [done|done| |done].
      exists (fs_append hs [MapSpec.mkState (kmmap_insert (MapSpec.kmmap x) k (Define v))]), x,
        (MapSpec.mkState (kmmap_insert (MapSpec.kmmap x) k (Define v))). rewrite fs_append_len. cbn [AtomicState.history SystemModel.program length].
      split_and!; [done|lia|lia|by apply prefix_all|done|done|apply fs_last_append| |done].
      right; left. by exists k, v.
    - exists (mkReply NoopOutput id), (fs_append hs []). split; [done|].
      do 2 right; left. eexists _, _, _. split_and!; [done|done| |done].
      exists (fs_append hs []), x, x. rewrite fs_append_len. cbn [AtomicState.history SystemModel.program length].
      split_and!; [done|lia|lia|by apply prefix_all|done|done|done| |done].
      right; right. done.
  Qed.

  (** ** Where an accepted request is *)
  Definition held (s : SState) (req : Request) : Prop :=
    req ∈ SystemModel.requests s ∨ ∃ reply, reply ∈ SystemModel.replies s ∧ reply_id reply = req_id req.
  Lemma elem_add {A} `{Countable A} (x y : A) (m : gmultiset A) : x ∈ m → x ∈ m ⊎ {[+ y +]}.
  Proof. multiset_solver. Qed.
  Lemma elem_sub {A} `{Countable A} (x y : A) (m : gmultiset A) : x ∈ m → x ≠ y → x ∈ m ∖ {[+ y +]}.
  Proof.
    intros Hx Hne. rewrite elem_of_multiplicity in *. rewrite multiplicity_difference, multiplicity_singleton_ne by done. lia.
  Qed.
  Lemma held_step s s' l req :
    held s req → SystemModel.next Concrete.model s s' l →
    ¬ (l = SystemModel.Crash ∨ ∃ reply, l = SystemModel.DeliverReply reply ∧ reply_id reply = req_id req) → held s' req.
  Proof.
    intros Hh Hn Hc. unfold held in *.
    destruct Hn as [(rq&->&Hf&->)|[(reply&->&Hin&->)|[(p&rq&reply&->&Hin&Hn&->)|[(id&->&Hf&->)|[(p&id&->&Hn&->)|
      [(p&id&->&Hn&->)|[(id&->&Hin&->)|[(p&d&info&->&Hn&Hd&->)|[(p&->&Hn&->)|[(d&->&Hd&->)|[(p&d&->&Hn&Hd&->)|[-> ->]]]]]]]]]]]];
      cbn; try done.
    - destruct Hh as [Hh|Hh]; [left; by apply elem_add|by right].
    - destruct Hh as [Hh|(r&Hr&Hid)]; [by left|]. right. exists r. split; [|done]. apply elem_sub; [done|].
      intros ->. apply Hc. right. eauto.
    - destruct Hn as (?&?&?&_&_&_&[Hid _]&_). destruct Hh as [Hh|(r&Hr&Hid')].
      + destruct (decide (req = rq)) as [->|Hne].
        * right. exists reply. split; [multiset_solver|done].
        * left. by apply elem_sub.
      + right. exists r. split; [by apply elem_add|done].
    - exfalso. apply Hc. by left.
  Qed.
  Lemma held_run s0 ls s req :
    SystemModel.initialize Concrete.model s0 → run (SystemModel.next Concrete.model) s0 ls s →
    waiting_request ls req → held s req.
  Proof.
    intros Hi Hr. induction Hr as [s|s ls s1 l s2 Hr IH Hn]; intros Hw; [by apply open_nil in Hw|].
    apply open_snoc in Hw as [->|[Hw Hc]]; [|by eapply held_step; eauto].
    destruct Hn as [(rq&[= <-]&Hf&->)|[(?&[=]&_)|[(?&?&?&[=]&_)|[(?&[=]&_)|[(?&?&[=]&_)|
      [(?&?&[=]&_)|[(?&[=]&_)|[(?&?&?&[=]&_)|[(?&[=]&_)|[(?&[=]&_)|[(?&?&[=]&_)|[[=] _]]]]]]]]]]]].
    left. cbn. multiset_solver.
  Qed.

  (** ** Where an accepted sync is *)
  Definition sheld (s : SState) (id : SyncReqId) : Prop :=
    id ∈ SystemModel.sync_requests s ∨
    (AtomicState.client_ready (SystemModel.program s) ∧ is_Some (AtomicState.sync_req_map (SystemModel.program s) !! id)) ∨
    id ∈ SystemModel.sync_replies s.
  Lemma sheld_step s s' l id V :
    sim0 s V → sheld s id → SystemModel.next Concrete.model s s' l →
    ¬ (l = SystemModel.Crash ∨ l = SystemModel.DeliverSyncReply id) → sheld s' id.
  Proof.
    intros [Hv _] Hh Hn Hc. unfold sheld in *.
    destruct Hn as [(rq&->&Hf&->)|[(reply&->&Hin&->)|[(p&rq&reply&->&Hin&Hn&->)|[(id'&->&Hf&->)|[(p&id'&->&Hn&->)|
      [(p&id'&->&Hn&->)|[(id'&->&Hin&->)|[(p&d&info&->&Hn&Hd&->)|[(p&->&Hn&->)|[(d&->&Hd&->)|[(p&d&->&Hn&Hd&->)|[-> ->]]]]]]]]]]]];
      cbn; try done.
    - destruct Hn as (?&?&?&Hrd&_&_&_&_&_&_&->). cbn. done.
    - destruct Hh as [Hh|[Hh|Hh]]; [left; by apply elem_add|by right; left|by right; right].
    - destruct Hn as [Hrd ->]. cbn. destruct Hh as [Hh|[[_ Hh]|Hh]].
      + destruct (decide (id = id')) as [->|Hne]; [|left; by apply elem_sub].
        right; left. split; [done|]. rewrite lookup_insert. done.
      + right; left. split; [done|]. by apply lookup_insert_is_Some'; right.
      + by right; right.
    - destruct Hn as (Hrd&_&->). cbn. destruct Hh as [Hh|[[_ Hh]|Hh]].
      + by left.
      + destruct (decide (id = id')) as [->|Hne]; [right; right; multiset_solver|].
        right; left. split; [done|]. by rewrite lookup_delete_ne.
      + right; right. by apply elem_add.
    - destruct Hh as [Hh|[Hh|Hh]]; [by left|by right; left|right; right]. apply elem_sub; [done|].
      intros ->. apply Hc. by right.
    - destruct (vrel_disk _ _ _ _ _ _ _ Hv Hn Hd) as (_&Hk&_).
      destruct Hh as [Hh|[[Hrd Hh]|Hh]]; [by left| |by right; right]. right; left.
      destruct (Hk Hrd) as [? ->]. done.
    - destruct Hn as [<- _]. done.
    - exfalso. apply Hc. by left.
  Qed.
  (** No sync waits for a version that does not exist. *)
  Definition due (s : SState) : Prop :=
    AtomicState.client_ready (SystemModel.program s) → ∀ id v,
      AtomicState.sync_req_map (SystemModel.program s) !! id = Some v → v < fs_len (AtomicState.history (SystemModel.program s)).
  Lemma due_step s s' l V :
    sim0 s V → due s → SystemModel.next Concrete.model s s' l → due s'.
  Proof.
    intros [Hv _] Hh Hn. unfold due in *.
    destruct Hn as [(rq&->&Hf&->)|[(reply&->&Hin&->)|[(p&rq&reply&->&Hin&Hn&->)|[(id'&->&Hf&->)|[(p&id'&->&Hn&->)|
      [(p&id'&->&Hn&->)|[(id'&->&Hin&->)|[(p&d&info&->&Hn&Hd&->)|[(p&->&Hn&->)|[(d&->&Hd&->)|[(p&d&->&Hn&Hd&->)|[-> ->]]]]]]]]]]]];
      cbn; try done.
    - destruct Hn as (?&?&?&Hrd&Hl&_&_&_&_&_&->). cbn. intros _ id v Hid. pose proof (Hh Hrd id v Hid). lia.
    - destruct Hn as [Hrd ->]. cbn. intros _ id v [[_ <-]|[_ Hid]]%lookup_insert_Some; [|by apply (Hh Hrd id)].
      destruct Hv as (page&_&Hv). unfold AtomicState.client_ready in Hrd. rewrite Hrd in Hv. destruct Hv as [Hne _].
      unfold fs_len. destruct (fs_entries _); [done|]. cbn. lia.
    - destruct Hn as (Hrd&_&->). cbn. intros _ id v [_ Hid]%lookup_delete_Some. by apply (Hh Hrd id).
    - destruct Hv as (page&_&Hv).
      destruct Hn as [(rid&Hb&_&_&->)|[(rid&raw&Hb&_&_&->)|[(rid&sb&data&Hsb&Hm&Hrd&Hinf&_&_&->)|(inf&Hrd&Hinf&_&_&->)]]].
      + unfold AtomicState.client_ready. by cbn.
      + cbn. intros _ id v Hid. done.
      + cbn. intros _. by apply Hh.
      + cbn [SystemModel.program AtomicState.history AtomicState.sync_req_map]. intros _ id v Hid. pose proof Hrd as Hrd'. unfold AtomicState.client_ready in Hrd. rewrite Hrd, Hinf in Hv.
        destruct Hv as (_&Hr&_). rewrite fs_get_suffix_len by lia. by apply (Hh Hrd' id).
    - destruct Hn as [<- _]. done.
    - unfold AtomicState.client_ready. cbn in Hn. unfold AtomicState.init in Hn. by rewrite Hn.
  Qed.
  (** Every version on record is what some of the executed puts lead to. *)
  Definition from_puts (U : list (Key * Value)) (x : PersistentState) : Prop := ∃ h, h `sublist_of` U ∧ x = store_after h.
  Lemma from_more U U' x : from_puts U x → from_puts (U ++ U') x.
  Proof. intros (h&Hs&->). exists h. split; [|done]. by apply sublist_inserts_r. Qed.
  Lemma Forall_take {A} (P : A → Prop) l n : Forall P l → Forall P (take n l).
  Proof. apply stdpp.list.Forall_take. Qed.
  Lemma executed_app ls l : executed_puts (ls ++ [l]) = executed_puts ls ++ executed_puts [l].
  Proof. unfold executed_puts. apply omap_app. Qed.
  Lemma origin_step ls s s' l V :
    sim0 s V → Forall (from_puts (executed_puts ls)) (fs_entries V) → SystemModel.next Concrete.model s s' l →
    ∃ V', sim0 s' V' ∧ Forall (from_puts (executed_puts (ls ++ [l]))) (fs_entries V').
  Proof.
    intros Hs HV Hn. destruct (sim0_step _ _ _ _ Hs Hn) as (V'&Hs'&Hd). exists V'. split; [done|].
    rewrite executed_app.
    assert (HV0 : Forall (from_puts (executed_puts ls ++ executed_puts [l])) (fs_entries V)).
    { eapply stdpp.list.Forall_impl; [exact HV|]. intros x. apply from_more. }
    assert (Hop : ∀ bop, CTAM.next (CTAM.mkState V (eph s) ∅) (CTAM.mkState V' (eph s') ∅) (CTAM.OperateOp bop) →
      V' = V ∨ ∃ x x', fs_last V = Some x ∧ V' = fs_append V [x'] ∧
        AsyncMap.next (AsyncMap.mkState x (eph s)) (AsyncMap.mkState x' (eph s')) bop).
    { intros bop [(nv&ne&bop'&x&x'&[= <-]&Happ&Hx&Hx'&Ha&[= <- <-])|[[[=] _]|[(i&[=]&_)|[(id&[=]&_)|[(id&v&[=]&_)|[[=] _]]]]]].
      destruct Happ as [[Hlen Hdr]|Hsame]; [|by left]. right.
      apply fs_drop_last_inv in Hdr as [y Hy]; [|by eapply vrel_nonempty, Hs|cbn in Hlen |- *; lia].
      cbn in Hy. rewrite Hy, fs_last_append in Hx'. injection Hx' as ->. exists x, x'. done. }
    destruct l as [req|reply|id|id|[req reply|id|id]|info| | | |]; cbn [dstep] in Hd;
      try (destruct Hd as [-> _]; exact HV0).
    - destruct (Hop _ (Hd ∅)) as [->|(x&x'&Hx&->&Ha)]; [done|].
      destruct Ha as [(?&_&_&[= ->])|[(?&?&?&?&[=]&_)|(?&[=]&_)]].
      cbn. apply stdpp.list.Forall_app. split; [done|]. constructor; [|constructor].
      apply fs_last_Some in Hx as [_ Hx]. unfold fs_get in Hx. case_decide; [|done].
      eapply (stdpp.list.Forall_lookup_1 _ _ _ _ HV0). exact Hx.
    - destruct (Hop _ (Hd ∅)) as [->|(x&x'&Hx&->&Ha)]; [done|].
      destruct Ha as [(?&[=]&_)|[(?&?&?&?&[=]&_)|(?&_&_&[= ->])]].
      cbn. apply stdpp.list.Forall_app. split; [done|]. constructor; [|constructor].
      apply fs_last_Some in Hx as [_ Hx]. unfold fs_get in Hx. case_decide; [|done].
      eapply (stdpp.list.Forall_lookup_1 _ _ _ _ HV0). exact Hx.
    - destruct (Hop _ (Hd ∅)) as [->|(x&x'&Hx&->&Ha)]; [done|].
      cbn. apply stdpp.list.Forall_app. split; [done|]. constructor; [|constructor].
      assert (Hfx : from_puts (executed_puts ls) x).
      { apply fs_last_Some in Hx as [_ Hx]. unfold fs_get in Hx. case_decide; [|done].
        eapply (stdpp.list.Forall_lookup_1 _ _ _ _ HV). exact Hx. }
      destruct Ha as [(?&[=]&_)|[(ml&y&req'&reply'&[= <- <-]&_&_&_&Hri&_&Hm&[= Hy _ _])|(?&[=]&_)]].
      cbn in Hm, Hy. subst y.
      destruct Hm as [(k&v&->&_&->)|[(k&v&->&->)|[-> ->]]]; [by apply from_more| |by apply from_more].
      destruct req as [inp rid]. cbn in Hri. subst inp. destruct Hfx as (h&Hh&->).
      exists (h ++ [(k, v)]). split; [by apply sublist_app|]. unfold store_after. by rewrite fold_left_app.
    - destruct Hd as [_ [->|(v&Hv&->)]]; [done|]. cbn. by apply stdpp.list.Forall_drop.
    - destruct Hd as [-> _]. unfold fs_get_prefix. case_decide; [constructor|]. cbn. by apply Forall_take.
  Qed.

  Record linv (ls : list SystemModel.Label) (s : SState) (V : FloatingSeq Version) : Prop := {
    l_sim : sim0 s V;
    l_from : Forall (from_puts (executed_puts ls)) (fs_entries V);
    l_due : due s;
    l_held : ∀ req, waiting_request ls req → held s req;
    l_sheld : ∀ id, waiting_sync ls id → sheld s id }.
  Lemma linv_run s0 ls s :
    SystemModel.initialize Concrete.model s0 → run (SystemModel.next Concrete.model) s0 ls s → ∃ V, linv ls s V.
  Proof.
    intros Hi Hr. induction Hr as [s|s ls s1 l s2 Hr IH Hn].
    - destruct (sim0_init _ Hi) as (Hs&_&Hnr). exists (CTAM.versions CTAM.init). split; [done| | | |].
      + cbn. repeat constructor. exists []. split; [constructor|done].
      + by intros Hrd.
      + intros req Hw. by apply open_nil in Hw.
      + intros id Hw. by apply open_nil in Hw.
    - destruct (IH Hi) as [V [H1 H2 H3 H4 H5]].
      destruct (origin_step _ _ _ _ _ H1 H2 Hn) as (V'&Hs'&Hf'). exists V'. split; [done|done| | |].
      + exact (due_step _ _ _ _ H1 H3 Hn).
      + intros req Hw. eapply held_run; [exact Hi| |exact Hw]. by eapply run_snoc.
      + intros id Hw. apply open_snoc in Hw as [->|[Hw Hc]]; [|exact (sheld_step _ _ _ _ _ H1 (H5 id Hw) Hn Hc)].
        destruct Hn as [(rq&[=]&_)|[(?&[=]&_)|[(?&?&?&[=]&_)|[(?&[= <-]&Hf&->)|[(?&?&[=]&_)|
          [(?&?&[=]&_)|[(?&[=]&_)|[(?&?&?&[=]&_)|[(?&[=]&_)|[(?&[=]&_)|[(?&?&[=]&_)|[[=] _]]]]]]]]]]]].
        left. cbn. multiset_solver.
  Qed.

  (** ** The answers *)
  Lemma answer_request ls s V req :
    linv ls s V → waiting_request ls req →
    ∃ ls' s' reply s'', run fx s ls' s' ∧ Forall own_step ls' ∧ reply_id reply = req_id req ∧
      fx s' s'' (SystemModel.DeliverReply reply).
  Proof.
    intros Hl Hw. destruct (l_held _ _ _ Hl req Hw) as [Hin|(reply&Hin&Hid)].
    - destruct (l_sim _ _ _ Hl) as [Hv _]. destruct s as [p d rq rp sq sp h]. cbn in *.
      destruct (get_ready p d rq rp sq sp h V Hv) as (ls1&hs&pv&m&c&Hr1&Ho1&Hne&_&_).
      destruct (execute hs pv m c rq rp sq sp h req Hne Hin) as (reply&hs'&Hid&Hx).
      eexists (ls1 ++ [_]), _, reply, _. split_and!; [by eapply run_snoc|apply stdpp.list.Forall_app; split; [done|by repeat constructor]|done|].
      right; left. exists reply. split_and!; [done|cbn; multiset_solver|reflexivity].
    - eexists [], s, reply, _. split_and!; [constructor|done|done|].
      right; left. exists reply. split_and!; [done|done|reflexivity].
  Qed.
  Lemma reply_enabled s id : id ∈ SystemModel.sync_replies s → ∃ s', fx s s' (SystemModel.DeliverSyncReply id).
  Proof. intros Hin. eexists. do 6 right; left. exists id. split_and!; [done|done|reflexivity]. Qed.
  Lemma accept_sync hs pv m c rq rp sq sp h id :
    id ∈ sq →
    fx (st (ready hs pv m) c rq rp sq sp h)
       (st (ready hs pv (<[id := fs_len hs - 1]> m)) c rq rp (sq ∖ {[+ id +]}) sp h)
       (SystemModel.ProgramUIOp (AcceptSync id)).
  Proof.
    intros Hin. do 4 right; left. eexists. split; [exists id; split_and!; [done|by split|done]|].
    intros id' [= <-]. done.
  Qed.
  Lemma deliver_sync hs pv m c rq rp sq sp h id v :
    m !! id = Some v → v ≤ fs_start hs →
    fx (st (ready hs pv m) c rq rp sq sp h)
       (st (ready hs pv (delete id m)) c rq rp sq (sp ⊎ {[+ id +]}) h)
       (SystemModel.ProgramUIOp (DeliverSync id)).
  Proof.
    intros Hm Hv. do 5 right; left. eexists _, id. split_and!; [done| |reflexivity].
    split; [by eexists|]. split_and!; [done| |reflexivity]. cbn. intros v'. rewrite Hm. by intros [= <-].
  Qed.
  Lemma answer_sync ls s V id :
    linv ls s V → format_fits ls → waiting_sync ls id →
    ∃ ls' s' s'', run fx s ls' s' ∧ Forall own_step ls' ∧ fx s' s'' (SystemModel.DeliverSyncReply id).
  Proof.
    intros Hl Hfit Hw. pose proof (l_due _ _ _ Hl) as Hdue. pose proof (l_from _ _ _ Hl) as Hfrom.
    destruct (l_sim _ _ _ Hl) as [Hv _].
    destruct (l_sheld _ _ _ Hl id Hw) as [Hin|[Hin|Hin]].
    3: { destruct (reply_enabled s id Hin) as [s' Hs']. exists [], s, s'. split_and!; [constructor|done|done]. }
    all: destruct s as [p d rq rp sq sp h]; cbn in *;
      destruct (get_ready p d rq rp sq sp h V Hv) as (ls1&hs&pv&m&c&Hr1&Ho1&Hne&Hlast&Hm);
      destruct (last_is hs Hne) as [x Hx];
      assert (from_puts (executed_puts ls) x) as (hh&Hsub&->)
        by (rewrite Hlast in Hx; apply fs_last_Some in Hx as [_ Hx]; unfold fs_get in Hx; case_decide; [|done];
            exact (stdpp.list.Forall_lookup_1 _ _ _ _ Hfrom Hx));
      destruct (Hfit hh (fs_len hs - 1) Hsub) as [data Hdata];
      assert (Hwr : ∀ m' sq', run fx (st (ready hs pv m') c rq rp sq' sp h) (write_sb 0%N data)
        (st (ready (fs_get_suffix hs (fs_len hs - 1)) (fs_len hs - 1) m') (<[superblock_addr := data]> c) rq rp sq' sp h))
        by (intros m' sq'; by eapply (flush Hwf)).
    - destruct (reply_enabled (st (ready (fs_get_suffix hs (fs_len hs - 1)) (fs_len hs - 1) (delete id (<[id := fs_len hs - 1]> m)))
        (<[superblock_addr := data]> c) rq rp (sq ∖ {[+ id +]}) (sp ⊎ {[+ id +]}) h) id) as [s'' Hs'']; [cbn; multiset_solver|].
      eexists (ls1 ++ ([_] ++ write_sb 0%N data ++ [_])), _, s''. split_and!; [|
        |exact Hs''].
      + eapply run_app; [exact Hr1|]. eapply run_app; [eapply run_one, accept_sync, Hin|].
        eapply run_app; [apply Hwr|]. eapply run_one. eapply deliver_sync; [apply lookup_insert|]. cbn. done.
      + apply stdpp.list.Forall_app; split; [done|by repeat constructor].
    - destruct Hin as [Hrd [v Hid]]. destruct (Hm Hrd) as [-> Hlen]. pose proof (Hdue Hrd id v Hid) as Hle.
      destruct (reply_enabled (st (ready (fs_get_suffix hs (fs_len hs - 1)) (fs_len hs - 1) (delete id (AtomicState.sync_req_map p)))
        (<[superblock_addr := data]> c) rq rp sq (sp ⊎ {[+ id +]}) h) id) as [s'' Hs'']; [cbn; multiset_solver|].
      eexists (ls1 ++ (write_sb 0%N data ++ [_])), _, s''. split_and!; [|
        |exact Hs''].
      + eapply run_app; [exact Hr1|].
        eapply run_app; [apply Hwr|]. eapply run_one. eapply deliver_sync; [exact Hid|]. cbn [fs_get_suffix fs_start]. cbn [SystemModel.program] in Hle. lia.
      + apply stdpp.list.Forall_app; split; [done|by repeat constructor].
  Qed.

  Lemma fixed_init s : SystemModel.initialize Concrete.model_fixed s → SystemModel.initialize Concrete.model s.
  Proof. done. Qed.
  Lemma fixed_requests s0 ls s req :
    SystemModel.initialize Concrete.model_fixed s0 → run fx s0 ls s → waiting_request ls req →
    ∃ ls' s' reply s'', run fx s ls' s' ∧ Forall own_step ls' ∧ reply_id reply = req_id req ∧
      fx s' s'' (SystemModel.DeliverReply reply).
  Proof.
    intros Hi Hr Hw. destruct (linv_run s0 ls s Hi (to_written _ _ _ Hr)) as [V Hl]. by eapply answer_request.
  Qed.
  Lemma fixed_syncs s0 ls s id :
    SystemModel.initialize Concrete.model_fixed s0 → run fx s0 ls s → format_fits ls → waiting_sync ls id →
    ∃ ls' s' s'', run fx s ls' s' ∧ Forall own_step ls' ∧ fx s' s'' (SystemModel.DeliverSyncReply id).
  Proof.
    intros Hi Hr Hf Hw. destruct (linv_run s0 ls s Hi (to_written _ _ _ Hr)) as [V Hl]. by eapply answer_sync.
  Qed.
  Lemma written_requests s0 ls s req :
    SystemModel.initialize Concrete.model s0 → run (SystemModel.next Concrete.model) s0 ls s → waiting_request ls req →
    ∃ ls' s' reply s'', run (SystemModel.next Concrete.model) s ls' s' ∧ Forall own_step ls' ∧
      reply_id reply = req_id req ∧ SystemModel.next Concrete.model s' s'' (SystemModel.DeliverReply reply).
  Proof.
    intros Hi Hr Hw. destruct (linv_run s0 ls s Hi Hr) as [V Hl].
    destruct (answer_request ls s V req Hl Hw) as (ls'&s'&reply&s''&Hr'&Ho&Hid&Hn).
    exists ls', s', reply, s''. split_and!; [by apply to_written|done|done|by apply fixed_guarded].
  Qed.
  Lemma written_syncs s0 ls s id :
    SystemModel.initialize Concrete.model s0 → run (SystemModel.next Concrete.model) s0 ls s → format_fits ls → waiting_sync ls id →
    ∃ ls' s' s'', run (SystemModel.next Concrete.model) s ls' s' ∧ Forall own_step ls' ∧
      SystemModel.next Concrete.model s' s'' (SystemModel.DeliverSyncReply id).
  Proof.
    intros Hi Hr Hf Hw. destruct (linv_run s0 ls s Hi Hr) as [V Hl].
    destruct (answer_sync ls s V id Hl Hf Hw) as (ls'&s'&s''&Hr'&Ho&Hn).
    exists ls', s', s''. split_and!; [by apply to_written|done|by apply fixed_guarded].
  Qed.
End live.
