(** The whole program on the crashing disk refines the crash-tolerant store
    (C22) and acknowledges each requested sync at most once (C23). *)
From Verif Require Import Spec_Model Spec_Spec Disk_Model System_Model System_Spec Spec_Proof AsyncDisk_Proof.

(** ** Floating sequences *)
Section fs.
  Context {T : Type}.
  Implicit Types h : FloatingSeq T.
  Lemma fs_extend_cases h h' :
    fs_entries h ≠ [] → fs_len h ≤ fs_len h' ≤ fs_len h + 1 →
    fs_get_prefix h' (fs_len h) = h → h' = h ∨ ∃ x, h' = fs_append h [x].
  Proof.
    intros Hne Hl Hp. destruct (decide (fs_len h' = fs_len h)) as [He|He].
    - left. rewrite <- Hp. rewrite <- He. unfold fs_get_prefix.
      unfold fs_get_prefix in Hp. case_decide.
      + rewrite <- Hp in Hne. done.
      + rewrite decide_False by lia. destruct h' as [st es]; unfold fs_len; simpl. f_equal.
        rewrite take_ge by lia. done.
    - right. apply fs_drop_last_inv; [done|lia|]. unfold fs_drop_last.
      replace (fs_len h' - 1) with (fs_len h) by lia. done.
  Qed.
  Lemma fs_suffix_append h n x :
    n ≤ fs_len h → fs_start h ≤ n → fs_get_suffix (fs_append h [x]) n = fs_append (fs_get_suffix h n) [x].
  Proof.
    intros Hn Hs. unfold fs_get_suffix, fs_append, fs_len in *; simpl. f_equal.
    rewrite drop_app_le by lia. done.
  Qed.
  Lemma fs_suffix_last h n : fs_start h ≤ n < fs_len h → fs_last (fs_get_suffix h n) = fs_last h.
  Proof.
    intros Hn. unfold fs_last. rewrite fs_get_suffix_len by lia.
    apply fs_get_suffix_get. unfold fs_len in *. lia.
  Qed.
  Lemma fs_suffix_entries h n : fs_start h ≤ n < fs_len h → fs_entries (fs_get_suffix h n) ≠ [].
  Proof.
    unfold fs_len, fs_get_suffix; simpl. intros Hn He. apply (f_equal length) in He.
    rewrite drop_length in He. simpl in He. lia.
  Qed.
  Lemma fs_prefix_first h x :
    fs_get h (fs_start h) = Some x → fs_get_prefix h (fs_start h + 1) = mkFS (fs_start h) [x].
  Proof.
    unfold fs_get, fs_get_prefix. rewrite decide_True by lia. rewrite decide_False by lia.
    rewrite Nat.sub_diag. replace (fs_start h + 1 - fs_start h) with 1 by lia.
    destruct h as [st [|y es]]; simpl; [done|]. by intros [= ->].
  Qed.
  Lemma fs_singleton_get st (x y : T) i : fs_get (mkFS st [x]) i = Some y ↔ i = st ∧ x = y.
  Proof.
    unfold fs_get; simpl. case_decide; [|split; [done|intros [-> ?]; lia]].
    rewrite list_lookup_singleton_Some. split; intros [? ->]; (split; [lia|done]).
  Qed.
End fs.
Lemma singleton_seq_eq st : ∀ n, singleton_floating_seq n (MapSpec.kmmap st) = mkFS n [st].
Proof.
  intros n. unfold singleton_floating_seq, fs_new. replace (n + 1 - n) with 1 by lia.
  destruct st. done.
Qed.

Section proof.
  Context `{Geometry} `{Decoder}.
  Notation PState := AtomicState.State.
  Notation DState := AsyncDisk.State.
  Notation SState := (SystemModel.State (P := PState)).

  (** ** What the program and the disk together hold *)
  Definition vrel (p : PState) (d : DState) (V : FloatingSeq Version) : Prop :=
    ∃ page, AsyncDisk.content d !! superblock_addr = Some page ∧
    let sb := unmarshall page in
    let h := AtomicState.history p in
    match AtomicState.recovery_state p with
    | AtomicState.Begin =>
        AsyncDisk.requests d = ∅ ∧ AsyncDisk.responses d = ∅ ∧ V = mkFS (sb_version sb) [sb_store sb]
    | AtomicState.AwaitingSuperblock =>
        V = mkFS (sb_version sb) [sb_store sb] ∧
        ∃ id, (AsyncDisk.requests d = {[id := ReadReq superblock_addr]} ∧ AsyncDisk.responses d = ∅) ∨
              (AsyncDisk.requests d = ∅ ∧ AsyncDisk.responses d = {[id := ReadResp page]})
    | AtomicState.RecoveryComplete =>
        fs_entries h ≠ [] ∧
        match AtomicState.in_flight p with
        | None => AsyncDisk.requests d = ∅ ∧ AsyncDisk.responses d = ∅ ∧
            AtomicState.sb_at p (fs_start h) = Some sb ∧ V = h
        | Some info =>
            let v := AtomicState.if_version info in let id := AtomicState.if_req_id info in
            fs_start h ≤ v < fs_len h ∧
            ((∃ data, AsyncDisk.requests d = {[id := WriteReq superblock_addr data]} ∧
                AsyncDisk.responses d = ∅ ∧ AtomicState.sb_at p v = Some (unmarshall data) ∧
                AtomicState.sb_at p (fs_start h) = Some sb ∧ V = h) ∨
             (AsyncDisk.requests d = ∅ ∧ AsyncDisk.responses d = {[id := WriteResp]} ∧
                AtomicState.sb_at p v = Some sb ∧ V = fs_get_suffix h v))
        end
    end.

  Lemma sb_at_Some p v sb :
    AtomicState.sb_at p v = Some sb ↔
    fs_get (AtomicState.history p) v = Some (sb_store sb) ∧ sb_version sb = v.
  Proof.
    unfold AtomicState.sb_at. rewrite fmap_Some. split.
    - intros (x&Hx&->). done.
    - intros [Hx <-]. exists (sb_store sb). split; [done|]. by destruct sb.
  Qed.
  Lemma vrel_nonempty p d V : vrel p d V → fs_entries V ≠ [].
  Proof.
    intros (page&_&Hv). destruct (AtomicState.recovery_state p).
    - destruct Hv as (_&_&->). done.
    - destruct Hv as (->&_). done.
    - destruct Hv as [Hne Hv]. destruct (AtomicState.in_flight p) as [info|].
      + destruct Hv as [Hr [(?&?&?&?&?&->)|(?&?&?&->)]]; [done|]. by apply fs_suffix_entries.
      + destruct Hv as (_&_&_&->). done.
  Qed.
  Lemma vrel_congr p p' d V :
    AtomicState.recovery_state p' = AtomicState.recovery_state p →
    AtomicState.history p' = AtomicState.history p →
    AtomicState.in_flight p' = AtomicState.in_flight p → vrel p d V → vrel p' d V.
  Proof.
    intros Hr Hh Hi (page&Hc&Hv). exists page. split; [done|]. unfold AtomicState.sb_at in *.
    rewrite Hr, Hh, Hi. exact Hv.
  Qed.

  Lemma vrel_map p p' d V req reply :
    vrel p d V → AtomicState.map_transition p p' req reply →
    ∃ V' x x', vrel p' d V' ∧ fs_last V = Some x ∧ fs_last V' = Some x' ∧
      CTAM.optionally_append_version V V' ∧
      MapSpec.next x x' (AtomicState.to_map_label req reply) ∧
      req_id req = reply_id reply.
  Proof.
    intros (page&Hc&Hv) (h&x&x'&Hrdy&Hlen&Hpre&Hval&Hx&Hx'&Hmap&->).
    unfold AtomicState.client_ready in Hrdy. rewrite Hrdy in Hv. destruct Hv as [Hne Hv].
    unfold AtomicState.mapspec in Hx, Hx'. cbn [AtomicState.history] in Hx'.
    apply fs_extend_cases in Hpre; [|done|done].
    destruct Hval as [Hid _].
    destruct Hpre as [->|[y ->]].
    - exists V, x, x'. 
      assert (fs_last V = fs_last (AtomicState.history p)) as HlV.
      { destruct (AtomicState.in_flight p).
        - destruct Hv as [Hr [(?&?&?&?&?&->)|(?&?&?&->)]]; [done|]. by apply fs_suffix_last.
        - by destruct Hv as (_&_&_&->). }
      split_and!; [|exact (eq_trans HlV Hx)|exact (eq_trans HlV Hx')|by right|done|done].
      exists page. split; [done|]. cbn. rewrite Hrdy. split; [done|]. exact Hv.
    - rewrite fs_last_append in Hx'. injection Hx' as ->.
      assert (∀ v st, AtomicState.sb_at p v = Some st →
        AtomicState.sb_at (AtomicState.mkState (AtomicState.recovery_state p)
          (fs_append (AtomicState.history p) [x']) (AtomicState.persistent_version p)
          (AtomicState.in_flight p) (AtomicState.sync_req_map p)) v = Some st) as Hsb.
      { intros v st. rewrite !sb_at_Some. cbn. intros [Hg <-]. split; [|done].
        rewrite fs_append_get_old; [done|]. by apply fs_get_Some in Hg. }
      assert (fs_entries (fs_append (AtomicState.history p) [x']) ≠ []) as Hne'.
      { cbn. by destruct (fs_entries _). }
      exists (fs_append V [x']), x, x'.
      assert (fs_last V = Some x ∧ vrel (AtomicState.mkState (AtomicState.recovery_state p)
          (fs_append (AtomicState.history p) [x']) (AtomicState.persistent_version p)
          (AtomicState.in_flight p) (AtomicState.sync_req_map p)) d (fs_append V [x'])) as [HlV Hv'].
      { destruct (AtomicState.in_flight p) as [info|] eqn:Hinf.
        - destruct Hv as [Hr [(data&?&?&?&?&->)|(?&?&?&->)]].
          + split; [done|]. exists page. split; [done|]. cbn [AtomicState.recovery_state AtomicState.in_flight AtomicState.history].
            rewrite Hrdy. split; [done|]. rewrite fs_append_len. cbn [length fs_append fs_start].
            split; [lia|]. left. exists data. split_and!; [done|done|by apply Hsb|by apply Hsb|done].
          + split; [by rewrite fs_suffix_last|]. exists page. split; [done|]. cbn [AtomicState.recovery_state AtomicState.in_flight AtomicState.history].
            rewrite Hrdy. split; [done|]. rewrite fs_append_len. cbn [length fs_append fs_start].
            split; [lia|]. right. split_and!; [done|done|by apply Hsb|].
            symmetry. apply fs_suffix_append; [apply Nat.lt_le_incl, Hr|apply Hr].
        - destruct Hv as (?&?&?&->). split; [done|]. exists page. split; [done|].
          cbn [AtomicState.recovery_state AtomicState.in_flight AtomicState.history].
          rewrite Hrdy. split; [done|]. split_and!; [done|done|by apply Hsb|done]. }
      split_and!; [exact Hv'|done|apply fs_last_append| |done|done].
      left. rewrite fs_append_len. cbn. split; [lia|].
      apply fs_last_Some in HlV as [HneV _].
      destruct (fs_drop_last_append V x'); [done|]. done.
  Qed.

  Lemma disk_ops_inv (d d' : DState) reqs resps :
    AsyncDisk.next d d' (AsyncDisk.DiskOps reqs resps) →
    dom reqs ## dom (AsyncDisk.requests d) ∧ dom reqs ## dom (AsyncDisk.responses d) ∧
    resps ⊆ AsyncDisk.responses d ∧
    d' = AsyncDisk.mkState (reqs ∪ AsyncDisk.requests d) (AsyncDisk.responses d ∖ resps) (AsyncDisk.content d).
  Proof. intros [(?&?&[= <- <-]&?&?&?&->)|[[? [[=] _]]|[[? [[=] _]]|[[=] _]]]]. done. Qed.

  Lemma vrel_disk p p' d d' V reqs resps :
    vrel p d V → AtomicState.disk_transition p p' reqs resps →
    AsyncDisk.next d d' (AsyncDisk.DiskOps (multiset_to_map reqs) (multiset_to_map resps)) →
    vrel p' d' V ∧
    (AtomicState.client_ready p → AtomicState.client_ready p' ∧
       AtomicState.sync_req_map p' = AtomicState.sync_req_map p) ∧
    (AtomicState.client_ready p' → AtomicState.client_ready p ∨ AtomicState.sync_req_map p' = ∅).
  Proof.
    intros (page&Hc&Hv) Ht Hd%disk_ops_inv. destruct Hd as (Hd1&Hd2&Hsub&->).
    destruct Ht as [(rid&Hb&->&->&->)|[(rid&raw&Hb&->&->&->)|[(rid&sb&data&Hsb&Hm&Hb&Hinf&->&->&->)|(info&Hb&Hinf&->&->&->)]]].
    - rewrite Hb in Hv. destruct Hv as (Hq&Hr&->).
      split_and!; [|by unfold AtomicState.client_ready; rewrite Hb|by unfold AtomicState.client_ready; cbn].
      exists page. cbn [AsyncDisk.content AsyncDisk.requests AsyncDisk.responses AtomicState.recovery_state].
      split; [done|]. split; [done|]. exists rid. left.
      rewrite multiset_to_map_singleton, multiset_to_map_empty, Hq, Hr, (right_id_L ∅ (∪)).
      split; [done|]. apply map_difference_empty.
    - rewrite Hb in Hv. destruct Hv as (->&id&Hqr).
      rewrite multiset_to_map_singleton in Hsub. rewrite multiset_to_map_singleton, multiset_to_map_empty.
      destruct Hqr as [[Hq Hr]|[Hq Hr]]; rewrite Hr in Hsub.
      { exfalso. assert (({[rid := ReadResp raw]} : gmap ID DiskResponse) !! rid = Some (ReadResp raw)) as Hx
          by apply lookup_singleton. eapply lookup_weaken in Hx; [|exact Hsub]. by rewrite lookup_empty in Hx. }
      assert (({[rid := ReadResp raw]} : gmap ID DiskResponse) !! rid = Some (ReadResp raw)) as Hx
          by apply lookup_singleton. eapply lookup_weaken in Hx; [|exact Hsub].
      apply lookup_singleton_Some in Hx as [<- [= <-]].
      split_and!; [|by unfold AtomicState.client_ready; rewrite Hb|by right].
      exists page. cbn [AsyncDisk.content AsyncDisk.requests AsyncDisk.responses AtomicState.recovery_state
        AtomicState.in_flight AtomicState.history].
      split; [done|]. rewrite singleton_seq_eq. split; [done|].
      rewrite Hq, Hr. split_and!; [by rewrite (left_id_L ∅ (∪))|apply map_difference_diag| |done].
      apply sb_at_Some. cbn [AtomicState.history fs_start].
      split; [|done]. by apply fs_singleton_get.
    - unfold AtomicState.client_ready in Hb. rewrite Hb, Hinf in Hv. destruct Hv as (Hne&Hq&Hr&Hsb0&->).
      split_and!; [|done|by left].
      exists page. cbn [AsyncDisk.content AsyncDisk.requests AsyncDisk.responses AtomicState.recovery_state
        AtomicState.in_flight AtomicState.history]. rewrite Hb. split; [done|]. split; [done|].
      unfold AtomicState.ephemeral_sb in Hsb. pose proof Hsb as Hsb'.
      apply sb_at_Some in Hsb' as [Hg Hve]. cbn [AtomicState.if_version AtomicState.if_req_id].
      apply fs_get_Some in Hg as Ha. unfold fs_is_active in Ha.
      split; [lia|]. left. exists data. rewrite multiset_to_map_singleton, multiset_to_map_empty, Hq, Hr.
      split_and!; [by rewrite (right_id_L ∅ (∪))|apply map_difference_empty| | |done].
      + unfold marshalled in Hm. rewrite Hm. apply sb_at_Some. cbn. rewrite Hve. done.
      + apply sb_at_Some in Hsb0. apply sb_at_Some. cbn. done.
    - unfold AtomicState.client_ready in Hb. rewrite Hb, Hinf in Hv. destruct Hv as (Hne&Hrange&Hv).
      rewrite multiset_to_map_singleton in Hsub. rewrite multiset_to_map_singleton, multiset_to_map_empty.
      assert (({[AtomicState.if_req_id info := WriteResp]} : gmap ID DiskResponse) !! AtomicState.if_req_id info = Some WriteResp) as Hx
        by apply lookup_singleton.
      eapply lookup_weaken in Hx; [|exact Hsub].
      destruct Hv as [(data&Hq&Hr&_)|(Hq&Hr&Hsb&->)]; [rewrite Hr, lookup_empty in Hx; done|].
      split_and!; [|done|by left].
      exists page. cbn [AsyncDisk.content AsyncDisk.requests AsyncDisk.responses AtomicState.recovery_state
        AtomicState.in_flight AtomicState.history]. split; [done|].
      split; [by apply fs_suffix_entries|].
      rewrite Hq, Hr. split_and!; [by rewrite (left_id_L ∅ (∪))|apply map_difference_diag| |done].
      apply sb_at_Some in Hsb as [Hg Hve]. apply sb_at_Some. cbn [AtomicState.history fs_start fs_get_suffix].
      split; [|done]. rewrite fs_get_suffix_get by lia. done.
  Qed.

  Lemma vrel_internal p d d' V :
    vrel p d V → AsyncDisk.next d d' AsyncDisk.Internal →
    vrel p d' V ∨ ∃ v, fs_start V ≤ v < fs_len V ∧ vrel p d' (fs_get_suffix V v).
  Proof.
    intros (page&Hc&Hv) Hd.
    destruct Hd as [(?&?&[=]&_)|[[i [_ (a&dt&Hq&Hw&Hdat&->)]]|[[i [_ (a&dt&Hq&Hw&->)]]|[[=] _]]]].
    - left. exists page. cbn [AsyncDisk.content AsyncDisk.requests AsyncDisk.responses]. split; [done|].
      destruct (AtomicState.recovery_state p).
      + destruct Hv as (Hx&_). rewrite Hx, lookup_empty in Hq. done.
      + destruct Hv as (->&id&[[Hx Hy]|[Hx Hy]]); rewrite Hx in Hq; [|by rewrite lookup_empty in Hq].
        apply lookup_singleton_Some in Hq as [<- [= <-]]. split; [done|]. exists id. right.
        rewrite Hx, Hy, delete_singleton, insert_empty. split; [done|]. by rewrite (Hdat page Hc).
      + destruct Hv as [Hne Hv]. destruct (AtomicState.in_flight p) as [info|].
        * destruct Hv as [Hr [(data&Hx&_)|(Hx&_)]]; rewrite Hx in Hq.
          -- apply lookup_singleton_Some in Hq as [_ [=]].
          -- by rewrite lookup_empty in Hq.
        * destruct Hv as (Hx&_). by rewrite Hx, lookup_empty in Hq.
    - destruct (AtomicState.recovery_state p) eqn:Hrec.
      + destruct Hv as (Hx&_). rewrite Hx, lookup_empty in Hq. done.
      + destruct Hv as (->&id&[[Hx Hy]|[Hx Hy]]); rewrite Hx in Hq; [|by rewrite lookup_empty in Hq].
        by apply lookup_singleton_Some in Hq as [<- [=]].
      + destruct Hv as [Hne Hv]. destruct (AtomicState.in_flight p) as [info|] eqn:Hinf.
        * destruct Hv as [Hr [(data&Hx&Hy&Hsb&Hsb0&->)|(Hx&_)]]; rewrite Hx in Hq; [|by rewrite lookup_empty in Hq].
          apply lookup_singleton_Some in Hq as [<- [= <- <-]].
          right. exists (AtomicState.if_version info). split; [exact Hr|].
          exists data. cbn [AsyncDisk.content AsyncDisk.requests AsyncDisk.responses].
          rewrite lookup_insert. split; [done|]. rewrite Hrec, Hinf. split; [done|]. split; [lia|].
          right. rewrite Hx, Hy, delete_singleton, insert_empty. done.
        * destruct Hv as (Hx&_). by rewrite Hx, lookup_empty in Hq.
  Qed.

  Lemma vrel_crash p p' d d' V :
    vrel p d V → AtomicState.init p' → AsyncDisk.next d d' AsyncDisk.Crash →
    vrel p' d' (fs_get_prefix V (fs_start V + 1)).
  Proof.
    intros (page&Hc&Hv) Hi Hd.
    destruct Hd as [(?&?&[=]&_)|[[? [[=] _]]|[[? [[=] _]]|[_ ->]]]].
    exists page. cbn [AsyncDisk.content AsyncDisk.requests AsyncDisk.responses]. split; [done|].
    unfold AtomicState.init in Hi. rewrite Hi. split_and!; [done|done|].
    assert (fs_start V = sb_version (unmarshall page) ∧ fs_get V (fs_start V) = Some (sb_store (unmarshall page))) as [<- Hg].
    { destruct (AtomicState.recovery_state p).
      - destruct Hv as (_&_&->). split; [done|]. by apply fs_singleton_get.
      - destruct Hv as (->&_). split; [done|]. by apply fs_singleton_get.
      - destruct Hv as [Hne Hv]. destruct (AtomicState.in_flight p) as [info|].
        + destruct Hv as [Hr [(data&_&_&_&Hsb0&->)|(_&_&Hsb&->)]].
          * apply sb_at_Some in Hsb0 as [? ?]. done.
          * apply sb_at_Some in Hsb as [? ?]. cbn [fs_get_suffix fs_start].
            split; [done|]. etrans; [apply fs_get_suffix_get|done]. split; [apply Hr|done].
        + destruct Hv as (_&_&Hsb0&->). apply sb_at_Some in Hsb0 as [? ?]. done. }
    by apply fs_prefix_first.
  Qed.

  (** ** Request and reply bags *)
  Definition eph (s : SState) : EphemeralState :=
    mkEph (dom (SystemModel.requests s)) (dom (SystemModel.replies s)).
  Record ids (s : SState) : Prop := {
    ids_req : ∀ r, r ∈ SystemModel.requests s → req_id r ∈ SystemModel.id_history s;
    ids_rep : ∀ r, r ∈ SystemModel.replies s → reply_id r ∈ SystemModel.id_history s;
    ids_req1 : ∀ r, multiplicity r (SystemModel.requests s) ≤ 1;
    ids_rep1 : ∀ r, multiplicity r (SystemModel.replies s) ≤ 1;
    ids_req2 : ∀ r r', r ∈ SystemModel.requests s → r' ∈ SystemModel.requests s → req_id r = req_id r' → r = r';
    ids_rep2 : ∀ r r', r ∈ SystemModel.replies s → r' ∈ SystemModel.replies s → reply_id r = reply_id r' → r = r';
    ids_disj : ∀ r r', r ∈ SystemModel.requests s → r' ∈ SystemModel.replies s → req_id r ≠ reply_id r' }.

  (** How one system step moves the visible versions and the bags. *)
  Definition dstep (l : SystemModel.Label) (V : FloatingSeq Version) (e : EphemeralState)
      (V' : FloatingSeq Version) (e' : EphemeralState) : Prop :=
    match l with
    | SystemModel.AcceptRequest req => ∀ sr,
        CTAM.next (CTAM.mkState V e sr) (CTAM.mkState V' e' sr) (CTAM.OperateOp (AsyncMap.RequestOp req))
    | SystemModel.DeliverReply reply => ∀ sr,
        CTAM.next (CTAM.mkState V e sr) (CTAM.mkState V' e' sr) (CTAM.OperateOp (AsyncMap.ReplyOp reply))
    | SystemModel.ProgramUIOp (Execute req reply) => ∀ sr,
        CTAM.next (CTAM.mkState V e sr) (CTAM.mkState V' e' sr) (CTAM.OperateOp (AsyncMap.ExecuteOp req reply))
    | SystemModel.DiskInternal =>
        e' = e ∧ (V' = V ∨ ∃ v, fs_start V ≤ v < fs_len V ∧ V' = fs_get_suffix V v)
    | SystemModel.Crash => V' = fs_get_prefix V (fs_start V + 1) ∧ e' = mkEph ∅ ∅
    | _ => V' = V ∧ e' = e
    end.
  Definition sim0 (s : SState) (V : FloatingSeq Version) : Prop :=
    vrel (SystemModel.program s) (SystemModel.disk s) V ∧ ids s.

  Lemma dom_mempty {A} `{Countable A} : dom (∅ : gmultiset A) = (∅ : gset A).
  Proof. apply set_eq. intros y. rewrite gmultiset_elem_of_dom. multiset_solver. Qed.
  Lemma dom_add {A} `{Countable A} (x : A) (m : gmultiset A) : dom (m ⊎ {[+ x +]}) = ({[x]} ∪ dom m : gset A).
  Proof.
    apply set_eq. intros y. rewrite gmultiset_elem_of_dom, gmultiset_elem_of_disj_union, gmultiset_elem_of_singleton,
      elem_of_union, elem_of_singleton, gmultiset_elem_of_dom. tauto.
  Qed.
  Lemma elem_of_sub1 {A} `{Countable A} (x y : A) (m : gmultiset A) :
    multiplicity x m ≤ 1 → y ∈ m ∖ {[+ x +]} ↔ y ∈ m ∧ y ≠ x.
  Proof.
    intros Hx. rewrite !elem_of_multiplicity, multiplicity_difference.
    destruct (decide (y = x)) as [->|Hne].
    - rewrite multiplicity_singleton. split; [lia|]. intros [_ ?]. done.
    - rewrite multiplicity_singleton_ne by done. split; [intros ?; split; [lia|done]|lia].
  Qed.
  Lemma dom_sub1 {A} `{Countable A} (x : A) (m : gmultiset A) :
    multiplicity x m ≤ 1 → dom (m ∖ {[+ x +]}) = (dom m ∖ {[x]} : gset A).
  Proof.
    intros Hx. apply set_eq. intros y. rewrite gmultiset_elem_of_dom, elem_of_sub1 by done.
    rewrite elem_of_difference, gmultiset_elem_of_dom, elem_of_singleton. done.
  Qed.
  Lemma elem_of_add {A} `{Countable A} (x y : A) (m : gmultiset A) : y ∈ m ⊎ {[+ x +]} ↔ y ∈ m ∨ y = x.
  Proof. rewrite gmultiset_elem_of_disj_union, gmultiset_elem_of_singleton. done. Qed.
  Lemma mult_add1 {A} `{Countable A} (x y : A) (m : gmultiset A) :
    x ∉ m → multiplicity y m ≤ 1 → multiplicity y (m ⊎ {[+ x +]}) ≤ 1.
  Proof.
    intros Hx Hy. rewrite multiplicity_disj_union. destruct (decide (y = x)) as [->|Hne].
    - rewrite multiplicity_singleton. rewrite elem_of_multiplicity in Hx. lia.
    - rewrite multiplicity_singleton_ne by done. lia.
  Qed.
  Lemma mult_sub {A} `{Countable A} (y : A) (m m' : gmultiset A) :
    multiplicity y m ≤ 1 → multiplicity y (m ∖ m') ≤ 1.
  Proof. rewrite multiplicity_difference. lia. Qed.

  (** The steps of the repaired system are steps of the system as written. *)
  Definition guarded (s : SState) (l : SystemModel.Label) : Prop :=
    match l with
    | SystemModel.ProgramUIOp (AcceptSync id) => id ∈ SystemModel.sync_requests s
    | SystemModel.ProgramUIOp (DeliverSync id) =>
        is_Some (AtomicState.sync_req_map (SystemModel.program s) !! id)
    | _ => True
    end.
  Lemma fixed_guarded s s' l :
    SystemModel.next_fixed Concrete.model_fixed s s' l →
    SystemModel.next Concrete.model s s' l ∧ guarded s l.
  Proof.
    intros [(?&->&Hs)|[(?&->&Hs)|[(p&?&?&->&Hs)|[(?&->&Hs)|[(p&(?&->&Hn&Hs)&Hg)|[(p&?&->&Hs)|[(?&->&Hs)|
      [(p&d&?&->&Hs)|[(p&->&Hs)|[(d&->&Hs)|[(p&d&->&Hs)|[-> Hs]]]]]]]]]]]].
    - split; [|done]. left. eexists. exact (conj eq_refl Hs).
    - split; [|done]. right; left. eexists. exact (conj eq_refl Hs).
    - split; [|done]. do 2 right; left. eexists _, _, _. exact (conj eq_refl Hs).
    - split; [|done]. do 3 right; left. eexists. exact (conj eq_refl Hs).
    - split; [|by apply Hg]. do 4 right; left. eexists _, _. first [exact (conj eq_refl Hs)|exact (conj eq_refl (conj Hn Hs))].
    - destruct Hs as [[Hg Hn] Hs]. split; [|done]. do 5 right; left. eexists _, _. first [exact (conj eq_refl Hs)|exact (conj eq_refl (conj Hn Hs))].
    - split; [|done]. do 6 right; left. eexists. exact (conj eq_refl Hs).
    - split; [|done]. do 7 right; left. eexists _, _, _. exact (conj eq_refl Hs).
    - split; [|done]. do 8 right; left. eexists. exact (conj eq_refl Hs).
    - split; [|done]. do 9 right; left. eexists. exact (conj eq_refl Hs).
    - split; [|done]. do 10 right; left. eexists _, _. first [exact (conj eq_refl Hs)|exact (conj eq_refl (conj Hn Hs))].
    - split; [|done]. do 11 right. exact (conj eq_refl Hs).
  Qed.

  Lemma sim0_step s s' l V :
    sim0 s V → SystemModel.next Concrete.model s s' l →
    ∃ V', sim0 s' V' ∧ dstep l V (eph s) V' (eph s').
  Proof.
    intros [Hv Hi] Hn.
    assert (is_Some (fs_last V)) as [x Hx].
    { apply vrel_nonempty in Hv. unfold fs_last. apply fs_get_active. unfold fs_is_active, fs_len.
      destruct (fs_entries V); [done|]. simpl. lia. }
    destruct Hn as [(req&->&Hf&->)|[(reply&->&Hin&->)|[(p&req&reply&->&Hin&Hn&->)|[(id&->&Hf&->)|[(p&id&->&Hn&->)|
      [(p&id&->&Hn&->)|[(id&->&Hin&->)|[(p&d&info&->&Hn&Hd&->)|[(p&->&Hn&->)|[(d&->&Hd&->)|[(p&d&->&Hn&Hd&->)|[-> ->]]]]]]]]]]]].
    - (* accept_request *)
      assert (req ∉ SystemModel.requests s) as Hnew.
      { intros Hr. by apply (ids_req s Hi) in Hr. }
      exists V. split; [split; [done|]|].
      + destruct Hi as [I1 I2 I3 I4 I5 I6 I7]. split; cbn.
        * intros r. rewrite !elem_of_add. intros [Hr| ->]; [left; by apply I1|by right].
        * intros r Hr. rewrite elem_of_add. left. by apply I2.
        * intros r. by apply mult_add1.
        * done.
        * intros r r'. rewrite !elem_of_add. intros [Hr| ->] [Hr'| ->] He; [by apply I5| | |done].
          -- apply I1 in Hr. rewrite He in Hr. done.
          -- apply I1 in Hr'. rewrite <- He in Hr'. done.
        * done.
        * intros r r'. rewrite !elem_of_add. intros [Hr| ->] Hr'; [by apply I7|].
          intros He. apply I2 in Hr'. rewrite <- He in Hr'. done.
      + cbn [dstep]. intros sr. unfold eph. cbn [SystemModel.requests SystemModel.replies]. rewrite dom_add.
        eapply (ctam_operate_same (CTAM.mkState V _ sr)); [exact Hx|]. left. exists req.
        cbn [AsyncMap.ephemeral AsyncMap.persistent CTAM.async_ephemeral requests replies]. split_and!; [done| |done].
        rewrite gmultiset_elem_of_dom. done.
    - (* deliver_reply *)
      exists V. split; [split; [done|]|].
      + destruct Hi as [I1 I2 I3 I4 I5 I6 I7].
        split; cbn; try done.
        * intros r. rewrite elem_of_sub1 by done. intros [Hr _]. by apply I2.
        * intros r. by apply mult_sub.
        * intros r r'. rewrite !elem_of_sub1 by done. intros [Hr _] [Hr' _]. by apply I6.
        * intros r r' Hr. rewrite elem_of_sub1 by done. intros [Hr' _]. by apply I7.
      + cbn [dstep]. intros sr. unfold eph. cbn [SystemModel.requests SystemModel.replies].
        rewrite dom_sub1 by apply (ids_rep1 s Hi).
        eapply (ctam_operate_same (CTAM.mkState V _ sr)); [exact Hx|]. right; right. exists reply.
        cbn [AsyncMap.ephemeral AsyncMap.persistent CTAM.async_ephemeral requests replies]. split_and!; [done| |done].
        rewrite gmultiset_elem_of_dom. done.
    - (* program_execute *)
      cbn in Hn. destruct (vrel_map _ _ _ _ _ _ Hv Hn) as (V'&y&y'&Hv'&Hy&Hy'&Happ&Hmap&Hid).
      assert (reply ∉ SystemModel.replies s) as Hnew.
      { intros Hr. by apply (ids_disj s Hi req reply). }
      exists V'. split; [split; [done|]|].
      + destruct Hi as [I1 I2 I3 I4 I5 I6 I7]. split; cbn.
        * intros r. rewrite elem_of_sub1 by done. intros [Hr _]. by apply I1.
        * intros r. rewrite elem_of_add. intros [Hr| ->]; [by apply I2|]. rewrite <- Hid. by apply I1.
        * intros r. by apply mult_sub.
        * intros r. by apply mult_add1.
        * intros r r'. rewrite !elem_of_sub1 by done. intros [Hr _] [Hr' _]. by apply I5.
        * intros r r'. rewrite !elem_of_add. intros [Hr| ->] [Hr'| ->] He; [by apply I6| | |done].
          -- exfalso. apply (I7 req r); [done|done|congruence].
          -- exfalso. apply (I7 req r'); [done|done|congruence].
        * intros r r'. rewrite elem_of_add, elem_of_sub1 by done. intros [Hr Hne] [Hr'| ->]; [by apply I7|].
          intros He. apply Hne, I5; [done|done|congruence].
      + cbn [dstep]. intros sr. left. exists V', (eph (SystemModel.mkState p (SystemModel.disk s)
          (SystemModel.requests s ∖ {[+ req +]}) (SystemModel.replies s ⊎ {[+ reply +]})
          (SystemModel.sync_requests s) (SystemModel.sync_replies s) (SystemModel.id_history s))).
        exists (AsyncMap.ExecuteOp req reply), y, y'. cbn [CTAM.versions CTAM.async_ephemeral CTAM.sync_requests].
        split_and!; [done|done|done|done| |done].
        right; left. exists (AtomicState.to_map_label req reply), y', req, reply.
        cbn [AsyncMap.ephemeral AsyncMap.persistent]. unfold eph. cbn [requests replies SystemModel.requests SystemModel.replies].
        rewrite dom_add, dom_sub1 by apply (ids_req1 s Hi).
        split_and!; [done|done|by rewrite gmultiset_elem_of_dom|by rewrite gmultiset_elem_of_dom| | |done|done].
        * unfold AtomicState.to_map_label. by destruct (req_input req).
        * unfold AtomicState.to_map_label. by destruct (req_input req).
    - (* accept_sync_request *)
      exists V. split; [split; [done|]|done].
      destruct Hi as [I1 I2 I3 I4 I5 I6 I7]. split; cbn; try done.
      + intros r Hr. rewrite elem_of_add. left. by apply I1.
      + intros r Hr. rewrite elem_of_add. left. by apply I2.
    - (* program_accept_sync_request *)
      cbn in Hn. destruct Hn as [_ ->]. exists V. split; [split|done].
      + eapply vrel_congr; [..|exact Hv]; done.
      + by destruct Hi.
    - (* program_deliver_sync_reply *)
      cbn in Hn. destruct Hn as (_&_&->). exists V. split; [split|done].
      + eapply vrel_congr; [..|exact Hv]; done.
      + by destruct Hi.
    - exists V. split; [split; [done|]|done]. by destruct Hi.
    - (* program_disk *)
      cbn in Hn. destruct (vrel_disk _ _ _ _ _ _ _ Hv Hn Hd) as (Hv'&_).
      exists V. split; [split; [done|]|done]. by destruct Hi.
    - cbn in Hn. destruct Hn as [<- _]. exists V. split; [split; [done|]|done]. by destruct Hi.
    - (* disk_internal *)
      destruct (vrel_internal _ _ _ _ Hv Hd) as [Hv'|(v&Hr&Hv')].
      + exists V. split; [split; [done|by destruct Hi]|]. split; [done|by left].
      + exists (fs_get_suffix V v). split; [split; [done|by destruct Hi]|]. split; [done|right]. by exists v.
    - (* crash *)
      exists (fs_get_prefix V (fs_start V + 1)). split; [split|].
      + by eapply vrel_crash.
      + destruct Hi as [I1 I2 I3 I4 I5 I6 I7]. split; cbn; intros; first [rewrite multiplicity_empty; lia|multiset_solver].
      + split; [done|]. unfold eph. cbn [SystemModel.requests SystemModel.replies]. by rewrite !dom_mempty.
    - exists V. done.
  Qed.
  Lemma sim0_init s : SystemModel.initialize Concrete.model s →
    sim0 s (CTAM.versions CTAM.init) ∧ eph s = CTAM.async_ephemeral CTAM.init ∧
    ¬ AtomicState.client_ready (SystemModel.program s).
  Proof.
    intros ([(page&Hc&Hm) [Hq Hr]]&Hp&Hs). cbn in Hp. unfold AtomicState.init in Hp. split_and!.
    - split.
      + exists page. split; [done|]. rewrite Hp. split_and!; [done|done|].
        unfold marshalled in Hm. rewrite Hm. done.
      + rewrite Hs. split; cbn; intros; first [rewrite multiplicity_empty; lia|multiset_solver].
    - rewrite Hs. unfold eph. cbn [SystemModel.requests SystemModel.replies]. by rewrite !dom_mempty.
    - unfold AtomicState.client_ready. by rewrite Hp.
  Qed.

  (** ** The system as written, sync handshake left out *)
  Lemma written_data s0 ls s :
    SystemModel.initialize Concrete.model s0 → run (SystemModel.next Concrete.model) s0 ls s →
    ∃ als V, sim0 s V ∧ Forall2 sys_data_event ls als ∧
      run CTAM.next CTAM.init als (CTAM.mkState V (eph s) ∅).
  Proof.
    intros Hi Hr. induction Hr as [s|s ls s' l s'' _ IH Hn].
    - apply sim0_init in Hi as (Hs&He&_). exists [], (CTAM.versions CTAM.init).
      split_and!; [done|constructor|]. rewrite He. constructor.
    - destruct (IH Hi) as (als&V&Hs&Hf&Hrun).
      destruct (sim0_step _ _ _ _ Hs Hn) as (V'&Hs'&Hd).
      assert (∃ a, sys_data_event l a ∧ CTAM.next (CTAM.mkState V (eph s') ∅) (CTAM.mkState V' (eph s'') ∅) a) as (a&Ha&Hna).
      { assert (∀ V e, CTAM.next (CTAM.mkState V e ∅) (CTAM.mkState V e ∅) CTAM.Noop) as Hnoop by (intros; by do 5 right).
        destruct l as [req|reply|id|id|[req reply|id|id]|info| | | |]; cbn [dstep] in Hd.
        - eexists; split; [done|apply Hd].
        - eexists; split; [done|apply Hd].
        - destruct Hd as [-> ->]. eexists; split; [done|apply Hnoop].
        - destruct Hd as [-> ->]. eexists; split; [done|apply Hnoop].
        - eexists; split; [done|apply Hd].
        - destruct Hd as [-> ->]. eexists; split; [done|apply Hnoop].
        - destruct Hd as [-> ->]. eexists; split; [done|apply Hnoop].
        - destruct Hd as [-> ->]. eexists; split; [done|apply Hnoop].
        - destruct Hd as [-> ->]. eexists; split; [done|apply Hnoop].
        - destruct Hd as [-> [->|(v&Hv&->)]]; [exists CTAM.Noop; split; [by right|apply Hnoop]|].
          exists CTAM.SyncOp. split; [by left|]. do 2 right; left. exists v. done.
        - destruct Hd as [-> ->]. eexists; split; [done|]. right; left. done.
        - destruct Hd as [-> ->]. eexists; split; [done|apply Hnoop]. }
      exists (als ++ [a]), V'. split_and!; [done| |by eapply run_snoc].
      apply Forall2_app; [done|]. by repeat constructor.
  Qed.

  (** ** The repaired system *)
  Definition accepts (l : SystemModel.Label) (id : ID) : Prop :=
    l = SystemModel.AcceptSyncRequest id ∨ ∃ req, l = SystemModel.AcceptRequest req ∧ req_id req = id.
  Definition uncrashed (ls : list SystemModel.Label) (i j : nat) : Prop :=
    ∀ k, i < k < j → ls !! k ≠ Some SystemModel.Crash.
  Definition ui_accept id := SystemModel.ProgramUIOp (AcceptSync id).
  Definition ui_deliver id := SystemModel.ProgramUIOp (DeliverSync id).
  Record tinv (ls : list SystemModel.Label) (s : SState) : Prop := {
    t_hist : ∀ i l id, ls !! i = Some l → accepts l id → id ∈ SystemModel.id_history s;
    t_once : ∀ i j l l' id, ls !! i = Some l → ls !! j = Some l' → accepts l id → accepts l' id → i = j;
    t_sreq1 : ∀ id, multiplicity id (SystemModel.sync_requests s) ≤ 1;
    t_srep1 : ∀ id, multiplicity id (SystemModel.sync_replies s) ≤ 1;
    t_past : ∀ k id, ls !! k = Some (ui_accept id) ∨ ls !! k = Some (ui_deliver id) ∨
       ls !! k = Some (SystemModel.DeliverSyncReply id) → id ∈ SystemModel.id_history s;
    t_sreq : ∀ id, id ∈ SystemModel.sync_requests s →
      ∃ i, ls !! i = Some (SystemModel.AcceptSyncRequest id) ∧ uncrashed ls i (length ls) ∧
        ui_accept id ∉ ls ∧ ui_deliver id ∉ ls ∧ SystemModel.DeliverSyncReply id ∉ ls;
    t_smap : AtomicState.client_ready (SystemModel.program s) → ∀ id,
      is_Some (AtomicState.sync_req_map (SystemModel.program s) !! id) →
      ∃ i i', i < i' ∧ ls !! i = Some (SystemModel.AcceptSyncRequest id) ∧ uncrashed ls i (length ls) ∧
        (∀ k, ls !! k = Some (ui_accept id) ↔ k = i') ∧
        ui_deliver id ∉ ls ∧ SystemModel.DeliverSyncReply id ∉ ls;
    t_srep : ∀ id, id ∈ SystemModel.sync_replies s →
      ∃ i i' j', i < i' < j' ∧ ls !! i = Some (SystemModel.AcceptSyncRequest id) ∧ uncrashed ls i j' ∧
        (∀ k, ls !! k = Some (ui_accept id) ↔ k = i') ∧ ls !! j' = Some (ui_deliver id) ∧
        SystemModel.DeliverSyncReply id ∉ ls;
    t_delivered : ∀ j id, ls !! j = Some (SystemModel.DeliverSyncReply id) →
      ∃ i i' j', i < i' < j' ∧ j' < j ∧ ls !! i = Some (SystemModel.AcceptSyncRequest id) ∧ uncrashed ls i j' ∧
        (∀ k, ls !! k = Some (ui_accept id) ↔ k = i') ∧ ls !! j' = Some (ui_deliver id) ∧
        (∀ k, ls !! k = Some (SystemModel.DeliverSyncReply id) ↔ k = j) }.

  Lemma tinv_init s : SystemModel.initialize Concrete.model s → tinv [] s.
  Proof.
    intros (_&Hp&Hs). cbn in Hp. unfold AtomicState.init in Hp. rewrite Hs.
    split; cbn; unfold AtomicState.client_ready; rewrite ?Hp; intros; try done; try (rewrite multiplicity_empty; lia); try multiset_solver.
  Qed.
  Lemma notin_snoc {A} (x l : A) ls : x ∉ ls → x ≠ l → x ∉ ls ++ [l].
  Proof. set_solver. Qed.
  Lemma uncr_snoc ls i l :
    uncrashed ls i (length ls) → l ≠ SystemModel.Crash → uncrashed (ls ++ [l]) i (length (ls ++ [l])).
  Proof.
    intros Hu Hl k Hk [[Hlt He]|[-> ->]]%lookup_snoc_Some; [|done].
    apply (Hu k); [lia|done].
  Qed.
  Lemma uncr_old ls i j l : uncrashed ls i j → j ≤ length ls → uncrashed (ls ++ [l]) i j.
  Proof.
    intros Hu Hl k Hk [[Hlt He]|[-> ->]]%lookup_snoc_Some; [|lia]. by apply (Hu k).
  Qed.
  Lemma only_snoc {A} (ls : list A) x i l :
    (∀ k, ls !! k = Some x ↔ k = i) → l ≠ x → ∀ k, (ls ++ [l]) !! k = Some x ↔ k = i.
  Proof.
    intros Ho Hne k. rewrite lookup_snoc_Some. rewrite Ho. split; [intros [[_ ?]|[_ ?]]; done|].
    intros ->. left. split; [|done]. assert (ls !! i = Some x) as Hl by (by apply Ho).
    by apply lookup_lt_Some in Hl.
  Qed.
  Lemma only_new {A} (ls : list A) x : x ∉ ls → ∀ k, (ls ++ [x]) !! k = Some x ↔ k = length ls.
  Proof.
    intros Hn k. rewrite lookup_snoc_Some. split.
    - intros [[_ Hl]|[-> _]]; [|done]. apply elem_of_list_lookup_2 in Hl. done.
    - intros ->. by right.
  Qed.
  Lemma old_snoc {A} (ls : list A) l i x : ls !! i = Some x → (ls ++ [l]) !! i = Some x.
  Proof. apply lookup_app_l_Some. Qed.

  Definition sync_label (l : SystemModel.Label) : Prop :=
    match l with
    | SystemModel.AcceptSyncRequest _ | SystemModel.DeliverSyncReply _ => True
    | SystemModel.ProgramUIOp (AcceptSync _) | SystemModel.ProgramUIOp (DeliverSync _) => True
    | SystemModel.Crash => True
    | _ => False
    end.
  Lemma t_hist_snoc ls (s s' : SState) l :
    tinv ls s → (∀ id, id ∈ SystemModel.id_history s → id ∈ SystemModel.id_history s') →
    (∀ id, accepts l id → id ∈ SystemModel.id_history s' ∧ id ∉ SystemModel.id_history s) →
    (∀ i l0 id, (ls ++ [l]) !! i = Some l0 → accepts l0 id → id ∈ SystemModel.id_history s') ∧
    (∀ i j l0 l1 id, (ls ++ [l]) !! i = Some l0 → (ls ++ [l]) !! j = Some l1 → accepts l0 id → accepts l1 id → i = j).
  Proof.
    intros Ht Hh Hl. split.
    - intros i l0 id [[_ Hi]|[-> <-]]%lookup_snoc_Some Ha; [|by apply Hl]. apply Hh. by eapply t_hist.
    - intros i j l0 l1 id [[_ Hi]|[-> <-]]%lookup_snoc_Some [[_ Hj]|[-> <-]]%lookup_snoc_Some Ha Ha'; [| | |done].
      + by eapply t_once.
      + apply Hl in Ha' as [_ []]. by eapply t_hist.
      + apply Hl in Ha as [_ []]. by eapply t_hist.
  Qed.
  Lemma tinv_carry ls (s s' : SState) l :
    tinv ls s → ¬ sync_label l →
    (∀ id, id ∈ SystemModel.id_history s → id ∈ SystemModel.id_history s') →
    (∀ id, accepts l id → id ∈ SystemModel.id_history s' ∧ id ∉ SystemModel.id_history s) →
    SystemModel.sync_requests s' = SystemModel.sync_requests s →
    SystemModel.sync_replies s' = SystemModel.sync_replies s →
    (AtomicState.client_ready (SystemModel.program s') → ∀ id,
      is_Some (AtomicState.sync_req_map (SystemModel.program s') !! id) →
      AtomicState.client_ready (SystemModel.program s) ∧
      is_Some (AtomicState.sync_req_map (SystemModel.program s) !! id)) →
    tinv (ls ++ [l]) s'.
  Proof.
    intros Ht Hns Hh Hl Hq Hr Hm. destruct (t_hist_snoc ls s s' l Ht Hh Hl) as [H1 H2].
    assert (l ≠ SystemModel.Crash) as Hc by (by intros ->).
    assert (∀ id, l ≠ ui_accept id) as Hua by (by intros id ->).
    assert (∀ id, l ≠ ui_deliver id) as Hud by (by intros id ->).
    assert (∀ id, l ≠ SystemModel.DeliverSyncReply id) as Hd by (by intros id ->).
    split; [exact H1|exact H2| | | | | | |]; rewrite ?Hq, ?Hr.
    - apply (t_sreq1 _ _ Ht).
    - apply (t_srep1 _ _ Ht).
    - intros k id. rewrite !lookup_snoc_Some. intros Hx. apply Hh, (t_past _ _ Ht k).
      destruct Hx as [[[_ ?]|[_ ?]]|[[[_ ?]|[_ ?]]|[[_ ?]|[_ ?]]]]; auto;
        exfalso; [by eapply Hua|by eapply Hud|by eapply Hd].
    - intros id Hin. destruct (t_sreq _ _ Ht id Hin) as (i&?&?&?&?&?). exists i.
      split_and!; [by apply old_snoc|by apply uncr_snoc|..]; apply notin_snoc; auto using not_eq_sym.
    - intros Hrdy id Hin. destruct (Hm Hrdy id Hin) as [Hrdy0 Hin0].
      destruct (t_smap _ _ Ht Hrdy0 id Hin0) as (i&i'&?&?&?&?&?&?). exists i, i'.
      split_and!; [done|by apply old_snoc|by apply uncr_snoc|by apply only_snoc|..]; apply notin_snoc; auto using not_eq_sym.
    - intros id Hin. destruct (t_srep _ _ Ht id Hin) as (i&i'&j'&?&?&?&?&Hj'&?). exists i, i', j'.
      split_and!; [lia|lia|by apply old_snoc| |by apply only_snoc|by apply old_snoc|apply notin_snoc; auto using not_eq_sym].
      apply uncr_old; [done|]. apply lookup_lt_Some in Hj'. lia.
    - intros j id [[_ Hj]|[_ He]]%lookup_snoc_Some; [|exfalso; exact (Hd id He)].
      destruct (t_delivered _ _ Ht j id Hj) as (i&i'&j'&?&?&?&?&?&Hj'&?). exists i, i', j'.
      split_and!; [lia|lia|done|by apply old_snoc| |by apply only_snoc|by apply old_snoc|by apply only_snoc].
      apply uncr_old; [done|]. apply lookup_lt_Some in Hj'. lia.
  Qed.
  Lemma tinv_step ls s s' l V :
    sim0 s V → tinv ls s → SystemModel.next Concrete.model s s' l → guarded s l → tinv (ls ++ [l]) s'.
  Proof.
    intros [Hv _] Ht Hn Hg.
    destruct Hn as [(req&->&Hf&->)|[(reply&->&Hin&->)|[(p&req&reply&->&Hin&Hn&->)|[(id&->&Hf&->)|[(p&id&->&Hn&->)|
      [(p&id&->&Hn&->)|[(id&->&Hin&->)|[(p&d&info&->&Hn&Hd&->)|[(p&->&Hn&->)|[(d&->&Hd&->)|[(p&d&->&Hn&Hd&->)|[-> ->]]]]]]]]]]]].
    - eapply tinv_carry; [exact Ht|by intros []|..]; cbn; try done.
      + intros id Hid. rewrite elem_of_add. by left.
      + intros id [[=]|(?&[= <-]&<-)]. rewrite elem_of_add. split; [by right|done].
    - eapply tinv_carry; [exact Ht|by intros []|..]; cbn; try done. intros id [[=]|(?&[=]&_)].
    - eapply tinv_carry; [exact Ht|by intros []|..]; cbn; try done; [intros id [[=]|(?&[=]&_)]|].
      cbn in Hn. destruct Hn as (h&x&x'&Hrdy&_&_&_&_&_&_&->). done.
    - (* accept_sync_request *)
      assert (∀ k, ls !! k ≠ Some (ui_accept id)) as Ha by (intros k Hk; apply Hf, (t_past _ _ Ht k id); auto).
      assert (∀ k, ls !! k ≠ Some (ui_deliver id)) as Hd by (intros k Hk; apply Hf, (t_past _ _ Ht k id); auto).
      assert (∀ k, ls !! k ≠ Some (SystemModel.DeliverSyncReply id)) as Hr by (intros k Hk; apply Hf, (t_past _ _ Ht k id); auto).
      assert (∀ x : SystemModel.Label, (∀ k, ls !! k ≠ Some x) → x ∉ ls) as Hnin.
      { intros x Hx [k Hk]%elem_of_list_lookup. by apply (Hx k). }
      assert (id ∉ SystemModel.sync_requests s) as Hns.
      { intros (i&Hi&_)%(t_sreq _ _ Ht). apply Hf. eapply t_hist; [done|exact Hi|by left]. }
      match goal with |- tinv _ ?s' => destruct (t_hist_snoc ls s s' (SystemModel.AcceptSyncRequest id) Ht) as [H1 H2] end.
      { intros id' Hid'. cbn. rewrite elem_of_add. by left. }
      { intros id' [[= ->]|(?&[=]&_)]. cbn. rewrite elem_of_add. split; [by right|done]. }
      split; [exact H1|exact H2|..]; cbn.
      + intros id'. apply mult_add1; [done|apply (t_sreq1 _ _ Ht)].
      + apply (t_srep1 _ _ Ht).
      + intros k id'. rewrite !lookup_snoc_Some. intros Hx. rewrite elem_of_add. left. apply (t_past _ _ Ht k).
        destruct Hx as [[[_ ?]|[_ ?]]|[[[_ ?]|[_ ?]]|[[_ ?]|[_ ?]]]]; auto; done.
      + intros id'. rewrite elem_of_add. intros [Hin| ->].
        * destruct (t_sreq _ _ Ht id' Hin) as (i&?&?&?&?&?). exists i.
          split_and!; [by apply old_snoc|by apply uncr_snoc|..]; by apply notin_snoc.
        * exists (length ls). split_and!; [by apply lookup_snoc_Some; right| |apply notin_snoc; [by apply Hnin|done]..].
          intros k Hk. rewrite app_length in Hk. cbn in Hk. lia.
      + intros Hrdy id' Hin. destruct (t_smap _ _ Ht Hrdy id' Hin) as (i&i'&?&?&?&?&?&?). exists i, i'.
        split_and!; [done|by apply old_snoc|by apply uncr_snoc|by apply only_snoc|..]; by apply notin_snoc.
      + intros id' Hin. destruct (t_srep _ _ Ht id' Hin) as (i&i'&j'&?&?&?&?&Hj'&?). exists i, i', j'.
        split_and!; [lia|lia|by apply old_snoc| |by apply only_snoc|by apply old_snoc|by apply notin_snoc].
        apply uncr_old; [done|]. apply lookup_lt_Some in Hj'. lia.
      + intros j id' [[_ Hj]|[_ He]]%lookup_snoc_Some; [|done].
        destruct (t_delivered _ _ Ht j id' Hj) as (i&i'&j'&?&?&?&?&?&Hj'&?). exists i, i', j'.
        split_and!; [lia|lia|done|by apply old_snoc| |by apply only_snoc|by apply old_snoc|by apply only_snoc].
        apply uncr_old; [done|]. apply lookup_lt_Some in Hj'. lia.
    - (* program_accept_sync_request *)
      cbn in Hn, Hg. destruct Hn as [Hrdy ->].
      destruct (t_sreq _ _ Ht id Hg) as (i0&Hi0&Hu0&Hna&Hnd&Hnr).
      match goal with |- tinv _ ?s' => destruct (t_hist_snoc ls s s' (ui_accept id) Ht) as [H1 H2] end.
      { done. }
      { intros id' [[=]|(?&[=]&_)]. }
      split; [exact H1|exact H2|..]; cbn.
      + intros id'. apply mult_sub, (t_sreq1 _ _ Ht).
      + apply (t_srep1 _ _ Ht).
      + intros k id'. rewrite !lookup_snoc_Some. intros Hx.
        destruct Hx as [[[_ ?]|[_ Hx]]|[[[_ ?]|[_ ?]]|[[_ ?]|[_ ?]]]]; try done; [|injection Hx as <-|..].
        2: { eapply t_hist; [done|exact Hi0|by left]. }
        all: apply (t_past _ _ Ht k); auto.
      + intros id'. rewrite elem_of_sub1 by apply (t_sreq1 _ _ Ht). intros [Hin Hne].
        destruct (t_sreq _ _ Ht id' Hin) as (i&?&?&?&?&?). exists i.
        split_and!; [by apply old_snoc|by apply uncr_snoc|..]; apply notin_snoc; try done. by intros [= ->].
      + intros _ id'. destruct (decide (id' = id)) as [->|Hne].
        * intros _. exists i0, (length ls). split_and!; [by apply lookup_lt_Some in Hi0|by apply old_snoc|by apply uncr_snoc| | |].
          -- by apply only_new.
          -- by apply notin_snoc.
          -- by apply notin_snoc.
        * rewrite lookup_insert_ne by done. intros Hin.
          destruct (t_smap _ _ Ht Hrdy id' Hin) as (i&i'&?&?&?&?&?&?). exists i, i'.
          split_and!; [done|by apply old_snoc|by apply uncr_snoc| |by apply notin_snoc..].
          apply only_snoc; [done|]. intros [= ->]. done.
      + intros id' Hin. destruct (t_srep _ _ Ht id' Hin) as (i&i'&j'&?&?&?&Ho&Hj'&?). exists i, i', j'.
        split_and!; [lia|lia|by apply old_snoc| | |by apply old_snoc|by apply notin_snoc].
        * apply uncr_old; [done|]. apply lookup_lt_Some in Hj'. lia.
        * apply only_snoc; [done|]. intros [= ->]. apply Hna, elem_of_list_lookup. exists i'. by apply Ho.
      + intros j id' [[_ Hj]|[_ He]]%lookup_snoc_Some; [|done].
        destruct (t_delivered _ _ Ht j id' Hj) as (i&i'&j'&?&?&?&?&Ho&Hj'&?). exists i, i', j'.
        split_and!; [lia|lia|done|by apply old_snoc| | |by apply old_snoc|by apply only_snoc].
        * apply uncr_old; [done|]. apply lookup_lt_Some in Hj'. lia.
        * apply only_snoc; [done|]. intros [= ->]. apply Hna, elem_of_list_lookup. exists i'. by apply Ho.
    - (* program_deliver_sync_reply *)
      cbn in Hn, Hg. destruct Hn as (Hrdy&_&->).
      destruct (t_smap _ _ Ht Hrdy id Hg) as (i0&i0'&Hlt0&Hi0&Hu0&Ho0&Hnd&Hnr).
      assert (id ∉ SystemModel.sync_replies s) as Hns.
      { intros (?&?&?&_&_&_&_&Hx&_)%(t_srep _ _ Ht). apply elem_of_list_lookup_2 in Hx. done. }
      assert (ls !! i0' = Some (ui_accept id)) as Hi0' by by apply Ho0.
      match goal with |- tinv _ ?s' => destruct (t_hist_snoc ls s s' (ui_deliver id) Ht) as [H1 H2] end.
      { done. }
      { intros id' [[=]|(?&[=]&_)]. }
      split; [exact H1|exact H2|..]; cbn.
      + apply (t_sreq1 _ _ Ht).
      + intros id'. apply mult_add1; [done|apply (t_srep1 _ _ Ht)].
      + intros k id'. rewrite !lookup_snoc_Some. intros Hx.
        destruct Hx as [[[_ ?]|[_ ?]]|[[[_ ?]|[_ Hx]]|[[_ ?]|[_ ?]]]]; try done; [| |injection Hx as <-|..].
        3: { eapply t_hist; [done|exact Hi0|by left]. }
        all: apply (t_past _ _ Ht k); auto.
      + intros id' Hin. destruct (t_sreq _ _ Ht id' Hin) as (i&?&?&?&?&?). exists i.
        split_and!; [by apply old_snoc|by apply uncr_snoc|..]; apply notin_snoc; try done.
        intros [= ->]. apply elem_of_list_lookup_2 in Hi0'. done.
      + intros _ id'. rewrite lookup_delete_is_Some. intros [Hne Hin].
        destruct (t_smap _ _ Ht Hrdy id' Hin) as (i&i'&?&?&?&?&?&?). exists i, i'.
        split_and!; [done|by apply old_snoc|by apply uncr_snoc|by apply only_snoc|..]; apply notin_snoc; try done.
        intros [= ->]. done.
      + intros id'. rewrite elem_of_add. intros [Hin| ->].
        * destruct (t_srep _ _ Ht id' Hin) as (i&i'&j'&?&?&?&Ho&Hj'&?). exists i, i', j'.
          split_and!; [lia|lia|by apply old_snoc| |by apply only_snoc|by apply old_snoc|by apply notin_snoc].
          apply uncr_old; [done|]. apply lookup_lt_Some in Hj'. lia.
        * exists i0, i0', (length ls). apply lookup_lt_Some in Hi0' as Hl.
          split_and!; [lia|lia|by apply old_snoc|by apply uncr_old|by apply only_snoc|by apply lookup_snoc_Some; right|by apply notin_snoc].
      + intros j id' [[_ Hj]|[_ He]]%lookup_snoc_Some; [|done].
        destruct (t_delivered _ _ Ht j id' Hj) as (i&i'&j'&?&?&?&?&Ho&Hj'&?). exists i, i', j'.
        split_and!; [lia|lia|done|by apply old_snoc| |by apply only_snoc|by apply old_snoc|by apply only_snoc].
        apply uncr_old; [done|]. apply lookup_lt_Some in Hj'. lia.
    - (* deliver_sync_reply *)
      destruct (t_srep _ _ Ht id Hin) as (i0&i0'&j0&Hlt0&Hi0&Hu0&Ho0&Hj0&Hnr).
      assert (ls !! i0' = Some (ui_accept id)) as Hi0' by by apply Ho0.
      match goal with |- tinv _ ?s' => destruct (t_hist_snoc ls s s' (SystemModel.DeliverSyncReply id) Ht) as [H1 H2] end.
      { done. }
      { intros id' [[=]|(?&[=]&_)]. }
      split; [exact H1|exact H2|..]; cbn.
      + apply (t_sreq1 _ _ Ht).
      + intros id'. apply mult_sub, (t_srep1 _ _ Ht).
      + intros k id'. rewrite !lookup_snoc_Some. intros Hx.
        destruct Hx as [[[_ ?]|[_ ?]]|[[[_ ?]|[_ ?]]|[[_ ?]|[_ Hx]]]]; try done; [| | |injection Hx as <-].
        4: { eapply t_hist; [done|exact Hi0|by left]. }
        all: apply (t_past _ _ Ht k); auto.
      + intros id' Hin'. destruct (t_sreq _ _ Ht id' Hin') as (i&?&?&?&?&?). exists i.
        split_and!; [by apply old_snoc|by apply uncr_snoc|..]; apply notin_snoc; try done.
        intros [= ->]. apply elem_of_list_lookup_2 in Hi0'. done.
      + intros Hrdy id' Hin'.
        destruct (t_smap _ _ Ht Hrdy id' Hin') as (i&i'&?&?&?&?&?&?). exists i, i'.
        split_and!; [done|by apply old_snoc|by apply uncr_snoc|by apply only_snoc|..]; apply notin_snoc; try done.
        intros [= ->]. apply elem_of_list_lookup_2 in Hj0. done.
      + intros id'. rewrite elem_of_sub1 by apply (t_srep1 _ _ Ht). intros [Hin' Hne].
        destruct (t_srep _ _ Ht id' Hin') as (i&i'&j'&?&?&?&Ho&Hj'&?). exists i, i', j'.
        split_and!; [lia|lia|by apply old_snoc| |by apply only_snoc|by apply old_snoc|apply notin_snoc; [done|by intros [= ->]]].
        apply uncr_old; [done|]. apply lookup_lt_Some in Hj'. lia.
      + intros j id' [[_ Hj]|[-> He]]%lookup_snoc_Some.
        * destruct (t_delivered _ _ Ht j id' Hj) as (i&i'&j'&?&?&?&?&Ho&Hj'&?). exists i, i', j'.
          split_and!; [lia|lia|done|by apply old_snoc| |by apply only_snoc|by apply old_snoc|].
          -- apply uncr_old; [done|]. apply lookup_lt_Some in Hj'. lia.
          -- apply only_snoc; [done|]. intros [= ->]. apply elem_of_list_lookup_2 in Hj. done.
        * injection He as <-. exists i0, i0', j0. apply lookup_lt_Some in Hj0 as Hl.
          split_and!; [lia|lia|done|by apply old_snoc|apply uncr_old; [done|lia]|by apply only_snoc|by apply old_snoc|by apply only_new].
    - (* program_disk *)
      cbn in Hn. destruct (vrel_disk _ _ _ _ _ _ _ Hv Hn Hd) as (_&Hm1&Hm2).
      eapply tinv_carry; [exact Ht|by intros []|..]; cbn; try done; [intros id [[=]|(?&[=]&_)]|].
      intros Hrdy id Hin. destruct (Hm2 Hrdy) as [Hr|He].
      + split; [done|]. destruct (Hm1 Hr) as [_ He]. by rewrite <- He.
      + rewrite He, lookup_empty in Hin. by destruct Hin.
    - cbn in Hn. destruct Hn as [<- _].
      eapply tinv_carry; [exact Ht|by intros []|..]; cbn; try done. intros id [[=]|(?&[=]&_)].
    - eapply tinv_carry; [exact Ht|by intros []|..]; cbn; try done. intros id [[=]|(?&[=]&_)].
    - (* crash *)
      match goal with |- tinv _ ?s' => destruct (t_hist_snoc ls s s' SystemModel.Crash Ht) as [H1 H2] end.
      { done. }
      { intros id' [[=]|(?&[=]&_)]. }
      cbn in Hn. unfold AtomicState.init in Hn.
      split; [exact H1|exact H2|..]; cbn.
      + intros. rewrite multiplicity_empty. lia.
      + apply (t_srep1 _ _ Ht).
      + intros k id'. rewrite !lookup_snoc_Some. intros Hx. apply (t_past _ _ Ht k).
        destruct Hx as [[[_ ?]|[_ ?]]|[[[_ ?]|[_ ?]]|[[_ ?]|[_ ?]]]]; auto; done.
      + intros. multiset_solver.
      + unfold AtomicState.client_ready. rewrite Hn. done.
      + intros id' Hin. destruct (t_srep _ _ Ht id' Hin) as (i&i'&j'&?&?&?&?&Hj'&?). exists i, i', j'.
        split_and!; [lia|lia|by apply old_snoc| |by apply only_snoc|by apply old_snoc|by apply notin_snoc].
        apply uncr_old; [done|]. apply lookup_lt_Some in Hj'. lia.
      + intros j id' [[_ Hj]|[_ He]]%lookup_snoc_Some; [|done].
        destruct (t_delivered _ _ Ht j id' Hj) as (i&i'&j'&?&?&?&?&?&Hj'&?). exists i, i', j'.
        split_and!; [lia|lia|done|by apply old_snoc| |by apply only_snoc|by apply old_snoc|by apply only_snoc].
        apply uncr_old; [done|]. apply lookup_lt_Some in Hj'. lia.
    - eapply tinv_carry; [exact Ht|by intros []|..]; cbn; try done. intros id [[=]|(?&[=]&_)].
  Qed.

  (** The spec's pending syncs: the program's table while it serves clients. *)
  Definition srel (s : SState) (sr : gmap ID nat) : Prop :=
    (AtomicState.client_ready (SystemModel.program s) → sr = AtomicState.sync_req_map (SystemModel.program s)) ∧
    (¬ AtomicState.client_ready (SystemModel.program s) → sr = ∅).
  Lemma vrel_ready p d V : vrel p d V → AtomicState.client_ready p →
    fs_len V = fs_len (AtomicState.history p) ∧ fs_start (AtomicState.history p) ≤ fs_start V.
  Proof.
    intros (page&Hc&Hv) Hr. unfold AtomicState.client_ready in Hr. rewrite Hr in Hv.
    destruct Hv as [Hne Hv]. destruct (AtomicState.in_flight p) as [info|].
    - destruct Hv as [Hrange [(?&?&?&?&?&->)|(?&?&?&->)]]; [done|].
      split; [apply fs_get_suffix_len; exact (conj (proj1 Hrange) (Nat.lt_le_incl _ _ (proj2 Hrange)))|]. exact (proj1 Hrange).
    - by destruct Hv as (_&_&_&->).
  Qed.
  Lemma srel_same (s s' : SState) sr :
    AtomicState.recovery_state (SystemModel.program s') = AtomicState.recovery_state (SystemModel.program s) →
    AtomicState.sync_req_map (SystemModel.program s') = AtomicState.sync_req_map (SystemModel.program s) →
    srel s sr → srel s' sr.
  Proof. unfold srel, AtomicState.client_ready. intros -> ->. done. Qed.
  Lemma fixed_sim s0 ls s :
    SystemModel.initialize Concrete.model_fixed s0 → run (SystemModel.next_fixed Concrete.model_fixed) s0 ls s →
    tinv ls s ∧ ∃ als V sr, sim0 s V ∧ srel s sr ∧ Forall2 sys_event ls als ∧
      run CTAM.next CTAM.init als (CTAM.mkState V (eph s) sr).
  Proof.
    intros Hi Hr. induction Hr as [s|s ls s' l s'' _ IH Hn].
    - split; [by apply tinv_init|]. apply sim0_init in Hi as (Hs&He&Hrd). exists [], (CTAM.versions CTAM.init), ∅.
      split_and!; [done|split; done|constructor|]. rewrite He. constructor.
    - destruct (IH Hi) as (Ht&als&V&sr&Hs&Hsr&Hf&Hrun). apply fixed_guarded in Hn as [Hn Hg].
      split; [by eapply tinv_step|].
      destruct (sim0_step _ _ _ _ Hs Hn) as (V'&Hs'&Hd).
      assert (∃ a sr', srel s'' sr' ∧ sys_event l a ∧ CTAM.next (CTAM.mkState V (eph s') sr) (CTAM.mkState V' (eph s'') sr') a) as (a&sr'&Hsr'&Ha&Hna).
      { assert (∀ V e sr, CTAM.next (CTAM.mkState V e sr) (CTAM.mkState V e sr) CTAM.Noop) as Hnoop by (intros; by do 5 right).
        destruct Hn as [(req&->&Hf'&->)|[(reply&->&Hin&->)|[(p&req&reply&->&Hin&Hn&->)|[(id&->&Hf'&->)|[(p&id&->&Hn&->)|
          [(p&id&->&Hn&->)|[(id&->&Hin&->)|[(p&d&info&->&Hn&Hdk&->)|[(p&->&Hn&->)|[(d&->&Hdk&->)|[(p&d&->&Hn&Hdk&->)|[-> ->]]]]]]]]]]]];
          cbn [dstep] in Hd.
        - eexists _, sr. split_and!; [done|done|apply Hd].
        - eexists _, sr. split_and!; [done|done|apply Hd].
        - eexists _, sr. split_and!; [|done|apply Hd]. cbn in Hn. destruct Hn as (h&x&x'&Hrdy&_&_&_&_&_&_&->).
          by eapply srel_same; [..|exact Hsr].
        - destruct Hd as [-> ->]. eexists _, sr. split_and!; [done|done|apply Hnoop].
        - destruct Hd as [-> ->]. cbn in Hn, Hg. destruct Hn as [Hrdy ->].
          destruct Hsr as [Hsr _]. specialize (Hsr Hrdy).
          destruct (vrel_ready _ _ _ (proj1 Hs) Hrdy) as [Hlen _].
          eexists _, _. split_and!; [|done|].
          + split; [intros _; done|]. intros Hx. by destruct Hx.
          + do 3 right; left. exists id. cbn [CTAM.versions CTAM.sync_requests CTAM.async_ephemeral].
            split_and!; [done| |].
            * rewrite Hsr. apply eq_None_not_Some. intros Hin.
              destruct (t_smap _ _ Ht Hrdy id Hin) as (_&i'&_&_&_&Ho&_).
              destruct (t_sreq _ _ Ht id Hg) as (_&_&_&Hna&_). apply Hna, elem_of_list_lookup. exists i'. by apply Ho.
            * rewrite Hsr. exact (f_equal (λ n, CTAM.mkState V _ (<[id := n - 1]> (AtomicState.sync_req_map (SystemModel.program s')))) (eq_sym Hlen)).
        - destruct Hd as [-> ->]. cbn in Hn, Hg. destruct Hn as (Hrdy&Hle&->).
          destruct Hsr as [Hsr _]. specialize (Hsr Hrdy). destruct Hg as [v Hg].
          destruct (vrel_ready _ _ _ (proj1 Hs) Hrdy) as [_ Hst].
          eexists _, _. split_and!; [|done|].
          + split; [intros _; done|]. intros Hx. by destruct Hx.
          + do 4 right; left. exists id, v. cbn [CTAM.versions CTAM.sync_requests CTAM.async_ephemeral].
            split_and!; [done|by rewrite Hsr| |by rewrite Hsr].
            unfold CTAM.stable_index. cbn [CTAM.versions]. unfold fs_first_active_index in *.
            etrans; [by apply Hle|exact Hst].
        - destruct Hd as [-> ->]. eexists _, sr. split_and!; [done|done|apply Hnoop].
        - destruct Hd as [-> ->]. cbn in Hn. destruct (vrel_disk _ _ _ _ _ _ _ (proj1 Hs) Hn Hdk) as (_&Hm1&Hm2).
          eexists _, sr. split_and!; [|done|apply Hnoop]. destruct Hsr as [Hsr1 Hsr2]. split; cbn.
          + intros Hrdy. assert (AtomicState.client_ready (SystemModel.program s') ∨ ¬ AtomicState.client_ready (SystemModel.program s')) as [Hr|Hr] by (unfold AtomicState.client_ready; destruct (AtomicState.recovery_state (SystemModel.program s')); auto).
            * destruct (Hm1 Hr) as [_ ->]. by apply Hsr1.
            * destruct (Hm2 Hrdy) as [?| ->]; [done|]. by apply Hsr2.
          + intros Hrdy. apply Hsr2. intros Hr. by destruct (Hm1 Hr).
        - cbn in Hn. destruct Hn as [<- _]. destruct Hd as [-> ->]. eexists _, sr. split_and!; [done|done|apply Hnoop].
        - destruct Hd as [He Hd]. rewrite He. destruct Hd as [->|(v&Hv&->)].
          + exists CTAM.Noop, sr. split_and!; [done|by right|apply Hnoop].
          + exists CTAM.SyncOp, sr. split_and!; [done|by left|]. do 2 right; left. by exists v.
        - destruct Hd as [-> He]. cbn in Hn. unfold AtomicState.init in Hn. eexists _, ∅. split_and!; [|done|].
          + split; cbn; [|done]. unfold AtomicState.client_ready. by rewrite Hn.
          + right; left. split; [done|]. rewrite He. done.
        - destruct Hd as [-> _]. eexists _, sr. split_and!; [done|done|apply Hnoop]. }
      exists (als ++ [a]), V', sr'. split_and!; [done|done| |by eapply run_snoc].
      apply Forall2_app; [done|]. by repeat constructor.
  Qed.

  Lemma logs_grow als logs i n a b :
    explained als logs → i ≤ n → (∀ k, i ≤ k < n → als !! k ≠ Some CTAM.CrashOp) →
    logs !! i = Some a → logs !! n = Some b → a `prefix_of` b.
  Proof.
    intros (Hl&_&He) Hin. revert b. induction Hin as [|n Hin IH]; intros b Hc Ha Hb.
    - rewrite Ha in Hb. by injection Hb as ->.
    - assert (n < length als) as Hn by (apply lookup_lt_Some in Hb; lia).
      apply lookup_lt_is_Some in Hn as [l Hl']. destruct (He n l Hl') as (x&y&Hx&Hy&Hstep).
      rewrite Hb in Hy. injection Hy as <-.
      assert (a `prefix_of` x) as Hax by (apply IH; [intros k ?; apply Hc; lia|done|done]).
      etrans; [exact Hax|].
      destruct l as [[]| | | | |]; cbn in Hstep; try (by subst).
      + destruct Hstep as (_&_&->). by exists [req_input req].
      + exfalso. apply (Hc n); [lia|done].
  Qed.
  Lemma sys_event_crash l : sys_event l CTAM.CrashOp → l = SystemModel.Crash.
  Proof. destruct l as [| | | |[]| | | | |]; cbn; intros Hx; try done. by destruct Hx. Qed.
  Lemma sys_event_req l id : sys_event l (CTAM.ReqSyncOp id) → l = ui_accept id.
  Proof. destruct l as [| | | |[]| | | | |]; cbn; intros Hx; try done; [by injection Hx as ->|by destruct Hx]. Qed.

  (** C22 and C23 for the repaired system. *)
  Lemma fixed_correct s0 ls s :
    SystemModel.initialize Concrete.model_fixed s0 → run (SystemModel.next_fixed Concrete.model_fixed) s0 ls s →
    ∃ als, Forall2 sys_event ls als ∧ (∃ t, run CTAM.next CTAM.init als t) ∧
      ∃ logs, explained als logs ∧ syncs_durable als logs ∧ client_syncs_durable ls logs.
  Proof.
    intros Hi Hr. destruct (fixed_sim s0 ls s Hi Hr) as (Ht&als&V&sr&_&_&Hf&Hrun).
    exists als. split; [done|]. split; [by eexists|].
    destruct (ctam_explained als _ Hrun) as (logs&_&_&He&Hs&_). exists logs. split_and!; [done|done|].
    intros i j id Hli Hlj.
    destruct (t_delivered _ _ Ht j id Hlj) as (i0&i'&j'&[Hii Hij]&Hjj&Hi0&Hu&Ho&Hj'&_).
    assert (i0 = i) as -> by (eapply (t_once _ _ Ht); [exact Hi0|exact Hli|by left|by left]).
    destruct (Forall2_lookup_l _ _ _ _ _ Hf Hj') as (a'&Ha'&Hev). cbn in Hev. subst a'.
    destruct (Hs j' id Ha') as (i2&(Hi2j&Hi2&_)&a&Hla&Hpre).
    destruct (Forall2_lookup_r _ _ _ _ _ Hf Hi2) as (l2&Hl2&Hev2). apply sys_event_req in Hev2 as ->.
    apply Ho in Hl2 as ->.
    assert (i < length logs) as Hil.
    { destruct He as (Hlen&_). apply Forall2_length in Hf. apply lookup_lt_Some in Hli. lia. }
    apply lookup_lt_is_Some in Hil as [b Hb]. exists b. split; [done|]. intros k c Hk Hc.
    etrans; [|apply (Hpre k c); [lia|done]].
    eapply logs_grow; [exact He|exact (Nat.lt_le_incl _ _ Hii)| |done|done].
    intros m Hm Hcr. destruct (Forall2_lookup_r _ _ _ _ _ Hf Hcr) as (lc&Hlc&Hevc). apply sys_event_crash in Hevc as ->.
    destruct (decide (m = i)) as [->|Hne]; [congruence|]. apply (Hu m); [lia|done].
  Qed.
  Lemma fixed_syncs_once s0 ls s :
    SystemModel.initialize Concrete.model_fixed s0 → run (SystemModel.next_fixed Concrete.model_fixed) s0 ls s →
    syncs_answered_once ls.
  Proof.
    intros Hi Hr. destruct (fixed_sim s0 ls s Hi Hr) as (Ht&_). intros j id Hj.
    destruct (t_delivered _ _ Ht j id Hj) as (i&i'&j'&Hii&Hjj&Hi0&_&_&_&Ho). split.
    - exists i. split; [lia|done].
    - intros k Hk. by apply Ho.
  Qed.
  Lemma written_correct s0 ls s :
    SystemModel.initialize Concrete.model s0 → run (SystemModel.next Concrete.model) s0 ls s →
    ∃ als, Forall2 sys_data_event ls als ∧ (∃ t, run CTAM.next CTAM.init als t) ∧
      ∃ logs, explained als logs.
  Proof.
    intros Hi Hr. destruct (written_data s0 ls s Hi Hr) as (als&V&_&Hf&Hrun).
    exists als. split; [done|]. split; [by eexists|].
    destruct (ctam_explained als _ Hrun) as (logs&_&_&He&Hs&_). by exists logs.
  Qed.

  (** ** Ordinary requests are answered at most once (system as written) *)
  Record rinv (ls : list SystemModel.Label) (s : SState) : Prop := {
    r_req : ∀ req, req ∈ SystemModel.requests s → SystemModel.AcceptRequest req ∈ ls;
    r_rep : ∀ rep, rep ∈ SystemModel.replies s → ∃ req, SystemModel.AcceptRequest req ∈ ls ∧ req_id req = reply_id rep;
    r_reqn : ∀ req j rep, req ∈ SystemModel.requests s → ls !! j = Some (SystemModel.DeliverReply rep) → reply_id rep ≠ req_id req;
    r_repn : ∀ r j rep, r ∈ SystemModel.replies s → ls !! j = Some (SystemModel.DeliverReply rep) → reply_id rep ≠ reply_id r;
    r_past : ∀ j rep, ls !! j = Some (SystemModel.DeliverReply rep) → reply_id rep ∈ SystemModel.id_history s;
    r_done : requests_answered_once ls }.
  Lemma answered_snoc ls l :
    requests_answered_once ls → (∀ rep, l ≠ SystemModel.DeliverReply rep) → requests_answered_once (ls ++ [l]).
  Proof.
    intros Hd Hl j rep [[_ Hj]|[_ He]]%lookup_snoc_Some; [|by apply Hl in He].
    destruct (Hd j rep Hj) as [(i&req&Hij&Hi&Hid) Ho]. split.
    - exists i, req. split_and!; [done|by apply old_snoc|done].
    - intros j' rep' [[_ Hj']|[_ He]]%lookup_snoc_Some; [by apply Ho|by apply Hl in He].
  Qed.
  Lemma rinv_carry ls (s s' : SState) l :
    rinv ls s → (∀ rep, l ≠ SystemModel.DeliverReply rep) →
    (∀ r, r ∈ SystemModel.requests s' → r ∈ SystemModel.requests s) →
    (∀ r, r ∈ SystemModel.replies s' → r ∈ SystemModel.replies s) →
    (∀ i, i ∈ SystemModel.id_history s → i ∈ SystemModel.id_history s') → rinv (ls ++ [l]) s'.
  Proof.
    intros [R1 R2 R3 R4 R5 R6] Hl Hq Hr Hh. split.
    - intros req Hin. apply elem_of_app. left. by apply R1, Hq.
    - intros rep Hin. destruct (R2 rep (Hr _ Hin)) as (req&Ha&Hid). exists req. split; [|done].
      apply elem_of_app. by left.
    - intros req j rep Hin [[_ Hj]|[_ He]]%lookup_snoc_Some; [by eapply R3; [apply Hq|]|by apply Hl in He].
    - intros req j rep Hin [[_ Hj]|[_ He]]%lookup_snoc_Some; [by eapply R4; [apply Hr|]|by apply Hl in He].
    - intros j rep [[_ Hj]|[_ He]]%lookup_snoc_Some; [by eapply Hh, R5|by apply Hl in He].
    - by apply answered_snoc.
  Qed.
  Lemma rinv_step ls s s' l V :
    sim0 s V → rinv ls s → SystemModel.next Concrete.model s s' l → rinv (ls ++ [l]) s'.
  Proof.
    intros [Hv Hi] Ht Hn.
    destruct Hn as [(req&->&Hf&->)|[(reply&->&Hin&->)|[(p&req&reply&->&Hin&Hn&->)|[(id&->&Hf&->)|[(p&id&->&Hn&->)|
      [(p&id&->&Hn&->)|[(id&->&Hin&->)|[(p&d&info&->&Hn&Hd&->)|[(p&->&Hn&->)|[(d&->&Hd&->)|[(p&d&->&Hn&Hd&->)|[-> ->]]]]]]]]]]]].
    3: { (* program_execute *)
      cbn in Hn. destruct (vrel_map _ _ _ _ _ _ Hv Hn) as (V'&y&y'&Hv'&Hy&Hy'&Happ&Hmap&Hid).
      destruct Ht as [R1 R2 R3 R4 R5 R6]. split; cbn.
      - intros r. rewrite elem_of_sub1 by apply (ids_req1 s Hi). intros [Hr _]. apply elem_of_app. left. by apply R1.
      - intros r. rewrite elem_of_add. intros [Hr| ->].
        + destruct (R2 r Hr) as (q&Hq&?). exists q. split; [|done]. apply elem_of_app. by left.
        + exists req. split; [|done]. apply elem_of_app. left. by apply R1.
      - intros r j rep. rewrite elem_of_sub1 by apply (ids_req1 s Hi). intros [Hr _] [[_ Hj]|[_ He]]%lookup_snoc_Some; [|done].
        by eapply R3.
      - intros r j rep. rewrite elem_of_add. intros [Hr| ->] [[_ Hj]|[_ He]]%lookup_snoc_Some; try done.
        + by eapply R4.
        + rewrite <- Hid. by eapply R3.
      - intros j rep [[_ Hj]|[_ He]]%lookup_snoc_Some; [|done]. by eapply R5.
      - by apply answered_snoc. }
    2: { (* deliver_reply *)
      destruct Ht as [R1 R2 R3 R4 R5 R6]. split; cbn.
      - intros r Hr. apply elem_of_app. left. by apply R1.
      - intros r. rewrite elem_of_sub1 by apply (ids_rep1 s Hi). intros [Hr _].
        destruct (R2 r Hr) as (q&Hq&?). exists q. split; [|done]. apply elem_of_app. by left.
      - intros r j rep Hr [[_ Hj]|[_ [= <-]]]%lookup_snoc_Some; [by eapply R3|].
        intros He. by eapply (ids_disj s Hi).
      - intros r j rep. rewrite elem_of_sub1 by apply (ids_rep1 s Hi).
        intros [Hr Hne] [[_ Hj]|[_ [= <-]]]%lookup_snoc_Some; [by eapply R4|].
        intros He. apply Hne. by apply (ids_rep2 s Hi).
      - intros j rep [[_ Hj]|[_ [= <-]]]%lookup_snoc_Some; [by eapply R5|by apply (ids_rep s Hi)].
      - intros j rep Hj. apply lookup_snoc_Some in Hj as [[_ Hj]|[-> [= <-]]].
        + destruct (R6 j rep Hj) as [(i&q&Hij&Hq&Hid) Ho]. split.
          * exists i, q. split_and!; [done|by apply old_snoc|done].
          * intros j' rep' [[_ Hj']|[_ [= <-]]]%lookup_snoc_Some Hid'; [by eapply Ho|].
            exfalso. eapply (R4 reply j rep); done.
        + split.
          * destruct (R2 reply Hin) as (q&[i Hq]%elem_of_list_lookup&Hid). exists i, q.
            split_and!; [by apply lookup_lt_Some in Hq|by apply old_snoc|done].
          * intros j' rep' [[_ Hj']|[-> _]]%lookup_snoc_Some Hid'; [|done]. exfalso. by eapply (R4 reply j' rep'). }
    1: { (* accept_request *)
      destruct Ht as [R1 R2 R3 R4 R5 R6]. split; cbn.
      - intros r. rewrite elem_of_add, elem_of_app, elem_of_list_singleton. intros [Hr| ->]; [left; by apply R1|by right].
      - intros r Hr. destruct (R2 r Hr) as (q&Hq&?). exists q. split; [|done]. apply elem_of_app. by left.
      - intros r j rep. rewrite elem_of_add. intros [Hr| ->] [[_ Hj]|[_ He]]%lookup_snoc_Some; try done; [by eapply R3|].
        intros He. apply Hf. rewrite <- He. by eapply R5.
      - intros r j rep Hr [[_ Hj]|[_ He]]%lookup_snoc_Some; try done. by eapply R4.
      - intros j rep [[_ Hj]|[_ He]]%lookup_snoc_Some; [|done]. rewrite elem_of_add. left. by eapply R5.
      - by apply answered_snoc. }
    all: eapply rinv_carry; [exact Ht|done|cbn; try done..].
    - intros i Hin. rewrite elem_of_add. by left.
    - intros. multiset_solver.
    - intros. multiset_solver.
  Qed.
  Lemma written_requests_once s0 ls s :
    SystemModel.initialize Concrete.model s0 → run (SystemModel.next Concrete.model) s0 ls s →
    requests_answered_once ls.
  Proof.
    intros Hi Hr. cut (rinv ls s ∧ ∃ V, sim0 s V); [by intros [[] _]|].
    induction Hr as [s|s ls s' l s'' _ IH Hn].
    - split.
      + destruct Hi as (_&_&Hs). rewrite Hs. split; cbn; intros; try done; multiset_solver.
      + apply sim0_init in Hi as (Hs&_). by eexists.
    - destruct (IH Hi) as [Hrv [V Hs]]. split; [by eapply rinv_step|].
      destruct (sim0_step _ _ _ _ Hs Hn) as (V'&Hs'&_). by exists V'.
  Qed.
End proof.
