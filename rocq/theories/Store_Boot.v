(** The assembled store recovers from every crash, one journal page at a time (C48). *)
From Verif Require Import Spec_Model Spec_Spec Spec_Proof Abs_Model Abs_Spec Abs_Proof Coord_Proof Coord_Live
  Betree_Model Betree_Spec Betree_Common
  Journal_Model Journal_Spec Paged_Proof Linked_Proof AllocJournal_Model AllocJournal_Proof AllocJournal_Facts
  CrashJournal_Model CrashJournal_Spec CrashJournal_Proof CrashJournal_Facts
  Store_Model Store_Spec Store_Proof.
From Coq Require Import Lia.

(** ** The pages of a journal, oldest first *)
Definition end_of (start : LSN) (hs : list MsgHistory) : LSN := foldl (λ _ h, seq_end h) start hs.
Lemma consecutive_snoc hs : ∀ start h, consecutive start hs → mh_wf h → seq_start h = end_of start hs →
  consecutive start (hs ++ [h]).
Proof. induction hs as [|x hs IH]; intros start h; cbn; [done|]. intros (H1&H2&H3) Hw He. split; [done|]. split; [done|]. by apply IH. Qed.
Lemma end_of_snoc start hs h : end_of start (hs ++ [h]) = seq_end h.
Proof. unfold end_of. by rewrite foldl_app. Qed.
Definition page_at (dv : DiskView) (ptr : Pointer) (r : MsgHistory) : Prop :=
  mh_wf r ∧ ∃ d, Linked.dv_can_crop dv ptr d ∧ ∃ a q, Linked.pointer_after_crop dv ptr d = Some a ∧
    entries dv !! a = Some q ∧ maybe_discard_old (message_seq q) (boundary_lsn dv) = r.
Lemma pages_of dv ptr l : Linked.dv_wf dv → path dv ptr l → Linked.block_in_bounds dv ptr →
  ∃ rs, consecutive (boundary_lsn dv) rs ∧ end_of (boundary_lsn dv) rs = Linked.dv_seq_end dv ptr ∧ Forall (page_at dv ptr) rs.
Proof.
  intros (Hew&Hnd&Hcc&Hlk) Hp. induction Hp as [|a r l He Hp IH]; intros Hb.
  - exists []. done.
  - destruct (Hew _ _ He) as [Hw Hne]. destruct Hb as [_ Hb]. specialize (Hb a r eq_refl He).
    destruct (decide (boundary_lsn dv < seq_start (message_seq r))) as [Hlt|Hge].
    + destruct (Hlk _ _ He Hlt) as [p Hpp]. destruct (Hnd _ _ He _ Hpp) as [q Hq].
      pose proof (Hcc _ _ He _ _ Hpp Hq) as Hc. unfold can_concat, can_follow in Hc.
      destruct IH as (rs&H1&H2&H3).
      { split; [by apply (Hnd _ _ He)|]. intros x y Hx Hy. rewrite Hpp in Hx. injection Hx as <-. rewrite Hq in Hy. injection Hy as <-. lia. }
      exists (rs ++ [message_seq r]). split_and!.
      * apply consecutive_snoc; [done|done|]. rewrite H2, Hpp. cbn. by rewrite Hq.
      * rewrite end_of_snoc. cbn. by rewrite He.
      * apply Forall_app. split.
        -- eapply Forall_impl; [|exact H3]. intros x (Hx&d&Hd&b&y&Hpt&Hy&E). split; [done|]. exists (S d). cbn.
           rewrite He. split; [done|]. by exists b, y.
        -- constructor; [|constructor]. split; [done|]. exists 0. split; [done|]. exists a, r. split; [done|]. split; [done|].
           unfold maybe_discard_old. rewrite decide_False by lia. done.
    + exists [discard_old (message_seq r) (boundary_lsn dv)].
      assert (mh_wf (discard_old (message_seq r) (boundary_lsn dv))) by (apply do_wf; [done|split; lia]).
      split_and!; [|cbn; by rewrite He|].
      * split; [done|]. split; [done|exact I].
      * constructor; [|constructor]. split; [done|]. exists 0. split; [done|]. exists a, r. split; [done|]. split; [done|].
        unfold maybe_discard_old. by rewrite decide_True by lia.
Qed.
Lemma linked_pages tj : Linked.tj_decodable tj →
  let st := Linked.mkState tj (empty_history_at (Linked.tj_seq_end tj)) in
  ∃ rs, consecutive (Linked.tj_seq_start tj) rs ∧ end_of (Linked.tj_seq_start tj) rs = Linked.tj_seq_end tj ∧
    Forall (λ r, Linked.next st st (Linked.ReadForRecovery r)) rs ∧
    Linked.next st st (Linked.QueryEndLsn (Linked.tj_seq_end tj)).
Proof.
  intros Hd st. pose proof Hd as ((Hw&Hb)&Hac). destruct (path_exists _ _ Hw Hac (proj1 Hb)) as [l Hp].
  destruct (pages_of _ _ _ Hw Hp Hb) as (rs&H1&H2&H3).
  assert (Linked.wf st) as Hst.
  { split; [apply Hd|]. split; [apply empty_history_wf|]. split; [|done]. cbn. unfold Linked.tj_seq_start, Linked.tj_seq_end, Linked.dv_seq_end.
    clear -Hb. destruct (freshest_rec tj) as [a|]; [|done]. destruct (entries (disk_view tj) !! a) as [r|] eqn:Er; [|done].
    pose proof (proj2 Hb a r eq_refl Er). lia. }
  exists rs. split_and!; [done|done| |].
  - eapply Forall_impl; [|exact H3]. intros r (Hr&d&Hc&a&q&Hpt&Hq&E). left. exists d. split; [done|]. exists r.
    split; [done|]. split; [done|]. split; [done|]. split; [done|]. exists a, q. done.
  - right; right; left. done.
Qed.

(** ** What booting needs of a journal *)
Definition can_boot (J : JournalLayer) (s : jl_state J) (h : MsgHistory) : Prop :=
  ∃ s' rs, jl_next J s s' CTJournal.LoadEphemeralFromPersistentLabel ∧
    consecutive (seq_start h) rs ∧ end_of (seq_start h) rs = seq_end h ∧
    Forall (λ r, jl_next J s' s' (CTJournal.ReadForRecoveryLabel r)) rs ∧
    jl_next J s' s' (CTJournal.QueryEndLsnLabel (seq_end h)).
Lemma own_boots `{Geometry} s c : jo_sim own_ok s c → CTJournal.ephemeral c = None →
  can_boot (journal_layer OwnPages) s (CTJournal.persistent c).
Proof.
  intros (Hi&Hp&Re&_) Ec. destruct Hi as (Hv&_). pose proof (valid_image_struct _ Hv) as (Hd&_).
  destruct (linked_pages _ Hd) as (rs&H1&H2&H3&H4). pose proof Hp as (Hs&_).
  destruct (linked_holds_end _ _ (proj1 Hd) Hp) as [_ He].
  set (tj := img_tj (AllocCrash.persistent s)) in *.
  set (v := AllocJournal.mkState (Linked.mkState tj (empty_history_at (Linked.tj_seq_end tj)))
    (build_lsn_au_index tj (img_first (AllocCrash.persistent s))) (img_first (AllocCrash.persistent s)) ma_empty).
  exists (AllocCrash.mkState (AllocCrash.persistent s) (Some v) (AllocCrash.inflight s)), rs.
  unfold Linked.tj_seq_start in H1, H2. rewrite <-Hs in H1, H2. rewrite He. split_and!; [|done|done| |].
  - exists AllocCrash.LoadEphemeralFromPersistent. split; [done|]. left. exists v. split; [done|].
    rewrite Ec in Re. destruct (AllocCrash.ephemeral s) eqn:E; [done|]. split; [done|]. split; [by split|done].
  - eapply Forall_impl; [|exact H3]. intros r Hr. exists (AllocCrash.ReadForRecovery r). split; [done|]. right; left.
    exists r, v. split; [done|]. split; [done|]. split; [|done]. left. split; [by exists r|]. by split.
  - eexists (AllocCrash.QueryEndLsn _). split; [reflexivity|]. right; right; left. eexists _, v. split; [done|].
    split; [done|]. split; [|done]. right; right; left. split; [by eexists|]. by split.
Qed.
Lemma shared_boots `{Geometry} s c : jo_sim shared_ok s c → CTJournal.ephemeral c = None →
  can_boot (journal_layer SharedPages) s (CTJournal.persistent c).
Proof.
  intros (Hi&Hc) Ec. pose proof (uni_valid _ _ Hi (or_introl eq_refl)) as Hv.
  set (P := Unified.persistent s) in *.
  set (e := mkES P (empty_history_at (Linked.tj_seq_end (to_tj P (Unified.dv s))))
    (build_lsn_au_index (to_tj P (Unified.dv s)) (is_first P)) ma_empty).
  set (T := tight_dv P (Unified.dv s)).
  set (s1 := Unified.mkState (Some e) (Unified.inflight s) P T).
  assert (Unified.next s s1 AllocCrash.LoadEphemeralFromPersistent) as Hl.
  { left. exists e. split; [done|]. destruct Hc as (_&Re&_). rewrite Ec in Re. destruct (Unified.ephemeral s) eqn:E; [done|].
    split; [done|]. split; [done|]. split; [|done]. by split. }
  destruct (uni_sim _ _ _ _ Hi Hc Hl) as (Hi1&c1&Hn1&Hc1).
  assert (CTJournal.persistent c1 = CTJournal.persistent c) as Ep.
  { destruct Hn1 as [[j Hn]|[Hn|[Hn|[[j Hn]|[[j Hn]|[Hn|[[f Hn]|[[j Hn]|Hn]]]]]]]].
    - by destruct Hn as (_&_&_&->).
    - by destruct Hn as (?&?&?&_).
    - by destruct Hn as (?&?&?&_).
    - by destruct Hn as (?&?&?&_).
    - by destruct Hn as (?&?&_).
    - by destruct Hn as (?&?&_).
    - by destruct Hn as (?&?&?&?&_).
    - by destruct Hn as (?&?&?&?&_).
    - by destruct Hn as (?&?&_). }
  pose proof Hc1 as (Hp1&_). pose proof Hc as (Hp&_). rewrite Ep in Hp1. cbn in Hp1. fold P in Hp. 
  pose proof (is_valid_decodable _ _ Hv) as Hd0.
  destruct (tight_struct _ _ Hv) as (Hd&_). fold T in Hd.
  destruct (linked_holds_end _ _ (proj1 Hd) Hp1) as [Es1 Ee1]. destruct (linked_holds_end _ _ (proj1 Hd0) Hp) as [_ Ee].
  destruct (linked_pages _ Hd) as (rs&H1&H2&H3&H4).
  exists s1, rs. rewrite <-Es1, <-Ee1 in *. split_and!; [|done|done| |].
  - exists AllocCrash.LoadEphemeralFromPersistent. by split.
  - eapply Forall_impl; [|exact H3]. intros r Hr. exists (AllocCrash.ReadForRecovery r). split; [done|]. right; left.
    exists r, e. split; [done|]. split; [done|]. split; [|done]. left. split; [by exists r|].
    unfold to_aj, e. cbn. rewrite <-Ee. by split.
  - eexists (AllocCrash.QueryEndLsn _). split; [reflexivity|]. right; right; left. eexists _, e. split; [done|].
    split; [done|]. split; [|done]. right; right; left. split; [by eexists|]. unfold to_aj, e. cbn. rewrite <-Ee. by split.
Qed.
Lemma pages_boot `{Geometry} p s c : jo_sim (pages_ok p) s c → CTJournal.ephemeral c = None →
  can_boot (journal_layer p) s (CTJournal.persistent c).
Proof. destruct p; [apply own_boots|apply shared_boots]. Qed.

(** ** Booting the whole store *)
Section Boot.
  Context {J : JournalLayer} {disk : jl_state J → MsgHistory → Prop} (jok : journal_ok J disk).
  Context {M : MapLayer} {ans : ml_image M → Key → Message → Prop} {troom : ml_state M → Prop} (mok : map_ok M ans troom).
  Definition boots (pre post : Store.State J M) (l : CTAM.Label) : Prop :=
    Store.load_ephemeral_from_persistent _ _ pre post l ∨ Store.recover _ _ pre post l.
  Lemma boots_next s s' l : boots s s' l → Store.next s s' l.
  Proof. intros [H|H]; [by left|by right; left]. Qed.
  Lemma boots_sim s s' l c : store_is jok mok s c → boots s s' l → ∃ c', recovery_step c c' l ∧ store_is jok mok s' c'.
  Proof.
    intros (Hj&Hm&He&Hs) [(nj&nm&lsn&->&Hxj&Hxm&->)|(nj&nm&r&e&->&Ee&Hw&Hxj&Hxm&->)];
      destruct (jo_step jok _ _ _ _ Hj Hxj) as (cj'&Hcj&Hj'); destruct (map_sim mok _ _ _ _ Hm Hxm) as (cm'&Hcm&Hm').
    - eexists (CoordSys.mkState cj' cm' _ _). split; [|split; [exact Hj'|split; [exact Hm'|split; [reflexivity|exact Hs]]]].
      left. exists cj', cm', lsn. by split_and!.
    - eexists (CoordSys.mkState cj' cm' _ _). split; [|split; [exact Hj'|split; [exact Hm'|split; [reflexivity|exact Hs]]]].
      right. exists cj', cm', r, e. split_and!; try done. congruence.
  Qed.
  Lemma boots_run s ls s' c : store_is jok mok s c → run boots s ls s' → ∃ c', run recovery_step c ls c' ∧ store_is jok mok s' c'.
  Proof.
    intros Hs Hr. induction Hr as [s|s ls s1 l s2 Hr IH Hn].
    - exists c. split; [constructor|done].
    - destruct (IH Hs) as (c1&Hc1&Hs1). destruct (boots_sim _ _ _ _ Hs1 Hn) as (c2&Hn2&Hs2). exists c2.
      split; [by eapply run_snoc|done].
  Qed.
  Lemma put_end cm cm' a r : CTMap.next cm cm' (CTMap.PutRecordsLabel r) → mh_wf r → CTMap.ephemeral cm = Some a →
    ∃ a', CTMap.ephemeral cm' = Some a' ∧ st_seq_end (AbstractMap.stamped_map a') = seq_end r.
  Proof.
    intros [(?&?&?&_)|[(m&(r'&v&El&Ev&Hn&->))|[(?&(?&?&?&?&?&_))|[(?&?&(?&?&_))|[(?&(?&?&_))|[(?&?&?&?&_)|[(?&?&_)|(?&?&_)]]]]]]] Hw Ea; try done.
    injection El as <-. destruct Hn as [(?&?&?&?&_)|[(?&E&Hf&->)|[(?&_)|(?&_)]]]; try done. injection E as <-.
    eexists. split; [reflexivity|]. by apply mph_seq_end.
  Qed.
  Lemma load_end cm cm' n : CTMap.next cm cm' (CTMap.LoadEphemeralFromPersistentLabel n) →
    ∃ a', CTMap.ephemeral cm' = Some a' ∧ st_seq_end (AbstractMap.stamped_map a') = n.
  Proof.
    intros [(n'&v&El&_&->&->&->)|[(m&(?&?&?&_))|[(?&(?&?&?&?&?&_))|[(?&?&(?&?&_))|[(?&(?&?&_))|[(?&?&?&?&_)|[(?&?&_)|(?&?&_)]]]]]]]; try done.
    injection El as ->. eexists. by split.
  Qed.
  (** Replaying the pages read from the journal, one by one. *)
  Lemma replay rs : ∀ (s : Store.State J M) c e a, store_is jok mok s c → Store.ephemeral s = Some e →
    CTMap.ephemeral (CoordSys.mapadt c) = Some a → st_seq_end (AbstractMap.stamped_map a) = CoordSys.map_lsn e →
    consecutive (CoordSys.map_lsn e) rs →
    Forall (λ r, jl_next J (Store.journal s) (Store.journal s) (CTJournal.ReadForRecoveryLabel r)) rs →
    ∃ ls s' c' e' a', run boots s ls s' ∧ store_is jok mok s' c' ∧ Store.ephemeral s' = Some e' ∧
      CTMap.ephemeral (CoordSys.mapadt c') = Some a' ∧ st_seq_end (AbstractMap.stamped_map a') = CoordSys.map_lsn e' ∧
      CoordSys.map_lsn e' = end_of (CoordSys.map_lsn e) rs ∧ CoordSys.progress e' = CoordSys.progress e ∧
      Store.journal s' = Store.journal s.
  Proof.
    induction rs as [|r rs IH]; intros s c e a Hs He Ha El Hc Hf.
    - exists [], s, c, e, a. by split_and!; [constructor|..].
    - destruct Hc as (Hw&Hst&Hc). apply stdpp.list.Forall_cons in Hf as [Hr Hf]. pose proof Hs as (Hj&Hm&Hee&Hsb).
      destruct (map_can_put mok _ _ _ r Hm Ha Hw) as [nm Hnm]; [unfold can_follow; congruence|].
      destruct (map_sim mok _ _ _ _ Hm Hnm) as (cm'&Hcm&Hm'). destruct (put_end _ _ _ _ Hcm Hw Ha) as (a'&Ha'&El').
      set (e1 := CoordSys.mkKnown (CoordSys.progress e) (CoordSys.sync_reqs e) (seq_end r)).
      set (s1 := Store.mkState (Store.journal s) nm (Some e1) (Store.superblock_in_flight s)).
      destruct (IH s1 (CoordSys.mkState (CoordSys.journal c) cm' (Some e1) (CoordSys.superblock_in_flight c)) e1 a')
        as (ls&s'&c'&e'&a2&H1&H2&H3&H4&H5&H6&H7&H8); [|done|done|done|done|done|].
      { split; [done|]. split; [done|]. by split. }
      exists (CTAM.Noop :: ls), s', c', e', a2. split_and!; try done.
      apply (run_cons _ _ _ s1); [|done]. right. exists (Store.journal s), nm, r, e. by split_and!.
  Qed.
  Lemma boot s c : store_is jok mok s c → CTMap.ephemeral (CoordSys.mapadt c) = None →
    seq_start (CTJournal.persistent (CoordSys.journal c)) = st_seq_end (CTMap.persistent (CoordSys.mapadt c)) →
    can_boot J (Store.journal s) (CTJournal.persistent (CoordSys.journal c)) →
    ∃ ls s' c' e a, run boots s ls s' ∧ store_is jok mok s' c' ∧ Store.ephemeral s' = Some e ∧
      CTMap.ephemeral (CoordSys.mapadt c') = Some a ∧ st_seq_end (AbstractMap.stamped_map a) = CoordSys.map_lsn e ∧
      CoordSys.progress e = AsyncMap.init_ephemeral_state ∧
      jl_next J (Store.journal s') (Store.journal s') (CTJournal.QueryEndLsnLabel (CoordSys.map_lsn e)).
  Proof.
    intros Hs Hn Hst (nj&rs&Hl&Hc&Hend&Hf&Hq). pose proof Hs as (Hj&Hm&He&Hsb).
    destruct (map_can_load mok _ _ Hm) as [nm Hnm].
    { destruct Hm as (_&Ho&_). rewrite Hn in Ho. by destruct (TreeMap.ephemeral (Store.mapadt s)). }
    set (e := CoordSys.mkKnown AsyncMap.init_ephemeral_state ∅ (st_seq_end (CTMap.persistent (CoordSys.mapadt c)))).
    set (s1 := Store.mkState nj nm (Some e) (Store.superblock_in_flight s)).
    assert (boots s s1 CTAM.Noop) as Hb by (left; eexists nj, nm, _; by split_and!).
    destruct (map_sim mok _ _ _ _ Hm Hnm) as (cm'&Hcm&Hm'). destruct (load_end _ _ _ Hcm) as (a&Ha&El).
    destruct (jo_step jok _ _ _ _ Hj Hl) as (cj'&_&Hj').
    destruct (replay rs s1 (CoordSys.mkState cj' cm' (Some e) (CoordSys.superblock_in_flight c)) e a)
      as (ls&s'&c'&e'&a'&H1&H2&H3&H4&H5&H6&H7&H8); [by split_and!|done|done|done| |done|].
    { cbn. by rewrite <-Hst. }
    exists (CTAM.Noop :: ls), s', c', e', a'. split_and!; try done.
    - by apply (run_cons _ _ _ s1).
    - rewrite H8, H6. cbn in *. rewrite <-Hst, Hend. done.
  Qed.
End Boot.

(** ** What a booted store answers *)
Section Answer.
  Context {J : JournalLayer} {disk : jl_state J → MsgHistory → Prop} (jok : journal_ok J disk).
  Context {M : MapLayer} {ans : ml_image M → Key → Message → Prop} {troom : ml_state M → Prop} (mok : map_ok M ans troom).
  Lemma map_query_inv cm cm' n k x : CTMap.next cm cm' (CTMap.QueryLabel n k x) →
    ∃ a, CTMap.ephemeral cm = Some a ∧ x = msg_value (st_value (AbstractMap.stamped_map a) k).
  Proof.
    intros [(?&?&?&_)|[(?&(?&?&?&_))|[(?&(n'&k'&x'&a&El&Ea&Hn&->))|[(?&?&(?&?&_))|[(?&(?&?&_))|[(?&?&?&?&_)|[(?&?&_)|(?&?&_)]]]]]]]; try done.
    injection El as <- <- <-. destruct Hn as [(?&?&?&E&_&->&_)|[(?&?&_)|[(?&_)|(?&_)]]]; try done. injection E as _ -> ->. by exists a.
  Qed.
  Lemma end_lsn_inv cj cj' n : CTJournal.next cj cj' (CTJournal.QueryEndLsnLabel n) →
    ∃ j, CTJournal.ephemeral cj = Some j ∧ n = seq_end (AbstractJournal.journal j).
  Proof.
    intros [(?&(?&_))|[(?&?&?&_)|[(n'&j&El&Ej&Hn&_)|[(?&(?&?&?&_))|[(?&(?&?&_))|[(?&?&_)|[(?&(?&?&?&?&_))|[(?&(?&?&?&?&_))|(?&?&_)]]]]]]]]; try done.
    injection El as <-. exists j. split; [done|].
    destruct Hn as [(_&?&?&_)|[(_&?&?&_)|[(_&?&E&Hn&_)|[(_&?&?&_)|[(_&?&?&?&_)|(_&?&_)]]]]]; try done. injection E as ->. done.
  Qed.
  Lemma reply_inv (s s' s'' : Store.State J M) c req k v id : store_is jok mok s c → req_input req = QueryInput k →
    Store.next s s' (CTAM.OperateOp (AsyncMap.RequestOp req)) →
    Store.next s' s'' (CTAM.OperateOp (AsyncMap.ExecuteOp req (mkReply (QueryOutput v) id))) →
    ∃ m, recovered c m ∧ v = msg_value (m k).
  Proof.
    intros Hs Hq H1 H2. assert (∃ e', s' = Store.mkState (Store.journal s) (Store.mapadt s) (Some e') (Store.superblock_in_flight s) ∧
      ∃ e, Store.ephemeral s = Some e ∧ CoordSys.map_lsn e' = CoordSys.map_lsn e) as (e'&->&e&He&Hl).
    { destruct H1 as [(?&?&?&?&_)|[(?&?&?&?&?&_)|[(e&q&Ee&El&_&->)|[(?&?&?&?&?&?&?&?&?&_)|[(?&?&?&?&?&?&?&?&?&_)|
      [(?&?&?&?&_)|[(?&?&?&?&_)|[(?&?&?&?&_)|[(?&?&?&?&?&_)|[(?&?&?&?&?&?&_)|[(?&_)|[(?&?&?&?&?&_)|[(?&?&?&?&?&?&_)|(?&?&?&_)]]]]]]]]]]]]]; try done.
      eexists. split; [reflexivity|]. by exists e. }
    destruct H2 as [(?&?&?&?&_)|[(?&?&?&?&?&_)|[(?&?&?&?&_)|[(nj&nm&e2&q&y&k'&x&Ee&El&E1&E2&E3&E4&E5&Hxj&Hxm&->)|[(?&?&?&q&y&k'&x&_&El&E1&E2&_)|
      [(?&?&?&?&_)|[(?&?&?&?&_)|[(?&?&?&?&_)|[(?&?&?&?&?&_)|[(?&?&?&?&?&?&_)|[(?&_)|[(?&?&?&?&?&_)|[(?&?&?&?&?&?&_)|(?&?&?&_)]]]]]]]]]]]]]; try done.
    2:{ injection El as <- <-. congruence. }
    injection El as <- <-. cbn in Ee. injection Ee as <-. rewrite Hq in E1. injection E1 as <-. cbn in E2. injection E2 as <-.
    cbn in Hxj, Hxm. destruct Hs as (Hj&Hm&Hee&_).
    destruct (jo_step jok _ _ _ _ Hj Hxj) as (cj'&Hcj&_). destruct (map_sim mok _ _ _ _ Hm Hxm) as (cm'&Hcm&_).
    destruct (map_query_inv _ _ _ _ _ Hcm) as (a&Ha&->). destruct (end_lsn_inv _ _ _ Hcj) as (j&Ej&Hn).
    eexists. split; [|reflexivity]. exists e, j, a. split; [congruence|]. split; [done|]. split; [done|]. split; [congruence|done].
  Qed.
  Lemma reply_ok (s : Store.State J M) c e a k id : store_is jok mok s c → Store.ephemeral s = Some e →
    CTMap.ephemeral (CoordSys.mapadt c) = Some a → st_seq_end (AbstractMap.stamped_map a) = CoordSys.map_lsn e →
    CoordSys.progress e = AsyncMap.init_ephemeral_state →
    jl_next J (Store.journal s) (Store.journal s) (CTJournal.QueryEndLsnLabel (CoordSys.map_lsn e)) →
    ∃ s' s'' v, let req := mkReq (QueryInput k) id in
      Store.next s s' (CTAM.OperateOp (AsyncMap.RequestOp req)) ∧
      Store.next s' s'' (CTAM.OperateOp (AsyncMap.ExecuteOp req (mkReply (QueryOutput v) id))).
  Proof.
    intros (Hj&Hm&_) He Ha El Hp Hq. destruct (map_can_query mok _ _ _ k Hm Ha) as [v Hv]. rewrite El in Hv.
    eexists _, _, v. split.
    - do 2 right; left. eexists e, _. split; [done|]. split; [reflexivity|]. split; [|reflexivity]. rewrite Hp. cbn. set_solver.
    - do 3 right; left. eexists (Store.journal s), (Store.mapadt s), _, _, _, k, v. split; [reflexivity|]. split; [reflexivity|].
      split; [done|]. split; [done|]. cbn. rewrite Hp. split; [set_solver|]. split; [done|]. split; [set_solver|].
      split; [done|]. split; [done|reflexivity].
  Qed.
End Answer.

Lemma layer_recovers `{Geometry} p {M ans troom} (mok : map_ok M ans troom) s0 ls (s : Store.State (journal_layer p) M) :
  Store.init s0 → run Store.next s0 ls s → Store.ephemeral s = None →
  ∃ logs log, explained ls logs ∧ syncs_durable ls logs ∧ logs !! length ls = Some log ∧
    (∃ base l, layer_on_disk p M ans s base l) ∧
    (∀ base l, layer_on_disk p M ans s base l → ∀ k, after l k (base k) = Define (last_write k log)) ∧
    (∀ ls' s' k v, run layer_boot_step s ls' s' → layer_can_reply s' k v → v = last_write k log) ∧
    ∃ ls' s', run layer_boot_step s ls' s' ∧ ∀ k, layer_can_reply s' k (last_write k log).
Proof.
  intros H0 Hr He. destruct (store_run (pages_ok p) mok _ _ _ H0 Hr) as (c0&c&Hc0&Hc&Hs).
  pose proof Hs as (Hj&Hmm&He'&_). pose proof Hmm as (Hmp&_).
  rewrite He in He'. destruct (durable_is_log _ _ _ Hc0 Hc) as (l&Hl&Hsq).
  destruct (coord_disk _ _ _ _ Hc0 Hc (eq_sym He') Hl) as (logs&log&H1&H2&H3&H4).
  assert (∀ ls' s' k v, run layer_boot_step s ls' s' → layer_can_reply s' k v → v = last_write k log) as Hsafe.
  { intros ls' s' k v Hb (id&s1&s2&Hx1&Hx2).
    destruct (boots_run (pages_ok p) mok _ _ _ _ Hs Hb) as (c'&Hrec&Hs').
    destruct (reply_inv (pages_ok p) mok _ _ _ c' (mkReq (QueryInput k) id) k v id Hs' eq_refl Hx1 Hx2) as (m&Hm&->).
    rewrite (recovery_exact _ _ _ _ _ _ _ Hc0 Hc (eq_sym He') Hrec Hm Hl), H4. done. }
  exists logs, log. do 3 (split; [done|]). split_and!; [| |done|].
  - exists (st_value (CTMap.persistent (CoordSys.mapadt c))), l.
    split; [apply Hmp|]. exists (CTJournal.persistent (CoordSys.journal c)). split; [by apply (jo_disk (pages_ok p) _ _ _ Hj)|].
    split; [done|]. rewrite Hsq. symmetry. apply Hmp.
  - intros base l' (Hb&h&Hh&Hl'&_) k. apply (jo_disk (pages_ok p) _ _ _ Hj) in Hh. subst h.
    rewrite (is_log_det _ _ _ Hl' Hl). rewrite <-H4, (holds_det _ _ _ k Hb (proj1 (proj2 Hmp))). done.
  - destruct (cs_run _ _ _ Hc0 Hc) as [Hinv _].
    assert (CTJournal.ephemeral (CoordSys.journal c) = None ∧ CTMap.ephemeral (CoordSys.mapadt c) = None) as [Ej Em].
    { destruct c as [[jp je jf] [mp me mf] e sb]. unfold cs_inv in Hinv. simpl in *. subst e. by destruct Hinv as (?&?&?&?&_). }
    destruct (boot (pages_ok p) mok s c Hs Em Hsq (pages_boot p _ _ Hj Ej)) as (ls'&s'&c'&e&a&B1&B2&B3&B4&B5&B6&B7).
    exists ls', s'. split; [exact B1|]. intros k.
    destruct (reply_ok (pages_ok p) mok _ _ _ _ k 0%N B2 B3 B4 B5 B6 B7) as (s1&s2&v&X1&X2).
    assert (layer_can_reply s' k v) as Hcr by (by exists 0%N, s1, s2). by rewrite <-(Hsafe _ _ _ _ B1 Hcr).
Qed.
Lemma store_recovers `{Geometry} p t s0 ls (s : Store.State (journal_layer p) (tree_layer t)) :
  Store.init s0 → run Store.next s0 ls s → Store.ephemeral s = None →
  ∃ logs log, explained ls logs ∧ syncs_durable ls logs ∧ logs !! length ls = Some log ∧
    (∃ base l, on_disk p t s base l) ∧
    (∀ base l, on_disk p t s base l → ∀ k, after l k (base k) = Define (last_write k log)) ∧
    (∀ ls' s' k v, run (boot_step p t) s ls' s' → can_reply p t s' k v → v = last_write k log) ∧
    ∃ ls' s', run (boot_step p t) s ls' s' ∧ ∀ k, can_reply p t s' k (last_write k log).
Proof. exact (layer_recovers p (tree_ok t) s0 ls s). Qed.
