(** The assembled store can always make synced writes durable (C50). *)
From Verif Require Import Spec_Model Spec_Spec Spec_Proof Abs_Model Abs_Spec Abs_Proof Coord_Proof Coord_Live
  Betree_Model Betree_Spec Journal_Model AllocJournal_Model CrashJournal_Model CrashJournal_Spec CrashJournal_Proof
  CrashJournal_Facts CrashJournal_Durable JournalLive_Spec JournalLive_Proof JournalLive_Facts
  Store_Model Store_Spec Store_Proof StoreLive_Spec.
From Coq Require Import Lia.
Open Scope nat_scope.

(** ** The coordination system *)
(** What a step of the journal does to the last number in memory. *)
Lemma ct_end c c' l a' : CTJournal.next c c' l → CTJournal.ephemeral c' = Some a' →
  l = CTJournal.LoadEphemeralFromPersistentLabel ∨
  ∃ a, CTJournal.ephemeral c = Some a ∧
    match l with
    | CTJournal.PutLabel m => seq_end (AbstractJournal.journal a') = seq_end m
    | CTJournal.QueryEndLsnLabel n => n = seq_end (AbstractJournal.journal a) ∧ a' = a
    | CTJournal.ReadForRecoveryLabel m => includes_subseq (AbstractJournal.journal a) m ∧ a' = a
    | _ => seq_end (AbstractJournal.journal a') = seq_end (AbstractJournal.journal a)
    end.
Proof.
  intros Hn E. destruct Hn as [[j Hn]|[Hn|[Hn|[[j Hn]|[[j Hn]|[Hn|[[fz Hn]|[[j Hn]|Hn]]]]]]]].
  - left. apply Hn.
  - right. destruct Hn as (m&v&->&Hv&Hs&->). exists v. split; [done|]. assert (a' = v) as -> by congruence.
    split; [|done]. abs_inv Hs. by injection HL as <-.
  - right. destruct Hn as (m&v&->&Hv&Hs&->). exists v. split; [done|]. assert (a' = v) as -> by congruence.
    split; [|done]. abs_inv Hs. by injection HL as <-.
  - right. destruct Hn as (m&v&->&Hv&[_ Hs]%abs_put&->). exists v. split; [done|]. injection E as <-. by rewrite Hs.
  - right. destruct Hn as (v&->&Hv&Hs%abs_internal&->). exists v. split; [done|]. injection E as <-. by rewrite Hs.
  - right. destruct Hn as (n&->&_&->). by exists a'.
  - right. destruct Hn as (nb&mx&v&->&Hv&Hno&Hwf&Hst&Hend&Hmx&Hs&->). exists a'. done.
  - right. destruct Hn as (re&v&f'&->&Hv&Hff&[_ Hs]%abs_discard&->). exists v. split; [done|]. injection E as <-. by rewrite Hs.
  - destruct Hn as (k&->&->). done.
Qed.
(** While a sync is awaited, everything logged has been replayed. *)
Definition replayed (c : CoordSys.State) : Prop :=
  ∀ e a, CoordSys.ephemeral c = Some e → CTJournal.ephemeral (CoordSys.journal c) = Some a → CoordSys.sync_reqs e ≠ ∅ →
    CoordSys.map_lsn e = seq_end (AbstractJournal.journal a).
Lemma put_records_follow cm cm' r : CTMap.next cm cm' (CTMap.PutRecordsLabel r) →
  ∃ v, CTMap.ephemeral cm = Some v ∧ seq_start r = st_seq_end (AbstractMap.stamped_map v).
Proof.
  intros [(?&?&?&_)|[(m&?&v&[= <-]&Ev&Hs&_)|[(?&?&?&?&?&?&_)|[(?&?&?&?&_)|[(?&?&?&_)|[(?&?&?&?&_)|[(?&?&_)|(?&?&_)]]]]]]]; try done.
  exists v. split; [done|]. destruct Hs as [(?&?&?&?&_)|[(?&[= <-]&Hf&_)|[(?&_)|(?&_)]]]; done.
Qed.
Ltac fixed_cases Hn :=
  destruct Hn as [[(nj&nm&lsn&Hn)|[(nj&nm&r&Hn)|[Hn|[(nj&nm&Hn)|[(nj&nm&Hn)|[Hn|[(nj&Hn)|[(nm&Hn)|[(nj&Hn)|[(nj&Hn)|[Hn|
    [(nm&nj&Hn)|(nj&nm&Hn)]]]]]]]]]]]]|(b&nj&Hn)].
Lemma replayed_step c c' l : cs_inv c → replayed c → CoordSys.next_fixed c c' l → replayed c'.
Proof.
  intros Hi Hr Hn e' a' Ee Ea Hne. fixed_cases Hn.
  - destruct Hn as (->&HJ&HM&->). cbn in *. injection Ee as <-. by destruct Hne.
  - destruct Hn as (e&->&He&Hw&HJ&HM&->). cbn in *. injection Ee as <-. cbn in *.
    destruct (ct_end _ _ _ _ HJ Ea) as [?|(a&Ea0&Hin&->)]; [done|].
    destruct (cs_inv_known _ _ Hi He) as (jp&mp&j&m&jf&mf&sb&->&_&_&Hml&Hk). cbn in *. injection Ea0 as <-.
    destruct (put_records_follow _ _ _ HM) as (v&Hv&Hst). cbn in Hv. injection Hv as <-. cbn in *.
    specialize (Hr e _ eq_refl eq_refl Hne). cbn in Hr. destruct Hin as (_&?&_). destruct Hw as [? _]. lia.
  - destruct Hn as (e&q&He&->&_&->). cbn in *. injection Ee as <-. cbn in *. by apply (Hr e).
  - destruct Hn as (e&q&y&k&x&He&->&_&_&_&_&_&HJ&HM&->). cbn in *. injection Ee as <-. cbn in *.
    destruct (ct_end _ _ _ _ HJ Ea) as [?|(a&Ea0&->&->)]; [done|]. done.
  - destruct Hn as (e&q&y&k&x&He&->&_&_&_&_&_&HJ&HM&->). cbn in *. injection Ee as <-. cbn in *.
    destruct (ct_end _ _ _ _ HJ Ea) as [?|(a&Ea0&Hs)]; [done|]. cbn in Hs. lia.
  - destruct Hn as (e&q&He&->&_&->). cbn in *. injection Ee as <-. cbn in *. by apply (Hr e).
  - destruct Hn as (e&He&->&HJ&->). cbn in *. assert (e' = e) as -> by congruence.
    destruct (ct_end _ _ _ _ HJ Ea) as [?|(a&Ea0&Hs)]; [done|]. rewrite Hs. by apply Hr.
  - destruct Hn as (e&He&->&HM&->). cbn in *. assert (e' = e) as -> by congruence. by apply Hr.
  - destruct Hn as (e&id&He&->&_&HJ&->). cbn in *. injection Ee as <-. cbn in *.
    destruct (ct_end _ _ _ _ HJ Ea) as [?|(a&Ea0&->&->)]; [done|]. done.
  - destruct Hn as (e&id&n&He&->&Hid&HJ&->). cbn in *. injection Ee as <-. cbn in *.
    destruct (ct_end _ _ _ _ HJ Ea) as [?|(a&Ea0&Hs)]; [done|]. rewrite Hs. apply Hr; [done|done|].
    intros E0. rewrite E0 in Hid. by rewrite lookup_empty in Hid.
  - destruct Hn as (->&_&->). cbn in *. by apply Hr.
  - destruct Hn as (e&_&He&->&HJ&HM&->). cbn in *. assert (e' = e) as -> by congruence.
    destruct (ct_end _ _ _ _ HJ Ea) as [?|(a&Ea0&Hs)]; [done|]. rewrite Hs. by apply Hr.
  - destruct Hn as (->&_&_&->). done.
  - destruct Hn as (e&He&->&HJ&HM&->). cbn in *. assert (e' = e) as -> by congruence.
    destruct (ct_end _ _ _ _ HJ Ea) as [?|(a&Ea0&Hs)]; [done|]. rewrite Hs. by apply Hr.
Qed.
Lemma coord_ct_ok c c' l : ct_ok (CoordSys.journal c) → CoordSys.next_fixed c c' l → ct_ok (CoordSys.journal c').
Proof.
  intros Hc Hn. fixed_cases Hn.
  - destruct Hn as (->&HJ&HM&->). by eapply ct_ok_step; [exact Hc| |exact HJ].
  - destruct Hn as (e&->&He&Hw&HJ&HM&->). by eapply ct_ok_step; [exact Hc| |exact HJ].
  - destruct Hn as (e&q&He&->&_&->). done.
  - destruct Hn as (e&q&y&k&x&He&->&_&_&_&_&_&HJ&HM&->). by eapply ct_ok_step; [exact Hc| |exact HJ].
  - destruct Hn as (e&q&y&k&x&He&->&_&_&_&_&_&HJ&HM&->). eapply ct_ok_step; [exact Hc| |exact HJ]. apply singleton_wf.
  - destruct Hn as (e&q&He&->&_&->). done.
  - destruct Hn as (e&He&->&HJ&->). by eapply ct_ok_step; [exact Hc| |exact HJ].
  - destruct Hn as (e&He&->&HM&->). done.
  - destruct Hn as (e&id&He&->&_&HJ&->). by eapply ct_ok_step; [exact Hc| |exact HJ].
  - destruct Hn as (e&id&n&He&->&Hid&HJ&->). by eapply ct_ok_step; [exact Hc| |exact HJ].
  - destruct Hn as (->&_&->). done.
  - destruct Hn as (e&_&He&->&HJ&HM&->). by eapply ct_ok_step; [exact Hc| |exact HJ].
  - destruct Hn as (->&HJ&HM&->). by eapply ct_ok_step; [exact Hc| |exact HJ].
  - destruct Hn as (e&He&->&HJ&HM&->). by eapply ct_ok_step; [exact Hc| |exact HJ].
Qed.
Lemma coord_facts c0 ls c : CoordSys.init c0 → run CoordSys.next_fixed c0 ls c →
  cs_inv c ∧ ct_ok (CoordSys.journal c) ∧ replayed c.
Proof.
  intros H0 Hr. split; [by eapply cs_run|]. revert H0. induction Hr as [s|s ls s1 l s2 Hr IH Hn]; intros H0.
  - destruct H0 as (Hj&_&He&_). split; [by apply ct_ok_start|]. intros e a Ee. congruence.
  - destruct (IH H0) as [H1 H2]. destruct (cs_run _ _ _ H0 Hr) as [Hi _]. split; [by eapply coord_ct_ok|by eapply replayed_step].
Qed.
(** The number of an awaited sync is in the log. *)
Lemma sync_in_log c0 ls c e id lsn a : CoordSys.init c0 → run CoordSys.next_fixed c0 ls c →
  CoordSys.ephemeral c = Some e → CoordSys.sync_reqs e !! id = Some lsn → CTJournal.ephemeral (CoordSys.journal c) = Some a →
  lsn ≤ seq_end (AbstractJournal.journal a) ∧ CoordSys.map_lsn e = seq_end (AbstractJournal.journal a).
Proof.
  intros H0 Hr He Hid Ea. destruct (coord_facts _ _ _ H0 Hr) as (Hinv&_&Hrep). split.
  - destruct (cs_run _ _ _ H0 Hr) as [_ Hrun].
    destruct (cs_inv_known _ _ Hinv He) as (jp&mp&j&m&jf&mf&sb&->&Hwjp&Hsjp&Hml&Hk).
    destruct (known_bounds _ _ _ _ _ _ _ Hwjp Hsjp Hk) as (Hlen&_&_). cbn in Ea. injection Ea as <-. cbn.
    destruct (ctam_run _ _ Hrun) as [logs [_ (log&pos&_&_&_&_&_&Hreq&_)]].
    rewrite cs_i_known in Hreq. simpl in Hreq. destruct (Hreq _ _ Hid) as [Hlt _]. lia.
  - apply Hrep; [done|done|]. intros E. rewrite E in Hid. by rewrite lookup_empty in Hid.
Qed.

(** ** The whole store *)
Section Live.
  Context {S : Type} {nxt : S → S → AllocCrash.Label → Prop} {sim : S → CTJournal.State → Prop} {room : S → Prop}.
  Context (pl : pages_live nxt sim room) (jinit : S → Prop) (infl : S → bool).
  Context (live0 : ∀ s, jinit s → pl_live pl s).
  Notation J := (mkJournalLayer S jinit (λ s s' l, ∃ l', outer_label l' = l ∧ nxt s s' l') infl).
  Context {disk : S → MsgHistory → Prop} (jok : journal_ok J disk) (Hsim : ∀ s c, jo_sim jok s c → sim s c).
  Context {M : MapLayer} {ans : ml_image M → Key → Message → Prop} {troom : ml_state M → Prop} (mok : map_ok M ans troom).

  Notation sst := (Store.mkState (J := J) (M := M)).
  Lemma journal_moves (s s' : Store.State J M) l : Store.next s s' l →
    Store.journal s' = Store.journal s ∨ ∃ l', nxt (Store.journal s) (Store.journal s') l'.
  Proof.
    intros [(nj&nm&lsn&_&(l'&_&Hx)&_&->)|[(nj&nm&r&e&_&_&_&(l'&_&Hx)&_&->)|[(e&q&_&_&_&->)|
      [(nj&nm&e&q&y&k&x&_&_&_&_&_&_&_&(l'&_&Hx)&_&->)|[(nj&nm&e&q&y&k&x&_&_&_&_&_&_&_&(l'&_&Hx)&_&->)|
      [(e&y&_&_&_&->)|[(nj&e&_&_&(l'&_&Hx)&->)|[(nm&e&_&_&_&->)|[(nj&e&id&_&_&_&(l'&_&Hx)&->)|
      [(nj&e&id&n&_&_&_&(l'&_&Hx)&->)|[(_&_&->)|[(b&nj&e&_&_&(l'&_&Hx)&_&->)|[(nm&nj&e&_&_&_&(l'&_&Hx)&_&->)|
      (nj&nm&_&(l'&_&Hx)&_&->)]]]]]]]]]]]]]; (by left) || (right; by exists l').
  Qed.
  Lemma store_alive (s0 : Store.State J M) ls s : Store.init s0 → run Store.next s0 ls s →
    ∃ c0 c, CoordSys.init c0 ∧ run CoordSys.next_fixed c0 ls c ∧ store_is jok mok s c ∧ pl_live pl (Store.journal s).
  Proof.
    intros H0 Hr. destruct (store_start jok mok _ H0) as (c0&Hc0&Hs0). exists c0.
    assert (∃ c, run CoordSys.next_fixed c0 ls c ∧ store_is jok mok s c ∧ pl_live pl (Store.journal s)) as (c&?&?&?); [|by exists c].
    induction Hr as [s|s ls s1 l s2 Hr IH Hn].
    - exists c0. split; [constructor|]. split; [done|]. apply live0, H0.
    - destruct (IH H0 Hs0) as (c1&R1&S1&L1). destruct (store_sim jok mok _ _ _ _ S1 Hn) as (c2&N2&S2).
      exists c2. split; [by eapply run_snoc|]. split; [done|].
      destruct (journal_moves _ _ _ Hn) as [->|(l'&Hx)]; [done|]. eapply (pl_step pl); [apply Hsim, S1|done|exact Hx].
  Qed.

  (** No commit is under way and every page is written; [n] is the end of the log. *)
  Definition at_rest (js : S) (ms : TreeMap.State M) (n : LSN) : Prop :=
    ∃ cj a v am, alive pl js cj ∧ pl_written pl js ∧ CTJournal.ephemeral cj = Some a ∧ CTJournal.in_flight cj = None ∧
      seq_end (AbstractJournal.journal a) = n ∧ seq_start (CTJournal.persistent cj) = st_seq_end (TreeMap.persistent ms) ∧
      TreeMap.ephemeral ms = Some v ∧ mo_sim mok v am ∧ st_seq_end (AbstractMap.stamped_map am) = n ∧
      (∀ f, TreeMap.in_flight ms = Some f → st_seq_end (TreeMap.persistent ms) ≤ st_seq_end f ≤ n) ∧
      st_seq_end (TreeMap.persistent ms) ≤ n.
  (** Freeze the tree, unless it has been. *)
  Lemma work_run js ms e sb v us v1 : TreeMap.ephemeral ms = Some v → run (works M) v us v1 →
    ∃ ls, run Store.next (sst js ms (Some e) sb) ls
      (sst js (TreeMap.mkState (TreeMap.persistent ms) (Some v1) (TreeMap.in_flight ms)) (Some e) sb) ∧ Forall background ls.
  Proof.
    intros Ev Hr. induction Hr as [v|v us v1 u v2 Hr IH Hn].
    - exists []. split; [|done]. destruct ms. cbn in *. subst. constructor.
    - destruct (IH Ev) as (ls&R&B). exists (ls ++ [CTAM.Noop]). split; [|apply Forall_app; split; [done|by repeat constructor]].
      eapply run_snoc; [exact R|]. do 7 right; left. eexists _, e. split; [done|]. split; [done|]. split; [|reflexivity].
      do 4 right; left. exists v2, v1. done.
  Qed.
  Lemma work_sim v us v1 am : mo_sim mok v am → run (works M) v us v1 → mo_sim mok v1 am.
  Proof.
    intros Hm Hr. induction Hr as [v|v us v1 u v2 Hr IH Hn]; [done|].
    destruct (mo_step mok _ _ _ _ (IH Hm) Hn) as (am1&al&B1&B2&Hm1). cbn in B2. subst al.
    by destruct B1 as [(?&?&?&?&_)|[(?&?&_)|[(?&_)|(_&->)]]].
  Qed.
  Lemma can_freeze js ms e sb n : at_rest js ms n → (∀ v, TreeMap.ephemeral ms = Some v → troom v) → ∃ ls ms' f,
    run Store.next (sst js ms (Some e) sb) ls (sst js ms' (Some e) sb) ∧ Forall background ls ∧
    at_rest js ms' n ∧ TreeMap.in_flight ms' = Some f.
  Proof.
    intros (cj&a&v&am&A&W&Ea&Ef&En&Es&Ev&Hm&Hn&Hf&Hp) Ht. destruct (TreeMap.in_flight ms) as [f|] eqn:E.
    - exists [], ms, f. split; [constructor|]. split; [done|]. split; [|done]. exists cj, a, v, am. rewrite E. by split_and!.
    - destruct (mo_can_freeze mok _ _ Hm (Ht _ Ev)) as (us&v1&img&N1&N2).
      pose proof (work_sim _ _ _ _ Hm N1) as Hm1. destruct (work_run js ms e sb _ _ _ Ev N1) as (ls&R1&B1).
      destruct (mo_step mok _ _ _ _ Hm1 N2) as (am2&al&C1&(m&_&->)&Hm2).
      assert (am2 = am ∧ st_seq_end img = n) as [-> Hi].
      { destruct C1 as [(?&?&?&?&_)|[(?&?&_)|[(Hx&->)|(?&_)]]]; try done. split; [done|]. injection Hx as Hx.
        rewrite <-Hx in Hn. done. }
      set (ms2 := TreeMap.mkState (TreeMap.persistent ms) (Some v1) (Some img)).
      exists (ls ++ [CTAM.Noop]), ms2, img. split; [|split; [apply Forall_app; split; [done|by repeat constructor]|split; [|done]]].
      + eapply run_snoc; [exact R1|]. do 7 right; left. exists ms2, e. split; [done|]. split; [done|]. split; [|done].
        do 3 right; left. exists img, v1, v1. done.
      + exists cj, a, v1, am. cbn. split_and!; try done. intros f [= <-]. lia.
  Qed.
  (** Finish a commit: the write of the superblock lands, and both parts move on. *)
  Lemma can_finish js ms e cj a h v am f n sb : alive pl js cj → pl_written pl js → CTJournal.ephemeral cj = Some a →
    CTJournal.in_flight cj = Some h → seq_end (AbstractJournal.journal a) = n → CoordSys.map_lsn e = n →
    seq_start h = st_seq_end f → TreeMap.in_flight ms = Some f → TreeMap.ephemeral ms = Some v → mo_sim mok v am →
    st_seq_end (AbstractMap.stamped_map am) = n → st_seq_end f ≤ n →
    ∃ ls js' ms', run Store.next (sst js ms (Some e) sb) ls (sst js' ms' (Some e) false) ∧
      Forall background ls ∧ at_rest js' ms' n ∧ TreeMap.ephemeral ms' = TreeMap.ephemeral ms ∧
      ∃ cj', sim js' cj' ∧ seq_end (CTJournal.persistent cj') = seq_end h.
  Proof.
    intros A W Ea Eh En Ee Es Ef Ev Hm Hn Hfn.
    destruct (go_complete pl _ _ _ _ A W Ea Eh) as (dl&js'&cj'&a'&N&A'&W'&_&P'&E'&F'&S'&Z').
    set (ms' := TreeMap.mkState f (TreeMap.ephemeral ms) None).
    assert (Hc : Store.next (sst js ms (Some e) false) (sst js' ms' (Some e) false) CTAM.Noop).
    { do 12 right; left. exists ms', js', e. split; [done|]. split; [done|]. split; [done|]. split; [|split; [|done]].
      - cbn. eexists. split; [|exact N]. cbn. congruence.
      - do 6 right; left. by exists f. }
    assert (R : ∃ ls, run Store.next (sst js ms (Some e) sb) ls (sst js' ms' (Some e) false) ∧ Forall background ls).
    { destruct sb.
      - exists [CTAM.SyncOp; CTAM.Noop]. split.
        + apply (run_cons _ _ _ (sst js ms (Some e) false)); [|by apply run_one]. do 10 right; left. done.
        + constructor; [by right|]. constructor; [by left|constructor].
      - exists [CTAM.Noop]. split; [by apply run_one|]. constructor; [by left|constructor]. }
    destruct R as (ls&R&B). exists ls, js', ms'. split; [done|]. split; [done|]. split.
    - exists cj', a', v, am. cbn. split_and!; try done; congruence.
    - split; [done|]. exists cj'. split; [apply A'|]. by rewrite P'.
  Qed.
  Lemma can_commit js ms e n : at_rest js ms n → CoordSys.map_lsn e = n → (∀ v, TreeMap.ephemeral ms = Some v → troom v) →
    ∃ ls js' ms', run Store.next (sst js ms (Some e) false) ls (sst js' ms' (Some e) false) ∧
      Forall background ls ∧ at_rest js' ms' n ∧ ∃ cj', sim js' cj' ∧ seq_end (CTJournal.persistent cj') = n.
  Proof.
    intros Hr Ee Ht. destruct (can_freeze js ms e false n Hr Ht) as (l1&ms1&f&R1&B1&(cj&a&v&am&A&W&Ea&Ef&En&Es&Ev&Hm&Hn&Hf&Hp)&E1).
    specialize (Hf f E1).
    destruct (go_start pl _ _ a (st_seq_end f) n A W Ea Ef) as (js2&h&N2&W2&A2&_&S2&Z2); [lia|lia|]. cbn in A2.
    destruct (can_finish js2 ms1 e _ a h v am f n true A2 W2) as (l3&js3&ms3&R3&B3&H3&_&cj3&S3&Z3); try done; [lia|].
    exists (l1 ++ CTAM.Noop :: l3), js3, ms3. split; [|split; [|split; [done|]]].
    - eapply run_app; [exact R1|]. eapply run_cons; [|exact R3]. do 11 right; left. exists (st_seq_end f), js2, e.
      split; [done|]. split; [done|]. split; [|split; [|done]].
      + cbn. eexists. split; [|exact N2]. cbn. by rewrite Ee.
      + do 5 right; left. exists (st_seq_end f), v, f. split; [done|]. split; [done|]. split; [done|]. split; [apply Hf|done].
    - apply Forall_app; split; [done|]. constructor; [by left|done].
    - exists cj3. split; [done|]. congruence.
  Qed.
  Lemma can_sync (s0 : Store.State J M) ls s e id lsn : Store.init s0 → run Store.next s0 ls s →
    Store.ephemeral s = Some e → CoordSys.sync_reqs e !! id = Some lsn → room (Store.journal s) →
    (∀ v, TreeMap.ephemeral (Store.mapadt s) = Some v → troom v) →
    ∃ ls' s', run Store.next s (ls' ++ [CTAM.ReplySyncOp id]) s' ∧ Forall background ls'.
  Proof.
    intros H0 Hr He Hid Hroom Ht. destruct (store_alive _ _ _ H0 Hr) as (c0&c&Hc0&Hc&(Hj&Hm&Hee&Hsb)&Hl).
    destruct (coord_facts _ _ _ Hc0 Hc) as (Hinv&Hct&_). rewrite He in Hee. symmetry in Hee.
    destruct (cs_inv_known _ _ Hinv Hee) as (jp&mp&j&m&jf&mf&sb&->&Hwjp&Hsjp&Hml&Hk).
    destruct (sync_in_log _ _ _ _ _ _ _ Hc0 Hc Hee Hid eq_refl) as [Hlsn Hmap]. cbn in Hj, Hm, Hct, Hsb, Hlsn, Hmap.
    destruct s as [js ms ee sb']. cbn in *. subst ee sb'.
    destruct Hm as ((_&_&Hp)&Hev&Hfl). cbn in Hp, Hev, Hfl.
    destruct (TreeMap.ephemeral ms) as [v|] eqn:Ev; [|done]. cbn in Hev.
    assert (A0 : alive pl js (CTJournal.mkState jp (Some (AbstractJournal.mkState j)) jf)) by (split; [by apply Hsim|by split]).
    destruct (pl_write pl js _ (proj1 A0) Hl Hroom) as (alls&js1&js2&N1&N2&W2).
    destruct (alive_step pl _ _ _ _ A0 N1 I) as (cx&C1&A1). apply ct_internal in C1 as ->.
    destruct (alive_step pl _ _ _ _ A1 N2 I) as (cx&C2&A2). apply ct_internal in C2 as ->.
    assert (R1 : run Store.next (sst js ms (Some e) sb) [CTAM.Noop; CTAM.Noop] (sst js2 ms (Some e) sb)).
    { apply (run_cons _ _ _ (sst js1 ms (Some e) sb)).
      - do 6 right; left. exists js1, e. split; [done|]. split; [done|]. split; [|done]. eexists. split; [|exact N1]. done.
      - apply run_one. do 6 right; left. exists js2, e. split; [done|]. split; [done|]. split; [|done]. eexists. split; [|exact N2]. done. }
    destruct Hk as (_&Hst&_&Hle&_&_&Hmf&Hjf).
    assert (R2 : ∃ l2 js3 ms3, run Store.next (sst js2 ms (Some e) sb) l2 (sst js3 ms3 (Some e) false) ∧
      Forall background l2 ∧ at_rest js3 ms3 (seq_end j) ∧ TreeMap.ephemeral ms3 = TreeMap.ephemeral ms).
    { destruct jf as [h|].
      - destruct Hjf as (f&->&_&Hs1&Hs2&_). destruct (Hmf f eq_refl) as [Hf1 _].
        destruct (TreeMap.in_flight ms) as [g|] eqn:Eg; [|done]. destruct Hfl as (_&_&Hg).
        destruct (can_finish js2 ms e _ (AbstractJournal.mkState j) h v (AbstractMap.mkState m) g (seq_end j) sb A2 W2)
          as (l2&js3&ms3&R2&B2&H3&E3&_); try done; cbn; [congruence|congruence|lia|]. by exists l2, js3, ms3.
      - subst sb. exists [], js2, ms. split; [constructor|]. split; [done|]. split; [|done].
        exists (CTJournal.mkState jp (Some (AbstractJournal.mkState j)) None), (AbstractJournal.mkState j), v, (AbstractMap.mkState m).
        cbn. split_and!; try done; try congruence.
        + intros g Eg. rewrite Eg in Hfl. destruct mf as [f|]; [|done]. destruct Hfl as (_&_&Hg). destruct (Hmf f eq_refl) as [Hf1 _].
          lia.
        + destruct Hwjp as [Hq _]. lia. }
    destruct R2 as (l2&js3&ms3&R2&B2&H3&E3).
    destruct (can_commit js3 ms3 e (seq_end j) H3 Hmap ltac:(intros v' Hv'; apply Ht; cbn; congruence)) as (l3&js4&ms4&R3&B3&_&cj&Hcj&Z).
    exists ([CTAM.Noop; CTAM.Noop] ++ l2 ++ l3).
    exists (sst js4 ms4 (Some (CoordSys.mkKnown (CoordSys.progress e) (delete id (CoordSys.sync_reqs e)) (CoordSys.map_lsn e))) false).
    split.
    - eapply run_app; [eapply run_app; [exact R1|]; eapply run_app; [exact R2|exact R3]|]. apply run_one.
      do 9 right; left. exists js4, e, id, lsn. split; [done|]. split; [done|]. split; [done|]. split; [|done].
      exists (AllocCrash.QueryLsnPersistence lsn). split; [done|]. eapply (pl_ack pl); [exact Hcj|lia].
    - repeat (constructor; [by left|]). by apply Forall_app.
  Qed.
End Live.

Lemma layer_can_sync `{Geometry} p {M ans troom} (mok : map_ok M ans troom) (s0 : Store.State (journal_layer p) M) ls s e id lsn :
  Store.init s0 → run Store.next s0 ls s → Store.ephemeral s = Some e → CoordSys.sync_reqs e !! id = Some lsn →
  journal_room p (Store.journal s) → (∀ v, TreeMap.ephemeral (Store.mapadt s) = Some v → troom v) →
  ∃ ls' s', run Store.next s (ls' ++ [CTAM.ReplySyncOp id]) s' ∧ Forall background ls'.
Proof.
  destruct p.
  - refine (can_sync own_live AllocCrash.init (λ s, present (AllocCrash.inflight s)) _ own_ok _ mok s0 ls s e id lsn); [|done].
    intros x Hx v Hv. by rewrite Hx in Hv.
  - refine (can_sync shared_live Unified.init (λ s, present (Unified.inflight s)) _ shared_ok _ mok s0 ls s e id lsn); [|done].
    intros x Hx v Hv. by rewrite Hx in Hv.
Qed.
Lemma store_can_sync `{Geometry} p t (s0 : Store.State (journal_layer p) (tree_layer t)) ls s e id lsn :
  Store.init s0 → run Store.next s0 ls s → Store.ephemeral s = Some e → CoordSys.sync_reqs e !! id = Some lsn →
  journal_room p (Store.journal s) →
  ∃ ls' s', run Store.next s (ls' ++ [CTAM.ReplySyncOp id]) s' ∧ Forall background ls'.
Proof. intros H0 Hr He Hid Hj. by eapply (layer_can_sync p (tree_ok t)). Qed.
