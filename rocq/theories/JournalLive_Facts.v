(** Proofs: the commit that makes everything in memory durable (C49). *)
From Verif Require Import Abs_Model Abs_Spec Abs_Proof Spec_Proof Journal_Model Journal_Spec Paged_Proof
  Linked_Proof AllocJournal_Model AllocJournal_Spec Likes_Proof AllocJournal_Proof AllocJournal_Facts
  CrashJournal_Model CrashJournal_Spec CrashJournal_Proof CrashJournal_Facts CrashJournal_Durable
  JournalLive_Spec JournalLive_Proof.
Open Scope nat_scope.

(** ** At the level of histories *)
Definition ct_ok (c : CTJournal.State) : Prop :=
  ct_inv c ∧ ∀ f, CTJournal.in_flight c = Some f → mh_wf f.
Lemma ct_ok_start c : CTJournal.init c → ct_ok c.
Proof. intros Hc. split; [by apply ct_start|]. by rewrite Hc. Qed.
Lemma ct_ok_step c c' l : ct_ok c → put_ok l → CTJournal.next c c' l → ct_ok c'.
Proof.
  intros [Hi Hw] Hok Hn. split; [by eapply ct_step|]. clear Hi Hok.
  destruct Hn as [[j Hn]|[Hn|[Hn|[[j Hn]|[[j Hn]|[Hn|[[fz Hn]|[[j Hn]|Hn]]]]]]]].
  - destruct Hn as (->&Hu&[_ ->]&->). done.
  - destruct Hn as (m&v&->&Hv&Hs&->). done.
  - destruct Hn as (m&v&->&Hv&Hs&->). done.
  - destruct Hn as (m&v&->&Hv&Hs&->). done.
  - destruct Hn as (v&->&Hv&Hs&->). done.
  - destruct Hn as (n&->&_&->). done.
  - destruct Hn as (nb&mx&v&->&Hv&Hno&Hwf&Hst&Hend&Hmx&Hs&->). intros f [= <-]. done.
  - destruct Hn as (re&v&f'&->&Hv&Hff&Hs&->). done.
  - destruct Hn as (k&->&->). done.
Qed.
Lemma ct_ok_run c ls c' : ct_ok c → Forall put_ok ls → run CTJournal.next c ls c' → ct_ok c'.
Proof.
  intros Hi Hok Hr. induction Hr as [s|s ls s1 l s2 Hr IH Hn]; [done|].
  apply stdpp.list.Forall_app in Hok as [Ho1 Ho2]. apply stdpp.list.Forall_cons in Ho2 as [Ho2 _].
  eapply ct_ok_step; [by apply IH|done|done].
Qed.
Ltac ct_cases H :=
  destruct H as [[? H]|[H|[H|[[? H]|[[? H]|[H|[[? H]|[[? H]|H]]]]]]]];
  [ try by destruct H as (?&_) | try by destruct H as (?&?&?&_) | try by destruct H as (?&?&?&_)
  | try by destruct H as (?&?&?&_) | try by destruct H as (?&?&_) | try by destruct H as (?&?&_)
  | try by destruct H as (?&?&?&?&_) | try by destruct H as (?&?&?&?&_) | try by destruct H as (?&?&_) ].
Lemma ct_internal c c' : CTJournal.next c c' CTJournal.InternalLabel → c' = c.
Proof.
  intros Hn. ct_cases Hn. destruct Hn as (v&_&Hv&Hs%abs_internal&->). subst. destruct c as [p e f]. simpl in *. congruence.
Qed.
Lemma ct_commit_start c c' b m : CTJournal.next c c' (CTJournal.CommitStartLabel b m) →
  ∃ f, c' = CTJournal.mkState (CTJournal.persistent c) (CTJournal.ephemeral c) (Some f).
Proof. intros Hn. ct_cases Hn. destruct Hn as (?&?&v&_&_&_&_&_&_&_&_&->). by eexists. Qed.
Lemma ct_commit_complete c c' n : CTJournal.next c c' (CTJournal.CommitCompleteLabel n) →
  ∃ a f, CTJournal.ephemeral c = Some a ∧ CTJournal.in_flight c = Some f ∧
    c' = CTJournal.mkState f (Some (AbstractJournal.mkState (discard_old (AbstractJournal.journal a) (seq_start f)))) None.
Proof.
  intros Hn. ct_cases Hn. destruct Hn as (re&v&f&_&Hv&Hf&[_ ->]%abs_discard&->). by exists v, f.
Qed.
Lemma ct_query_end c c' n : CTJournal.next c c' (CTJournal.QueryEndLsnLabel n) →
  ∃ a, CTJournal.ephemeral c = Some a ∧ n = seq_end (AbstractJournal.journal a).
Proof.
  intros Hn. ct_cases Hn. destruct Hn as (m&v&[= <-]&Hv&Hs&_). exists v. split; [done|].
  abs_inv Hs. injection HL as <-. done.
Qed.

(** ** What a journal with pages has to offer for the commit *)
Record pages_live {S : Type} (nxt : S → S → AllocCrash.Label → Prop) (sim : S → CTJournal.State → Prop) (room : S → Prop) := mkPagesLive {
  pl_live : S → Prop;
  pl_written : S → Prop;
  pl_step : ∀ s s' l c, sim s c → pl_live s → nxt s s' l →
    pl_live s' ∧ ∃ c', CTJournal.next c c' (crash_event l) ∧ sim s' c';
  pl_write : ∀ s c, sim s c → pl_live s → room s →
    ∃ alls s1 s2, nxt s s1 (AllocCrash.Internal alls ∅) ∧ nxt s1 s2 (AllocCrash.Internal ∅ ∅) ∧ pl_written s2;
  pl_start : ∀ s c a b mx, sim s c → CTJournal.ephemeral c = Some a → CTJournal.in_flight c = None → pl_written s →
    seq_start (AbstractJournal.journal a) ≤ b ≤ seq_end (AbstractJournal.journal a) → b ≤ mx →
    seq_end (CTJournal.persistent c) ≤ seq_end (AbstractJournal.journal a) →
    ∃ s', nxt s s' (AllocCrash.CommitStart b mx) ∧ pl_written s' ∧
      ∀ c' h, sim s' c' → CTJournal.in_flight c' = Some h →
        seq_start h = b ∧ seq_end h = seq_end (AbstractJournal.journal a);
  pl_complete : ∀ s c a h, sim s c → CTJournal.ephemeral c = Some a → CTJournal.in_flight c = Some h → pl_written s →
    seq_start (AbstractJournal.journal a) ≤ seq_start h ≤ seq_end (AbstractJournal.journal a) →
    ∃ s' dl, nxt s s' (AllocCrash.CommitComplete (seq_end (AbstractJournal.journal a)) dl) ∧ pl_written s';
  pl_ack : ∀ s c n, sim s c → n ≤ seq_end (CTJournal.persistent c) → nxt s s (AllocCrash.QueryLsnPersistence n) }.
Arguments mkPagesLive {S nxt sim room}.
Arguments pl_live {S nxt sim room}.
Arguments pl_written {S nxt sim room}.
Arguments pl_step {S nxt sim room}.
Arguments pl_write {S nxt sim room}.
Arguments pl_start {S nxt sim room}.
Arguments pl_complete {S nxt sim room}.
Arguments pl_ack {S nxt sim room}.

Section Generic.
Context {S : Type} {nxt : S → S → AllocCrash.Label → Prop} {sim : S → CTJournal.State → Prop} {room : S → Prop}.
Context (pl : pages_live nxt sim room).
Definition alive (s : S) (c : CTJournal.State) : Prop := sim s c ∧ pl_live pl s ∧ ct_ok c.
Lemma alive_step s c s' l : alive s c → nxt s s' l → put_ok (crash_event l) →
  ∃ c', CTJournal.next c c' (crash_event l) ∧ alive s' c'.
Proof.
  intros (Hs&Hl&Hc) Hn Hok. destruct (pl_step pl _ _ _ _ Hs Hl Hn) as (Hl'&c'&Hn'&Hs'). exists c'. split; [done|].
  split_and!; [done|done|]. by eapply ct_ok_step.
Qed.
(** Write what is in memory only. *)
Lemma go_write s c : alive s c → room s →
  ∃ ls s', run nxt s ls s' ∧ Forall quiet ls ∧ alive s' c ∧ pl_written pl s'.
Proof.
  intros Ha Hroom. destruct (pl_write pl s c) as (alls&s1&s2&N1&N2&Hw); [apply Ha|apply Ha|done|].
  destruct (alive_step _ _ _ _ Ha N1 I) as (c1&C1&A1). apply ct_internal in C1 as ->.
  destruct (alive_step _ _ _ _ A1 N2 I) as (c2&C2&A2). apply ct_internal in C2 as ->.
  exists [AllocCrash.Internal alls ∅; AllocCrash.Internal ∅ ∅], s2. split; [|split; [by repeat constructor|done]].
  eapply run_cons; [exact N1|]. by apply run_one.
Qed.
(** Finish the commit that has been started. *)
Lemma go_complete s c a h : alive s c → pl_written pl s → CTJournal.ephemeral c = Some a → CTJournal.in_flight c = Some h →
  ∃ dl s' c' a', nxt s s' (AllocCrash.CommitComplete (seq_end (AbstractJournal.journal a)) dl) ∧ alive s' c' ∧ pl_written pl s' ∧
    CTJournal.next c c' (CTJournal.CommitCompleteLabel (seq_end (AbstractJournal.journal a))) ∧
    CTJournal.persistent c' = h ∧ CTJournal.ephemeral c' = Some a' ∧ CTJournal.in_flight c' = None ∧
    seq_start (AbstractJournal.journal a') = seq_start h ∧ seq_end (AbstractJournal.journal a') = seq_end (AbstractJournal.journal a).
Proof.
  intros Ha Hw Ea Ef. pose proof Ha as (Hs&_&Hi&Hwf). unfold ct_inv in Hi. rewrite Ea in Hi.
  destruct Hi as (_&_&Hfl). destruct (Hfl _ Ef) as (_&I1&I2&_). destruct (Hwf _ Ef) as [I3 _].
  destruct (pl_complete pl s c a h Hs Ea Ef Hw ltac:(lia)) as (s'&dl&Hn&Hw').
  destruct (alive_step _ _ _ _ Ha Hn I) as (c'&Hc&Ha').
  destruct (ct_commit_complete _ _ _ Hc) as (a1&f1&E1&E2&->). assert (a1 = a) as -> by congruence. assert (f1 = h) as -> by congruence.
  eexists dl, s', _, _. split; [done|]. split; [done|]. split; [done|]. split; [done|]. split; [done|]. split; [done|]. done.
Qed.
(** Start one. *)
Lemma go_start s c a b mx : alive s c → pl_written pl s → CTJournal.ephemeral c = Some a → CTJournal.in_flight c = None →
  seq_start (CTJournal.persistent c) ≤ b ≤ seq_end (AbstractJournal.journal a) → b ≤ mx →
  ∃ s' h, nxt s s' (AllocCrash.CommitStart b mx) ∧ pl_written pl s' ∧
    let c' := CTJournal.mkState (CTJournal.persistent c) (CTJournal.ephemeral c) (Some h) in
    alive s' c' ∧ CTJournal.next c c' (CTJournal.CommitStartLabel b mx) ∧
    seq_start h = b ∧ seq_end h = seq_end (AbstractJournal.journal a).
Proof.
  intros Ha Hw Ea Ef Hb Hmx. pose proof Ha as (Hs&_&Hi&Hwf). unfold ct_inv in Hi. rewrite Ea in Hi.
  destruct Hi as ((_&He&_)&Hst&_).
  destruct (pl_start pl s c a b mx Hs Ea Ef Hw ltac:(lia) Hmx He) as (s'&Hn&Hw'&Hh).
  destruct (alive_step _ _ _ _ Ha Hn I) as (c'&Hc&Ha'). destruct (ct_commit_start _ _ _ _ Hc) as [h ->].
  exists s', h. split; [done|]. split; [done|]. cbv zeta. split; [done|]. split; [done|]. eapply Hh; [apply Ha'|done].
Qed.
Lemma go_sync s c a b : alive s c → room s → CTJournal.ephemeral c = Some a →
  seq_start (CTJournal.persistent c) ≤ b → (∀ f, CTJournal.in_flight c = Some f → seq_start f ≤ b) →
  b ≤ seq_end (AbstractJournal.journal a) →
  ∃ ls s' c', run nxt s ls s' ∧ Forall quiet ls ∧ alive s' c' ∧
    seq_start (CTJournal.persistent c') = b ∧ seq_end (CTJournal.persistent c') = seq_end (AbstractJournal.journal a).
Proof.
  intros Ha Hroom Ea Hb Hfb Hbe. destruct (go_write _ _ Ha Hroom) as (l1&s1&R1&Q1&A1&W1).
  assert (∃ l2 s2 c2 a2, run nxt s1 l2 s2 ∧ Forall quiet l2 ∧ alive s2 c2 ∧ pl_written pl s2 ∧
    CTJournal.ephemeral c2 = Some a2 ∧ CTJournal.in_flight c2 = None ∧ seq_start (CTJournal.persistent c2) ≤ b ∧
    seq_end (AbstractJournal.journal a2) = seq_end (AbstractJournal.journal a)) as (l2&s2&c2&a2&R2&Q2&A2&W2&E2&F2&B2&N2).
  { destruct (CTJournal.in_flight c) as [h|] eqn:Ef.
    - destruct (go_complete _ _ _ _ A1 W1 Ea Ef) as (dl&s2&c2&a2&N2&A2&W2&_&P2&E2&F2&_&Z2).
      eexists [_], s2, c2, a2. split; [by apply run_one|]. split; [by repeat constructor|]. split_and!; try done.
      rewrite P2. by apply Hfb.
    - exists [], s1, c, a. split; [constructor|]. by split_and!. }
  destruct (go_start _ _ a2 b b A2 W2 E2 F2 ltac:(lia) ltac:(lia)) as (s3&h&N3&W3&A3&C3&H1&H2). simpl in A3.
  destruct (go_complete _ _ a2 h A3 W3) as (dl&s4&c4&a4&N4&A4&W4&_&P4&_); [done|done|].
  exists (l1 ++ l2 ++ [AllocCrash.CommitStart b b; AllocCrash.CommitComplete (seq_end (AbstractJournal.journal a2)) dl]), s4, c4.
  split.
  { eapply run_app; [exact R1|]. eapply run_app; [exact R2|]. eapply run_cons; [exact N3|]. by apply run_one. }
  split. { apply stdpp.list.Forall_app; split; [done|]. apply stdpp.list.Forall_app; split; [done|]. by repeat constructor. }
  split; [done|]. rewrite P4. split; [done|]. congruence.
Qed.
End Generic.

(** ** The two machines *)
Section Machines.
Context `{Geometry}.
Lemma own_live : pages_live AllocCrash.next (λ s c, ac_inv s ∧ alloc_crash_is s c) alloc_room.
Proof.
  refine (mkPagesLive ac_live ac_written _ _ _ _ _).
  - intros s s' l c [Hi Hs] Hl Hn. split; [by eapply ac_live_step|].
    destruct (ac_sim _ _ _ _ Hi Hs Hn) as (Hi'&c'&Hn'&Hs'). by exists c'.
  - intros s c [Hi _] Hl Hr. by apply ac_write.
  - intros s c a b mx [Hi Hs] Ea Ef Hw H1 H2 H3. destruct (ac_can_start s c a b mx) as (s'&Hn&Hw'&Hh); try done.
    exists s'. split_and!; try done. intros c' h [_ Hc] Eh. by eapply Hh.
  - intros s c a h [Hi Hs] Ea Ef Hw Hb. by eapply ac_can_complete.
  - intros s c n [Hi Hs] Hn. by eapply ac_can_ack.
Defined.
Lemma shared_live : pages_live Unified.next (λ s c, uni_inv s ∧ unified_is s c) unified_room.
Proof.
  refine (mkPagesLive uni_live uni_written _ _ _ _ _).
  - intros s s' l c [Hi Hs] Hl Hn. split; [by eapply uni_live_step|].
    destruct (uni_sim _ _ _ _ Hi Hs Hn) as (Hi'&c'&Hn'&Hs'). by exists c'.
  - intros s c [Hi _] Hl Hr. by apply uni_write.
  - intros s c a b mx [Hi Hs] Ea Ef Hw H1 H2 H3. destruct (uni_can_start s c a b mx) as (s'&Hn&Hw'&Hh); try done.
    exists s'. split_and!; try done. intros c' h [_ Hc] Eh. by eapply Hh.
  - intros s c a h [Hi Hs] Ea Ef Hw Hb. by eapply uni_can_complete.
  - intros s c n [Hi Hs] Hn. by eapply uni_can_ack.
Defined.
Lemma own_alive s0 ls s : AllocCrash.init s0 → run AllocCrash.next s0 ls s → ∃ c, alive own_live s c.
Proof.
  intros H0 Hr. destruct (ac_run _ _ _ H0 Hr) as (Hi&c0&c&Hc0&Hc&Hs). exists c. split; [by split|]. split.
  - simpl. clear Hi Hc Hs. revert H0. induction Hr as [s|s ls s1 l s2 Hr IH Hn]; intros H0; [intros v Hv; by rewrite H0 in Hv|].
    destruct (ac_run _ _ _ H0 Hr) as (Hi1&_). eapply ac_live_step; [exact Hi1|by apply IH|exact Hn].
  - eapply ct_ok_run; [by apply ct_ok_start| |exact Hc]. by eapply ac_run_ok.
Qed.
Lemma shared_alive s0 ls s : Unified.init s0 → run Unified.next s0 ls s → ∃ c, alive shared_live s c.
Proof.
  intros H0 Hr. destruct (uni_run _ _ _ H0 Hr) as (Hi&c0&c&Hc0&Hc&Hs). exists c. split; [by split|]. split.
  - simpl. clear Hi Hc Hs. revert H0. induction Hr as [s|s ls s1 l s2 Hr IH Hn]; intros H0; [intros v Hv; by rewrite H0 in Hv|].
    destruct (uni_run _ _ _ H0 Hr) as (Hi1&_). eapply uni_live_step; [exact Hi1|by apply IH|exact Hn].
  - eapply ct_ok_run; [by apply ct_ok_start| |exact Hc]. by eapply uni_run_ok.
Qed.
Lemma own_sync s0 ls s n b : AllocCrash.init s0 → run AllocCrash.next s0 ls s → alloc_room s →
  AllocCrash.next s s (AllocCrash.QueryEndLsn n) → alloc_durable_from s b → b ≤ n →
  ∃ ls' s', run AllocCrash.next s ls' s' ∧ Forall quiet ls' ∧ AllocCrash.next s' s' (AllocCrash.QueryLsnPersistence n) ∧
    Linked.tj_seq_start (img_tj (AllocCrash.persistent s')) = b.
Proof.
  intros H0 Hr Hroom Hq Hd Hb. destruct (own_alive _ _ _ H0 Hr) as [c Ha]. pose proof Ha as ([Hi (Hp&He&Hf)]&_).
  destruct (ac_sim _ _ _ _ Hi (conj Hp (conj He Hf)) Hq) as (_&c'&Hc'&_). apply ct_query_end in Hc' as (a&Ea&->).
  destruct (go_sync own_live s c a b Ha Hroom Ea) as (ls'&s'&c2&R&Q&A&B&E); [ | |done|].
  - destruct (linked_holds_end _ _ (proj1 (proj1 (valid_image_struct _ (proj1 Hi)))) Hp) as [-> _]. apply Hd. by left.
  - intros f Ef. rewrite Ef in Hf. simpl in Hf. destruct (AllocCrash.inflight s) as [i|] eqn:Ei; [|done].
    destruct (linked_holds_end (img_tj i) f) as [-> _]; [|done|apply Hd; by right].
    destruct Hi as (_&_&Hi). by apply (valid_image_struct _ (Hi _ Ei)).
  - exists ls', s'. split; [done|]. split; [done|]. pose proof A as ([Hi' (Hp'&_)]&_). split.
    + eapply (pl_ack own_live); [apply A|lia].
    + destruct (linked_holds_end _ _ (proj1 (proj1 (valid_image_struct _ (proj1 Hi')))) Hp') as [<- _]. done.
Qed.
Lemma shared_sync s0 ls s n b : Unified.init s0 → run Unified.next s0 ls s → unified_room s →
  Unified.next s s (AllocCrash.QueryEndLsn n) → unified_durable_from s b → b ≤ n →
  ∃ ls' s', run Unified.next s ls' s' ∧ Forall quiet ls' ∧ Unified.next s' s' (AllocCrash.QueryLsnPersistence n) ∧
    is_boundary (Unified.persistent s') = b.
Proof.
  intros H0 Hr Hroom Hq Hd Hb. destruct (shared_alive _ _ _ H0 Hr) as [c Ha]. pose proof Ha as ([Hi (Hp&He&Hf)]&_).
  destruct (uni_sim _ _ _ _ Hi (conj Hp (conj He Hf)) Hq) as (_&c'&Hc'&_). apply ct_query_end in Hc' as (a&Ea&->).
  destruct (go_sync shared_live s c a b Ha Hroom Ea) as (ls'&s'&c2&R&Q&A&B&E); [ | |done|].
  - destruct Hp as (->&_). apply Hd. by left.
  - intros f Ef. rewrite Ef in Hf. simpl in Hf. destruct (Unified.inflight s) as [i|] eqn:Ei; [|done].
    destruct Hf as (->&_). apply Hd. by right.
  - exists ls', s'. split; [done|]. split; [done|]. pose proof A as ([Hi' (Hp'&_)]&_). split.
    + eapply (pl_ack shared_live); [apply A|lia].
    + destruct Hp' as (E1&_). simpl in E1. congruence.
Qed.
End Machines.
