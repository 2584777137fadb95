(** The assembled store can always finish recovery and answer a request (C51). *)
From Verif Require Import Spec_Model Spec_Spec Spec_Proof Abs_Model Abs_Spec Abs_Proof Coord_Proof Coord_Live
  Betree_Model Betree_Spec Journal_Model Journal_Spec Paged_Proof Linked_Proof AllocJournal_Model AllocJournal_Proof
  AllocJournal_Facts CrashJournal_Model CrashJournal_Spec CrashJournal_Proof CrashJournal_Facts
  CrashJournal_Durable Store_Model Store_Spec Store_Proof Store_Boot Store_Live.
From Coq Require Import Lia.
Open Scope nat_scope.

(** ** Where replay can stop: at the ends of pages *)
Definition page_cut (dv : DiskView) (ptr : Pointer) (n : LSN) : Prop :=
  n = boundary_lsn dv ∨ ∃ d a r, Linked.dv_can_crop dv ptr d ∧ Linked.pointer_after_crop dv ptr d = Some a ∧
    entries dv !! a = Some r ∧ n = seq_end (message_seq r).
Lemma after_crop_none dv d : Linked.pointer_after_crop dv None d = None.
Proof. induction d as [|d IH]; [done|]. exact IH. Qed.
Lemma pages_from dv ptr l n : Linked.dv_wf dv → path dv ptr l → Linked.block_in_bounds dv ptr → page_cut dv ptr n →
  ∃ rs, consecutive n rs ∧ end_of n rs = Linked.dv_seq_end dv ptr ∧ Forall (page_at dv ptr) rs.
Proof.
  intros Hdv. pose proof Hdv as (Hew&Hnd&Hcc&Hlk). intros Hp. induction Hp as [|a r l He Hp IH]; intros Hb Hcut.
  - exists []. split; [done|]. split; [|done]. destruct Hcut as [->|(d&a&r&_&E&_)]; [done|]. by rewrite after_crop_none in E.
  - destruct (decide (n = seq_end (message_seq r))) as [->|Hn].
    { exists []. split; [done|]. split; [|done]. cbn. by rewrite He. }
    destruct (Hew _ _ He) as [Hw Hne]. destruct (decide (boundary_lsn dv < seq_start (message_seq r))) as [Hlt|Hge].
    + destruct (Hlk _ _ He Hlt) as [p Hpp]. destruct (Hnd _ _ He _ Hpp) as [q Hq].
      pose proof (Hcc _ _ He _ _ Hpp Hq) as Hc. unfold can_concat, can_follow in Hc. pose proof Hb as [_ Hb'].
      specialize (Hb' a r eq_refl He).
      destruct IH as (rs&H1&H2&H3).
      { split; [by apply (Hnd _ _ He)|]. intros x y Hx Hy. rewrite Hpp in Hx. injection Hx as <-. rewrite Hq in Hy. injection Hy as <-. lia. }
      { destruct Hcut as [->|(d&b&y&Hd&E&Hy&->)]; [by left|]. destruct d as [|d].
        - cbn in E. assert (y = r) as -> by congruence. done.
        - right. cbn in Hd, E. rewrite He in Hd, E. exists d, b, y. split; [apply Hd|]. done. }
      exists (rs ++ [message_seq r]). split_and!.
      * apply consecutive_snoc; [done|done|]. rewrite H2, Hpp. cbn. by rewrite Hq.
      * rewrite end_of_snoc. cbn. by rewrite He.
      * apply Forall_app. split.
        -- eapply Forall_impl; [|exact H3]. intros x (Hx&d&Hd&b&y&Hpt&Hy&E). split; [done|]. exists (S d). cbn.
           rewrite He. split; [done|]. by exists b, y.
        -- constructor; [|constructor]. split; [done|]. exists 0. split; [done|]. exists a, r. split; [done|]. split; [done|].
           unfold maybe_discard_old. rewrite decide_False by lia. done.
    + assert (n = boundary_lsn dv) as ->.
      { destruct Hcut as [->|(d&b&y&Hd&E&Hy&->)]; [done|]. destruct d as [|d].
        - cbn in E. assert (y = r) as -> by congruence. done.
        - cbn in E. rewrite He in E. unfold Linked.cropped_prior in E. rewrite decide_False in E by done. by rewrite after_crop_none in E. }
      by apply (pages_of dv (Some a) ((a, r) :: l)); [|econstructor|].
Qed.
(** A number up to which a journal in memory may have been replayed. *)
Definition replay_point (s : Linked.State) (n : LSN) : Prop :=
  n = Linked.st_end s ∨
  mh_is_empty (Linked.unmarshalled_tail s) ∧ page_cut (disk_view (Linked.truncated_journal s)) (freshest_rec (Linked.truncated_journal s)) n.
Lemma replay_rest s n : linked_inv s → replay_point s n → ∃ rs, consecutive n rs ∧ end_of n rs = Linked.st_end s ∧
  Forall (λ r, Linked.next s s (Linked.ReadForRecovery r)) rs.
Proof.
  intros [Hw Hac] [->|[He Hc]]; [by exists []|]. pose proof Hw as (Htj&Hmw&_&Hend). destruct (path_exists _ _ (proj1 Htj) Hac (proj1 (proj2 Htj))) as [l Hp].
  destruct (pages_from _ _ _ _ (proj1 Htj) Hp (proj2 Htj) Hc) as (rs&H1&H2&H3). exists rs. split; [done|]. split.
  - rewrite H2. unfold Linked.st_end. unfold mh_is_empty in He. rewrite <-He. exact Hend.
  - eapply Forall_impl; [|exact H3]. intros r (Hr&d&Hd&a&q&Hpt&Hq&E). left. exists d. split; [done|]. exists r.
    split; [done|]. split; [done|]. split; [done|]. split; [done|]. by exists a, q.
Qed.
Lemma replay_read s s' r : Linked.next s s' (Linked.ReadForRecovery r) → mh_is_empty (Linked.unmarshalled_tail s) →
  replay_point s (seq_end r).
Proof.
  intros [[d Hn]|[[d Hn]|[Hn|[Hn|[[tj Hn]|[(c&a&Hn)|Hn]]]]]] He.
  - destruct Hn as (Hw&m&[= <-]&_&_&Hd&a&q&Hp&Hq&<-&_). right. split; [done|]. right. exists d, a, q. split_and!; try done.
    unfold maybe_discard_old. by case_decide.
  - by destruct Hn as (_&?&?&_).
  - by destruct Hn as (_&?&_).
  - by destruct Hn as (_&?&?&_).
  - by destruct Hn as (_&?&?&?&_).
  - by destruct Hn as (_&_&?&_).
  - by destruct Hn as (_&?&_).
Qed.

(** ** What the two page journals have in common *)
Record pages_view `{Geometry} {S : Type} (nxt : S → S → AllocCrash.Label → Prop) (sim : S → CTJournal.State → Prop) := mkPagesView {
  pv : S → option AllocJournal.State;
  pv_is s c : sim s c → opt_is (λ v a, alloc_inv v ∧ linked_journal_is (AllocJournal.journal v) (AbstractJournal.journal a))
    (pv s) (CTJournal.ephemeral c);
  pv_load s s' : nxt s s' AllocCrash.LoadEphemeralFromPersistent → ∃ v, pv s' = Some v ∧
    mh_is_empty (Linked.unmarshalled_tail (AllocJournal.journal v));
  pv_read s s' r : nxt s s' (AllocCrash.ReadForRecovery r) → ∃ v, pv s = Some v ∧ pv s' = Some v ∧
    AllocJournal.next v v (AllocJournal.ReadForRecovery r);
  pv_internal s s' x y : nxt s s' (AllocCrash.Internal x y) → ∃ v v', pv s = Some v ∧ pv s' = Some v' ∧
    AllocJournal.next v v' (AllocJournal.InternalAllocations x y);
  pv_start s s' b m : nxt s s' (AllocCrash.CommitStart b m) → pv s' = pv s;
  pv_asked s s' n : nxt s s' (AllocCrash.QueryLsnPersistence n) → pv s' = pv s;
  pv_can_read s v r : pv s = Some v → AllocJournal.next v v (AllocJournal.ReadForRecovery r) → nxt s s (AllocCrash.ReadForRecovery r);
  pv_can_end s v n : pv s = Some v → AllocJournal.next v v (AllocJournal.QueryEndLsn n) → nxt s s (AllocCrash.QueryEndLsn n);
  pv_can_put s v m : pv s = Some v → mh_wf m → seq_start m = Linked.st_end (AllocJournal.journal v) → alloc_inv v →
    ∃ s', nxt s s' (AllocCrash.Put m) }.
Arguments pv {H S nxt sim}. Arguments pv_is {H S nxt sim}. Arguments pv_load {H S nxt sim}. Arguments pv_read {H S nxt sim}.
Arguments pv_internal {H S nxt sim}. Arguments pv_start {H S nxt sim}. Arguments pv_asked {H S nxt sim}.
Arguments pv_can_read {H S nxt sim}. Arguments pv_can_end {H S nxt sim}. Arguments pv_can_put {H S nxt sim}.
Lemma linked_put s m : Linked.wf s → mh_wf m → seq_start m = Linked.st_end s →
  Linked.next s (Linked.mkState (Linked.truncated_journal s) (mh_concat (Linked.unmarshalled_tail s) m)) (Linked.Put m).
Proof. intros Hw Hm Hs. do 3 right; left. split; [done|]. by exists m. Qed.
Ltac ac_cases Hn := destruct Hn as [[nj Hn]|[Hn|[Hn|[[nj Hn]|[[nj Hn]|[Hn|[[f Hn]|[[nj Hn]|Hn]]]]]]]].
Ltac uni_cases Hn := destruct Hn as [[nj Hn]|[Hn|[Hn|[[nj Hn]|[(nj&nd&Hn)|[Hn|[(f&dp&Hn)|[(nj&nd&Hn)|Hn]]]]]]]].
Ltac ac_wrong Hn := first [by destruct Hn as (?&_)|by destruct Hn as (?&?&_)|by destruct Hn as (?&?&?&_)|by destruct Hn as (?&?&?&?&_)|by destruct Hn as (?&?&?&?&?&_)].
Lemma own_view `{Geometry} : pages_view AllocCrash.next (λ s c, ac_inv s ∧ alloc_crash_is s c).
Proof.
  refine (mkPagesView _ _ _ _ AllocCrash.ephemeral _ _ _ _ _ _ _ _ _).
  - intros s c ((_&Hi&_)&(_&Re&_)). destruct (AllocCrash.ephemeral s) as [v|] eqn:E, (CTJournal.ephemeral c); try done.
    split; [by apply Hi|done].
  - intros s s' Hn. ac_cases Hn; try ac_wrong Hn. destruct Hn as (_&_&(_&->)&->). eexists. by split.
  - intros s s' r Hn. ac_cases Hn; try ac_wrong Hn. destruct Hn as (m&v&[= <-]&E&Hx&->). by exists v.
  - intros s s' x y Hn. ac_cases Hn; try ac_wrong Hn. destruct Hn as (a&b&v&[= <- <-]&E&_&Hx&->). by exists v, nj.
  - intros s s' b m Hn. ac_cases Hn; try ac_wrong Hn. by destruct Hn as (?&?&v&_&_&_&_&_&_&_&->).
  - intros s s' n Hn. ac_cases Hn; try ac_wrong Hn. by destruct Hn as (?&_&_&->).
  - intros s v r E Hx. right; left. by exists r, v.
  - intros s v n E Hx. right; right; left. by exists n, v.
  - intros s v m E Hm Hs ((Hw&_)&_). eexists. right; right; right; left. eexists _, m, v. split; [done|]. split; [done|].
    split; [|reflexivity]. do 3 right; left. eexists _. split; [by exists m|]. split; [by apply linked_put|reflexivity].
Defined.
Lemma shared_view `{Geometry} : pages_view Unified.next (λ s c, uni_inv s ∧ unified_is s c).
Proof.
  refine (mkPagesView _ _ _ _ (λ s, (λ e, to_aj e (Unified.dv s)) <$> Unified.ephemeral s) _ _ _ _ _ _ _ _ _).
  - intros s c (Hi&(_&Re&_)). unfold uni_inv in Hi. destruct (Unified.ephemeral s) as [v|] eqn:E, (CTJournal.ephemeral c); try done.
    split; [apply Hi|]. by apply memory_is.
  - intros s s' Hn. uni_cases Hn; try ac_wrong Hn. destruct Hn as (_&_&_&(_&->)&->). eexists. by split.
  - intros s s' r Hn. uni_cases Hn; try ac_wrong Hn. destruct Hn as (m&v&[= <-]&E&Hx&->). rewrite E. by eexists.
  - intros s s' x y Hn. uni_cases Hn; try ac_wrong Hn. destruct Hn as (a&b&v&[= <- <-]&E&Hx&->). rewrite E. by eexists _, _.
  - intros s s' b m Hn. uni_cases Hn; try ac_wrong Hn. by destruct Hn as (?&?&v&_&_&_&_&_&_&_&_&_&_&->).
  - intros s s' n Hn. uni_cases Hn; try ac_wrong Hn. by destruct Hn as (?&_&_&->).
  - intros s v r E Hx. right; left. destruct (Unified.ephemeral s) as [e|] eqn:Ee; [|done]. injection E as <-. by exists r, e.
  - intros s v n E Hx. right; right; left. destruct (Unified.ephemeral s) as [e|] eqn:Ee; [|done]. injection E as <-. by exists n, e.
  - intros s v m E Hm Hs ((Hw&_)&_). destruct (Unified.ephemeral s) as [e|] eqn:Ee; [|done]. injection E as <-. eexists.
    right; right; right; left. eexists (mkES (es_image e) (mh_concat (es_tail e) m) (es_index e) (es_alloc e)), m, e.
    split; [done|]. split; [done|]. split; [|reflexivity]. do 3 right; left. eexists _. split; [by exists m|].
    split; [by apply linked_put|reflexivity].
Defined.

Ltac aj_cases Hn := destruct Hn as [Hn|[(dp&Hn)|[Hn|[(nj&Hn)|[(nj&Hn)|[(cut&ad&Hn)|[Hn|[Hn|Hn]]]]]]]].
Lemma replay_internal `{Geometry} v v' x y n : AllocJournal.next v v' (AllocJournal.InternalAllocations x y) →
  replay_point (AllocJournal.journal v) n → replay_point (AllocJournal.journal v') n.
Proof.
  intros Hn Hp. aj_cases Hn.
  - by destruct Hn as ((?&?)&_).
  - by destruct Hn as (?&?&?&_).
  - by destruct Hn as ((?&?)&_).
  - by destruct Hn as ((?&?)&_).
  - by destruct Hn as (?&?&?&?&?&?&_).
  - destruct Hn as (_&_&Hlt&[_ Hle]&->). destruct Hp as [->|[He _]]; [by left|]. unfold mh_is_empty in He. cbv zeta in *. lia.
  - by destruct Hn as (?&_&_&_&->).
  - by destruct Hn as (?&_&_&->).
  - by destruct Hn as (_&->).
Qed.
Lemma alloc_reads `{Geometry} v v' r : AllocJournal.next v v' (AllocJournal.ReadForRecovery r) →
  Linked.next (AllocJournal.journal v) (AllocJournal.journal v) (Linked.ReadForRecovery r).
Proof.
  intros Hn. aj_cases Hn.
  - by destruct Hn as (_&?&_).
  - by destruct Hn as (?&?&?&_).
  - by destruct Hn as ((?&?)&_).
  - by destruct Hn as ((?&?)&_).
  - by destruct Hn as (?&?&?&?&?&?&_).
  - by destruct Hn as (?&_).
  - by destruct Hn as (?&?&_).
  - by destruct Hn as (?&?&_).
  - by destruct Hn as (?&_).
Qed.
Lemma ct_still c c' l a : CTJournal.next c c' l → CTJournal.ephemeral c = Some a → (∀ k, l ≠ CTJournal.CrashLabel k) →
  ∃ a', CTJournal.ephemeral c' = Some a'.
Proof.
  intros Hn E Hl. destruct Hn as [[j Hn]|[Hn|[Hn|[[j Hn]|[[j Hn]|[Hn|[[fz Hn]|[[j Hn]|Hn]]]]]]]].
  - destruct Hn as (_&_&_&->). by eexists.
  - destruct Hn as (?&?&_&_&_&->). by eexists.
  - destruct Hn as (?&?&_&_&_&->). by eexists.
  - destruct Hn as (?&?&_&_&_&->). by eexists.
  - destruct Hn as (?&_&_&_&->). by eexists.
  - destruct Hn as (?&_&_&->). by eexists.
  - destruct Hn as (?&?&?&_&_&_&_&_&_&_&_&->). by eexists.
  - destruct Hn as (?&?&?&_&_&_&_&->). by eexists.
  - destruct Hn as (k&->&_). by destruct (Hl k).
Qed.
Lemma ct_complete_end c c' n : CTJournal.next c c' (CTJournal.CommitCompleteLabel n) →
  ∃ a a', CTJournal.ephemeral c = Some a ∧ CTJournal.ephemeral c' = Some a' ∧
    n = seq_end (AbstractJournal.journal a) ∧ n = seq_end (AbstractJournal.journal a').
Proof.
  intros Hn. destruct Hn as [[j Hn]|[Hn|[Hn|[[j Hn]|[[j Hn]|[Hn|[[fz Hn]|[[j Hn]|Hn]]]]]]]].
  - by destruct Hn as (?&_).
  - by destruct Hn as (?&?&?&_).
  - by destruct Hn as (?&?&?&_).
  - by destruct Hn as (?&?&?&_).
  - by destruct Hn as (?&?&_).
  - by destruct Hn as (?&?&_).
  - by destruct Hn as (?&?&?&?&_).
  - destruct Hn as (re&v&f'&[= <-]&Hv&Hff&Hs&->). exists v, j. split; [done|]. split; [done|].
    abs_inv Hs. injection HL as <- <-. subst j. done.
  - by destruct Hn as (?&?&_).
Qed.

(** ** The whole store *)
Section Answer.
  Context `{G : Geometry} {S : Type} {nxt : S → S → AllocCrash.Label → Prop} {sim : S → CTJournal.State → Prop}.
  Context (pl : pages_view nxt sim) (jinit : S → Prop) (infl : S → bool).
  Notation J := (mkJournalLayer S jinit (λ s s' l, ∃ l', outer_label l' = l ∧ nxt s s' l') infl).
  Context {disk : S → MsgHistory → Prop} (jok : journal_ok J disk) (Hsim : ∀ s c, jo_sim jok s c → sim s c).
  Context {M : MapLayer} {ans : ml_image M → Key → Message → Prop} {troom : ml_state M → Prop} (mok : map_ok M ans troom).

  (** The tree has been replayed up to the end of a page, or everything has. *)
  Definition at_point (s : Store.State J M) : Prop :=
    ∀ e, Store.ephemeral s = Some e → ∃ v, pv pl (Store.journal s) = Some v ∧
      replay_point (AllocJournal.journal v) (CoordSys.map_lsn e).
  Lemma view_end js cj a : jo_sim jok js cj → CTJournal.ephemeral cj = Some a →
    ∃ v, pv pl js = Some v ∧ alloc_inv v ∧ Linked.st_end (AllocJournal.journal v) = seq_end (AbstractJournal.journal a) ∧
      Linked.st_start (AllocJournal.journal v) = seq_start (AbstractJournal.journal a).
  Proof.
    intros Hs Ha. pose proof (pv_is pl _ _ (Hsim _ _ Hs)) as Ho. rewrite Ha in Ho. destruct (pv pl js) as [v|]; [|done].
    exists v. split; [done|]. destruct Ho as [Hi (p&Hp&->)]. split; [done|]. split; [done|]. cbn. unfold Linked.st_start.
    symmetry. apply Hp.
  Qed.
  Lemma point_end js cj a n : jo_sim jok js cj → CTJournal.ephemeral cj = Some a → n = seq_end (AbstractJournal.journal a) →
    ∃ v, pv pl js = Some v ∧ replay_point (AllocJournal.journal v) n.
  Proof. intros Hs Ha ->. destruct (view_end _ _ _ Hs Ha) as (v&Hv&_&He&_). exists v. split; [done|]. left. by rewrite He. Qed.
  Lemma point_step (s s' : Store.State J M) c l : store_is jok mok s c → cs_inv c → at_point s → Store.next s s' l → at_point s'.
  Proof.
    intros (Hj&Hm&He&_) Hi Hp Hn.
    destruct Hn as [(nj&nm&lsn&->&Hx&Hxm&->)|[(nj&nm&r&e&->&Ee&Hw&Hx&Hxm&->)|[(e&q&Ee&->&_&->)|
      [(nj&nm&e&q&y&k&x&Ee&->&_&_&_&_&_&Hx&Hxm&->)|[(nj&nm&e&q&y&k&x&Ee&->&_&_&_&_&_&Hx&Hxm&->)|
      [(e&y&Ee&->&_&->)|[(nj&e&Ee&->&Hx&->)|[(nm&e&Ee&->&Hxm&->)|[(nj&e&id&Ee&->&_&Hx&->)|
      [(nj&e&id&n&Ee&->&_&Hx&->)|[(->&_&->)|[(b&nj&e&Ee&->&Hx&Hxm&->)|[(nm&nj&e&_&Ee&->&Hx&Hxm&->)|
      (nj&nm&->&Hx&Hxm&->)]]]]]]]]]]]]]; intros e' E'; cbn in E' |- *.
    - injection E' as <-. cbn. pose proof Hx as (l'&El&Hl). destruct l'; try discriminate El. destruct (pv_load pl _ _ Hl) as (v&Hv&Ht).
      exists v. split; [done|]. right. split; [done|]. left.
      destruct (jo_step jok _ _ _ _ Hj Hx) as (cj'&HJ&Hj'). destruct (map_sim mok _ _ _ _ Hm Hxm) as (cm'&HM&_).
      assert (CTJournal.ephemeral cj' = Some (AbstractJournal.mkState (CTJournal.persistent (CoordSys.journal c))) ∧
        CTJournal.ephemeral (CoordSys.journal c) = None) as [Ea En].
      { destruct HJ as [[j HJ]|[HJ|[HJ|[[j HJ]|[[j HJ]|[HJ|[[fz HJ]|[[j HJ]|HJ]]]]]]]];
          [|by destruct HJ as (?&?&?&_)|by destruct HJ as (?&?&?&_)|by destruct HJ as (?&?&?&_)|by destruct HJ as (?&?&_)|
           by destruct HJ as (?&?&_)|by destruct HJ as (?&?&?&?&_)|by destruct HJ as (?&?&?&?&_)|by destruct HJ as (?&?&_)].
        destruct HJ as (_&En&HI&->). cbn. split; [|done]. destruct HI as [_ ->]. done. }
      destruct (view_end _ _ _ Hj' Ea) as (v'&Hv'&_&_&Hst). assert (v' = v) as -> by congruence. unfold Linked.st_start, Linked.tj_seq_start in Hst.
      rewrite Hst. cbn. destruct HM as [(n'&x&[= <-]&_&->&_&_)|[(x&?&?&?&_)|[(x&?&?&?&?&?&_)|[(x&y&?&?&_)|[(x&?&?&_)|[(?&?&?&?&_)|[(?&?&_)|(?&?&_)]]]]]]]; try done.
      destruct c as [[jp je jf] [mp me mf] e' sb]. destruct Hi as (_&Hi&_). cbn in *. congruence.
    - injection E' as <-. cbn. destruct (Hp _ Ee) as (v0&Hv0&Hp0). pose proof Hx as (l'&El&Hl). destruct l'; try discriminate El.
      cbn in El. injection El as ->. destruct (pv_read pl _ _ _ Hl) as (v&Hv&Hv'&Hr). assert (v0 = v) as -> by congruence.
      exists v. split; [done|]. destruct Hp0 as [Hp0|[Ht _]]; [|by eapply replay_read; [by eapply alloc_reads|]]. left.
      destruct (jo_step jok _ _ _ _ Hj Hx) as (cj'&HJ&Hj'). destruct (map_sim mok _ _ _ _ Hm Hxm) as (cm'&HM&_).
      rewrite Ee in He. symmetry in He. destruct (cs_inv_known _ _ Hi He) as (jp&mp&j&m&jf&mf&sb&->&_&_&Hml&_). cbn in *.
      destruct (ct_still _ _ _ _ HJ eq_refl) as (a'&Ea'); [done|]. destruct (ct_end _ _ _ _ HJ Ea') as [?|(a&[= <-]&Hin&->)]; [done|].
      destruct (put_records_follow _ _ _ HM) as (x&[= <-]&Hst). cbn in Hst.
      destruct (view_end _ _ _ Hj eq_refl) as (v'&Hv2&_&Hen&_). assert (v' = v) as -> by congruence. cbn in *.
      destruct Hin as (_&?&_). destruct Hw as [? _]. lia.
    - injection E' as <-. cbn. by apply Hp.
    - injection E' as <-. cbn. destruct (jo_step jok _ _ _ _ Hj Hx) as (cj'&HJ&Hj').
      rewrite Ee in He. symmetry in He. destruct (cs_inv_known _ _ Hi He) as (jp&mp&j&m&jf&mf&sb&->&_&_&Hml&_). cbn in *.
      destruct (ct_still _ _ _ _ HJ eq_refl) as (a'&Ea'); [done|]. destruct (ct_end _ _ _ _ HJ Ea') as [?|(a&[= <-]&Hen&->)]; [done|].
      by apply (point_end _ _ _ _ Hj' Ea').
    - injection E' as <-. cbn. destruct (jo_step jok _ _ _ _ Hj Hx) as (cj'&HJ&Hj').
      rewrite Ee in He. symmetry in He. destruct (cs_inv_known _ _ Hi He) as (jp&mp&j&m&jf&mf&sb&->&_&_&Hml&_). cbn in *.
      destruct (ct_still _ _ _ _ HJ eq_refl) as (a'&Ea'); [done|]. destruct (ct_end _ _ _ _ HJ Ea') as [?|(a&[= <-]&Hen)]; [done|].
      apply (point_end _ _ _ _ Hj' Ea'). cbn in Hen. lia.
    - injection E' as <-. cbn. by apply Hp.
    - destruct (Hp _ E') as (v0&Hv0&Hp0). destruct Hx as (l'&El&Hl). destruct l'; try discriminate El.
      destruct (pv_internal pl _ _ _ _ Hl) as (v&v'&Hv&Hv'&Hr). assert (v0 = v) as -> by congruence. exists v'. split; [done|].
      by eapply replay_internal.
    - by apply Hp.
    - injection E' as <-. cbn. destruct (jo_step jok _ _ _ _ Hj Hx) as (cj'&HJ&Hj').
      rewrite Ee in He. symmetry in He. destruct (cs_inv_known _ _ Hi He) as (jp&mp&j&m&jf&mf&sb&->&_&_&Hml&_). cbn in *.
      destruct (ct_still _ _ _ _ HJ eq_refl) as (a'&Ea'); [done|]. destruct (ct_end _ _ _ _ HJ Ea') as [?|(a&[= <-]&Hen&->)]; [done|].
      by apply (point_end _ _ _ _ Hj' Ea').
    - injection E' as <-. cbn. destruct Hx as (l'&El&Hl). destruct l'; try discriminate El. rewrite (pv_asked pl _ _ _ Hl). by apply Hp.
    - by apply Hp.
    - destruct Hx as (l'&El&Hl). destruct l'; try discriminate El. rewrite (pv_start pl _ _ _ _ Hl). by apply Hp.
    - assert (e' = e) as -> by congruence. destruct (jo_step jok _ _ _ _ Hj Hx) as (cj'&HJ&Hj').
      destruct (ct_complete_end _ _ _ HJ) as (a&a'&_&Ea'&_&Hen). by apply (point_end _ _ _ _ Hj' Ea').
    - done.
  Qed.
  Lemma reachable_point (s0 : Store.State J M) ls s : Store.init s0 → run Store.next s0 ls s →
    ∃ c, store_is jok mok s c ∧ cs_inv c ∧ at_point s.
  Proof.
    intros H0 Hr. destruct (store_start jok mok _ H0) as (c0&Hc0&Hs0).
    assert (∃ c, run CoordSys.next_fixed c0 ls c ∧ store_is jok mok s c ∧ at_point s) as (c&Hc&?&?).
    2:{ exists c. split; [done|]. split; [by eapply cs_run|done]. }
    induction Hr as [s|s ls s1 l s2 Hr IH Hn].
    - exists c0. split; [constructor|]. split; [done|]. intros e He. destruct H0 as (_&_&H0&_). congruence.
    - destruct (IH H0 Hs0) as (c1&R1&S1&P1). destruct (store_sim jok mok _ _ _ _ S1 Hn) as (c2&N2&S2).
      exists c2. split; [by eapply run_snoc|]. split; [done|]. eapply point_step; [exact S1| |done|exact Hn]. by eapply cs_run.
  Qed.
  Lemma boots_background (s s' : Store.State J M) ls : run boots s ls s' → Forall background ls.
  Proof.
    intros Hr. induction Hr as [s|s ls s1 l s2 Hr IH Hn]; [constructor|]. apply Forall_app. split; [done|].
    constructor; [|constructor]. left. by destruct Hn as [(?&?&?&->&_)|(?&?&?&?&->&_)].
  Qed.
  Lemma boots_store (s s' : Store.State J M) ls : run boots s ls s' → run Store.next s ls s'.
  Proof. induction 1; [constructor|]. eapply run_snoc; [done|]. by apply boots_next. Qed.
  (** Replay what is left. *)
  Lemma can_replay (s0 : Store.State J M) ls s e : Store.init s0 → run Store.next s0 ls s → Store.ephemeral s = Some e →
    ∃ ls' s' c e' a v, run Store.next s ls' s' ∧ Forall background ls' ∧ store_is jok mok s' c ∧ Store.ephemeral s' = Some e' ∧
      CoordSys.progress e' = CoordSys.progress e ∧ CTMap.ephemeral (CoordSys.mapadt c) = Some a ∧
      st_seq_end (AbstractMap.stamped_map a) = CoordSys.map_lsn e' ∧ pv pl (Store.journal s') = Some v ∧ alloc_inv v ∧
      Linked.st_end (AllocJournal.journal v) = CoordSys.map_lsn e'.
  Proof.
    intros H0 Hr He. destruct (reachable_point _ _ _ H0 Hr) as (c&Hs&Hi&Hp). destruct (Hp _ He) as (v&Hv&Hpt).
    pose proof Hs as (Hj&_&Hee&_). rewrite He in Hee. symmetry in Hee.
    destruct (cs_inv_known _ _ Hi Hee) as (jp&mp&j&m&jf&mf&sb&->&_&_&Hml&_). cbn in Hj.
    destruct (view_end _ _ _ Hj eq_refl) as (v'&Hv'&Hinv&_&_). assert (v' = v) as -> by congruence.
    assert (linked_inv (AllocJournal.journal v)) as Hli by apply Hinv.
    destruct (replay_rest _ _ Hli Hpt) as (rs&H1&H2&H3).
    destruct (replay jok mok rs s _ e (AbstractMap.mkState m) Hs He eq_refl (eq_sym Hml) H1)
      as (ls'&s'&c'&e'&a'&R&S'&E'&A'&L'&N'&P'&J').
    { eapply Forall_impl; [|exact H3]. intros r Hrd. exists (AllocCrash.ReadForRecovery r). split; [done|].
      apply (pv_can_read pl _ v); [done|]. left. split; [by exists r|]. by split. }
    exists ls', s', c', e', a', v. split; [by apply boots_store|]. split; [by eapply boots_background|]. split; [done|]. split; [done|].
    split; [done|]. split; [done|]. split; [done|]. rewrite J'. split; [done|]. split; [done|]. congruence.
  Qed.
  Lemma can_answer (s0 : Store.State J M) ls s e req : Store.init s0 → run Store.next s0 ls s → Store.ephemeral s = Some e →
    req ∈ requests (CoordSys.progress e) → req_input req ≠ NoopInput →
    (∀ y, y ∈ replies (CoordSys.progress e) → reply_id y ≠ req_id req) →
    ∃ ls' rep s', run Store.next s
        (ls' ++ [CTAM.OperateOp (AsyncMap.ExecuteOp req rep); CTAM.OperateOp (AsyncMap.ReplyOp rep)]) s' ∧
      Forall background ls' ∧ reply_id rep = req_id req.
  Proof.
    intros H0 Hr He Hq Hno Hrep. destruct (can_replay _ _ _ _ H0 Hr He) as (l1&s1&c&e1&a&v&R1&B1&Hs&He1&Hp1&Ha&Hl&Hv&Hinv&Hend).
    rewrite <-Hp1 in Hq, Hrep. pose proof Hs as (Hj&Hm&_).
    assert (Hw : Linked.wf (AllocJournal.journal v)) by apply Hinv.
    assert (∃ rep s2 e2, Store.next s1 s2 (CTAM.OperateOp (AsyncMap.ExecuteOp req rep)) ∧ reply_id rep = req_id req ∧
      Store.ephemeral s2 = Some e2 ∧ rep ∈ replies (CoordSys.progress e2)) as (rep&s2&e2&Hx&Hid&He2&Hin).
    { destruct (req_input req) as [k|k x|] eqn:Ei; [| |done].
      - destruct (map_can_query mok _ _ _ k Hm Ha) as [x Hmq]. rewrite Hl in Hmq.
        set (rep := mkReply (QueryOutput x) (req_id req)).
        set (e2 := CoordSys.mkKnown (mkEph (requests (CoordSys.progress e1) ∖ {[req]}) ({[rep]} ∪ replies (CoordSys.progress e1)))
                     (CoordSys.sync_reqs e1) (CoordSys.map_lsn e1)).
        exists rep, (Store.mkState (Store.journal s1) (Store.mapadt s1) (Some e2) (Store.superblock_in_flight s1)), e2.
        split; [|split; [done|split; [done|cbn; set_solver]]].
        do 3 right; left. exists (Store.journal s1), (Store.mapadt s1), e1, req, rep, k, x.
        split; [done|]. split; [done|]. split; [done|]. split; [done|]. split; [done|]. split; [done|].
        split; [intros Hy; by destruct (Hrep _ Hy)|]. split; [|by split].
        exists (AllocCrash.QueryEndLsn (CoordSys.map_lsn e1)). split; [done|]. apply (pv_can_end pl _ v); [done|].
        right; right; left. split; [by eexists|]. split; [|done]. right; right; left. split; [done|]. split; [|done]. cbn. by rewrite Hend.
      - set (sg := singleton_at (CoordSys.map_lsn e1) (mkKM k (Define x))).
        destruct (map_can_put mok _ _ _ sg Hm Ha (singleton_wf _ _)) as [nm Hnm]; [unfold can_follow; cbn; congruence|].
        destruct (pv_can_put pl (Store.journal s1) v sg Hv (singleton_wf _ _)) as [nj Hnj]; [cbn; congruence|done|].
        set (rep := mkReply PutOutput (req_id req)).
        set (e2 := CoordSys.mkKnown (mkEph (requests (CoordSys.progress e1) ∖ {[req]}) ({[rep]} ∪ replies (CoordSys.progress e1)))
                     (CoordSys.sync_reqs e1) (CoordSys.map_lsn e1 + 1)).
        exists rep, (Store.mkState (J := J) nj nm (Some e2) (Store.superblock_in_flight s1)), e2.
        split; [|split; [done|split; [done|cbn; set_solver]]].
        do 4 right; left. exists nj, nm, e1, req, rep, k, x.
        split; [done|]. split; [done|]. split; [done|]. split; [done|]. split; [done|]. split; [done|].
        split; [intros Hy; by destruct (Hrep _ Hy)|]. split; [|by split]. by exists (AllocCrash.Put sg). }
    eexists l1, rep, _. split; [|by split]. eapply run_app; [exact R1|]. eapply run_cons; [exact Hx|]. apply run_one.
    do 5 right; left. exists e2, rep. split; [done|]. split; [done|]. split; [done|reflexivity].
  Qed.
End Answer.

Lemma layer_can_answer `{Geometry} p {M ans troom} (mok : map_ok M ans troom) (s0 : Store.State (journal_layer p) M) ls s e req :
  Store.init s0 → run Store.next s0 ls s → Store.ephemeral s = Some e →
  req ∈ requests (CoordSys.progress e) → req_input req ≠ NoopInput →
  (∀ y, y ∈ replies (CoordSys.progress e) → reply_id y ≠ req_id req) →
  ∃ ls' rep s', run Store.next s
      (ls' ++ [CTAM.OperateOp (AsyncMap.ExecuteOp req rep); CTAM.OperateOp (AsyncMap.ReplyOp rep)]) s' ∧
    Forall background ls' ∧ reply_id rep = req_id req.
Proof.
  destruct p.
  - by refine (can_answer own_view AllocCrash.init (λ s, present (AllocCrash.inflight s)) own_ok _ mok s0 ls s e req).
  - by refine (can_answer shared_view Unified.init (λ s, present (Unified.inflight s)) shared_ok _ mok s0 ls s e req).
Qed.
Lemma store_can_answer `{Geometry} p t (s0 : Store.State (journal_layer p) (tree_layer t)) ls s e req :
  Store.init s0 → run Store.next s0 ls s → Store.ephemeral s = Some e →
  req ∈ requests (CoordSys.progress e) → req_input req ≠ NoopInput →
  (∀ y, y ∈ replies (CoordSys.progress e) → reply_id y ≠ req_id req) →
  ∃ ls' rep s', run Store.next s
      (ls' ++ [CTAM.OperateOp (AsyncMap.ExecuteOp req rep); CTAM.OperateOp (AsyncMap.ReplyOp rep)]) s' ∧
    Forall background ls' ∧ reply_id rep = req_id req.
Proof. exact (layer_can_answer p (tree_ok t) s0 ls s e req). Qed.

(** A no-op is never executed. *)
Lemma no_noop {J M} (s s' : Store.State J M) ls req rep : run Store.next s ls s' →
  CTAM.OperateOp (AsyncMap.ExecuteOp req rep) ∈ ls → req_input req ≠ NoopInput.
Proof.
  intros Hr. induction Hr as [s|s ls s1 l s2 Hr IH Hn]; [by intros ?%elem_of_nil|].
  intros [Hin|Hin]%elem_of_app; [by apply IH|]. apply elem_of_list_singleton in Hin as <-.
  destruct Hn as [(?&?&?&?&_)|[(?&?&?&?&?&_)|[(?&?&?&?&_)|[(?&?&?&q&y&k'&x&_&El&E1&E2&_)|[(?&?&?&q&y&k'&x&_&El&E1&E2&_)|
      [(?&?&?&?&_)|[(?&?&?&?&_)|[(?&?&?&?&_)|[(?&?&?&?&?&_)|[(?&?&?&?&?&?&_)|[(?&_)|[(?&?&?&?&?&_)|[(?&?&?&?&?&?&_)|(?&?&?&_)]]]]]]]]]]]]]; try done;
    injection El as <- <-; by rewrite E1.
Qed.
