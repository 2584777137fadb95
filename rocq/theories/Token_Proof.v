(** Proofs for C44, C45: what goes through the interface is a history of the
    auditor's system, for every program model. *)
From Verif Require Import Spec_Model Spec_Spec Disk_Model System_Model System_Spec Spec_Proof AsyncDisk_Proof System_Proof
  Token_Model Token_Spec.

Section sim.
  Context {P : Type} (PM : ProgramModel P) `{HG : Geometry}.
  Notation MS := (API.State P).
  Notation SS := (SystemModel.State (P:=P)).
  Notation toks m := (API.tokens m).
  Notation reqq m := (AsyncDisk.requests (API.disk m)).
  Notation resq m := (AsyncDisk.responses (API.disk m)).

  Definition lift_input (i : Input) : XInput :=
    match i with QueryInput k => XQuery k | PutInput k v => XPut k v | NoopInput => XNoop end.
  Definition lift_output (o : Output) : XOutput :=
    match o with QueryOutput v => XQueryOutput v | PutOutput => XPutOutput | NoopOutput => XNoopOutput end.
  Definition lift_req (r : Request) : XRequest := mkXReq (lift_input (req_input r)) (req_id r).
  Definition lift_reply (r : Reply) : XReply := mkXReply (lift_output (reply_output r)) (reply_id r).
  Lemma lift_req_of req : xreq_input req ≠ XSync → lift_req (mapspec_req req) = req.
  Proof. by destruct req as [[]]. Qed.
  Lemma lift_reply_of rep : xreply_output rep ≠ XSyncOutput → lift_reply (mapspec_reply rep) = rep.
  Proof. by destruct rep as [[]]. Qed.
  Lemma lift_req_inj r r' : lift_req r = lift_req r' → r = r'.
  Proof. destruct r as [[] ?], r' as [[] ?]; intros [=]; by subst. Qed.
  Lemma lift_reply_inj r r' : lift_reply r = lift_reply r' → r = r'.
  Proof. destruct r as [[] ?], r' as [[] ?]; intros [=]; by subst. Qed.
  Lemma lift_req_not_sync r id : lift_req r ≠ mkXReq XSync id.
  Proof. by destruct r as [[] ?]. Qed.
  Lemma lift_reply_not_sync r id : lift_reply r ≠ mkXReply XSyncOutput id.
  Proof. by destruct r as [[] ?]. Qed.

  (** *** Numbers: every id in use was drawn, and is in one place only *)
  Record minv (m : MS) : Prop := mk_minv {
    n_pred : ∀ id, API.predicted m = Some id → id = API.counter m;
    n_asked : Tokens.disk_requests (toks m) = ∅ ∨
      ∃ r, Tokens.disk_requests (toks m) = {[+ (API.counter m, r) +]} ∧ API.predicted m = Some (API.counter m);
    n_reqq : ∀ id r, reqq m !! id = Some r → (id < API.counter m)%N;
    n_resq : ∀ id r, resq m !! id = Some r → (id < API.counter m)%N ∧ reqq m !! id = None;
    n_tok : ∀ id r, (id, r) ∈ Tokens.disk_responses (toks m) →
      (id < API.counter m)%N ∧ reqq m !! id = None ∧ resq m !! id = None;
    n_once : unique_keys (Tokens.disk_responses (toks m)) }.

  Record rel (m : MS) (s : SS) : Prop := mk_rel {
    r_prog : SystemModel.program s = Tokens.model (toks m);
    r_req : ∀ r, multiplicity r (SystemModel.requests s) = multiplicity (lift_req r) (Tokens.requests (toks m));
    r_rep : ∀ r, multiplicity r (SystemModel.replies s) = multiplicity (lift_reply r) (Tokens.replies (toks m));
    r_sreq : ∀ id, multiplicity id (SystemModel.sync_requests s) =
      multiplicity (mkXReq XSync id) (Tokens.requests (toks m));
    r_srep : ∀ id, multiplicity (mkXReply XSyncOutput id) (Tokens.replies (toks m)) ≤
      multiplicity id (SystemModel.sync_replies s);
    r_hist : ∀ id, id ∈ SystemModel.id_history s → (id < API.counter m)%N;
    r_content : AsyncDisk.content (SystemModel.disk s) = AsyncDisk.content (API.disk m);
    r_dreq : ∀ id r, AsyncDisk.requests (SystemModel.disk s) !! id = Some r ↔
      reqq m !! id = Some r ∨ (id, r) ∈ Tokens.disk_requests (toks m);
    r_dresp : ∀ id r, AsyncDisk.responses (SystemModel.disk s) !! id = Some r ↔
      resq m !! id = Some r ∨ (id, r) ∈ Tokens.disk_responses (toks m) }.

  Lemma unique_keys_empty {K V} `{Countable K, Countable V} : unique_keys (∅ : gmultiset (K * V)).
  Proof. split; intros e; [intros He|intros ? He]; exfalso; multiset_solver. Qed.
  Lemma unique_keys_sub {K V} `{Countable K, Countable V} (a b : gmultiset (K * V)) :
    a ⊆ b → unique_keys b → unique_keys a.
  Proof.
    intros Hs [Hu1 Hu2]. split.
    - intros e He. assert (e ∈ b) as Hb by multiset_solver. specialize (Hu1 e Hb). specialize (Hs e).
      rewrite elem_of_multiplicity in He. lia.
    - intros p1 p2 Hp1 Hp2. apply Hu2; multiset_solver.
  Qed.
  Lemma elem_of_diff_single {A} `{Countable A} (a b : gmultiset A) x :
    (∀ e, e ∈ b → multiplicity e b = 1) → a ⊆ b → x ∈ b ∖ a ↔ x ∈ b ∧ x ∉ a.
  Proof.
    intros Hb Hs. rewrite !elem_of_multiplicity, multiplicity_difference. specialize (Hs x).
    destruct (decide (x ∈ b)) as [Hx|Hx].
    - rewrite (Hb x Hx) in *. lia.
    - rewrite elem_of_multiplicity in Hx. lia.
  Qed.

  Lemma minv_init m : idle_when_formatted PM → API.init PM m → minv m.
  Proof.
    intros Hi ([_ Ht]&Hd&Hp&Hc). destruct (Hi _ Hd) as [Hq Hr]. destruct m as [[]]; cbn in *; simplify_eq.
    split; cbn.
    - done.
    - by left.
    - rewrite Hq. done.
    - rewrite Hr. done.
    - intros id r Hin. exfalso. multiset_solver.
    - apply unique_keys_empty.
  Qed.
  Definition sys_of (m : MS) : SS :=
    SystemModel.mkState (Tokens.model (toks m)) (API.disk m) ∅ ∅ ∅ ∅ ∅.
  Lemma rel_init m : API.init PM m → SystemModel.initialize PM (sys_of m) ∧ rel m (sys_of m).
  Proof.
    intros ([Hpi Ht]&Hd&Hp&Hc). split.
    { split_and!; [done|done|reflexivity]. }
    destruct m as [[]]; cbn in *; simplify_eq. split; cbn; try done; intros; rewrite ?multiplicity_empty; try done; try lia.
    - multiset_solver.
    - split; [by left|intros [?|?]; [done|multiset_solver]].
    - split; [by left|intros [?|?]; [done|multiset_solver]].
  Qed.

  Ltac inv := match goal with H : ∃ _, _ |- _ => destruct H | H : _ ∧ _ |- _ => destruct H end.

  (** *** The invariant *)
  Lemma minv_step m m' l : minv m → API.next PM API.repaired m m' l → minv m'.
  Proof.
    intros [I1 I2 I3 I4 I5 I6] Hn.
    destruct Hn as [Hn|[Hn|[Hn|[Hn|[Hn|[Hn|[Hn|Hn]]]]]]].
    - (* receive *) destruct Hn as (input&Hq&->&->). destruct (Hq eq_refl) as [Hp Hd].
      split; cbn.
      + by rewrite Hp.
      + by left.
      + intros id r Hx. specialize (I3 _ _ Hx). lia.
      + intros id r Hx. destruct (I4 _ _ Hx). split; [lia|done].
      + intros id r Hx. destruct (I5 _ _ Hx) as (?&?&?). split_and!; [lia|done|done].
      + done.
    - (* send_reply *) destruct Hn as (rep&->&_&->). by split; cbn.
    - (* step *) destruct Hn as (tl&t'&->&Ht&Hd&->).
      destruct Ht as (new&[Ht|[Ht|[Ht|[Ht|Ht]]]]).
      + destruct Ht as (->&_&->). by split; cbn.
      + destruct Ht as (req&rep&->&_&_&_&_&->). by split; cbn.
      + destruct Ht as (reqs&resps&->&Hsub&_&->). cbn in Hsub.
        split; cbn; [done| |done|done| |].
        * destruct (Hd _ _ eq_refl) as [->|(id&r&->&Hp&He)].
          -- rewrite (right_id_L ∅ (⊎)). done.
          -- specialize (He eq_refl). rewrite He, (left_id_L ∅ (⊎)). right. exists r.
             rewrite (I1 _ Hp) in Hp |- *. by rewrite Hp.
        * intros id r Hx. apply (I5 id r). multiset_solver.
        * eapply unique_keys_sub; [|exact I6]. multiset_solver.
      + destruct Ht as (id&->&_&_&->). by split; cbn.
      + destruct Ht as (id&->&_&->). by split; cbn.
    - (* predict *) destruct Hn as (Hq&->&->). destruct (Hq eq_refl) as [Hp Hd].
      split; cbn; [by intros ? [= ->]|by left|done..].
    - (* send *) destruct Hn as (id&r&d&->&Hp&Hin&(reqs&resps&[= <- <-]&D1&D2&D3&->)&->).
      assert (id = API.counter m) as -> by auto.
      split; cbn.
      + done.
      + left. destruct I2 as [I2|(r'&I2&_)]; rewrite I2 in *; multiset_solver.
      + intros id r' [Hx%lookup_singleton_Some|[_ Hx]]%lookup_union_Some_raw.
        * destruct Hx as [<- <-]. lia.
        * specialize (I3 _ _ Hx). lia.
      + intros id r' [Hx _]%lookup_difference_Some. destruct (I4 _ _ Hx) as [Hlt Hnone].
        split; [lia|]. rewrite lookup_union_None. split; [|done]. rewrite lookup_singleton_None. lia.
      + intros id r' Hx. destruct (I5 _ _ Hx) as (Hlt&Hn1&Hn2). split_and!; [lia| |].
        * rewrite lookup_union_None. split; [|done]. rewrite lookup_singleton_None. lia.
        * apply lookup_difference_None. by left.
      + done.
    - (* receive response *) destruct Hn as (id&resp&d&->&(reqs&resps&[= <- <-]&D1&D2&D3&->)&->).
      assert (resq m !! id = Some resp) as Hr by (eapply lookup_weaken; [apply lookup_singleton|done]).
      assert (∀ r, (id, r) ∉ Tokens.disk_responses (toks m)) as Hfresh.
      { intros r Hx. destruct (I5 _ _ Hx) as (_&_&?). congruence. }
      split; cbn; [done|done| | | |].
      + intros id' r'. rewrite (left_id_L ∅ (∪)). apply I3.
      + intros id' r' [Hx Hx']%lookup_difference_Some. rewrite (left_id_L ∅ (∪)). by apply I4 in Hx.
      + intros id' r' Hx. rewrite (left_id_L ∅ (∪)).
        destruct (decide (id' = id)) as [->|Hne].
        * destruct (I4 _ _ Hr). split_and!; [done|done|].
          apply lookup_difference_None. right. rewrite lookup_singleton. eauto.
        * assert ((id', r') ∈ Tokens.disk_responses (toks m)) as Hx'.
          { apply gmultiset_elem_of_disj_union in Hx as [?|Hx]; [done|].
            apply gmultiset_elem_of_singleton in Hx. congruence. }
          destruct (I5 _ _ Hx') as (?&?&?). split_and!; [done|done|].
          apply lookup_difference_None. by left.
      + apply multiset_to_map_insert; [done|].
        apply eq_None_not_Some. intros [v Hv%multiset_to_map_lookup]; [|done]. by eapply Hfresh.
    - (* disk internal *) destruct Hn as (d&->&Hd&->).
      assert (∃ id q resp c', reqq m !! id = Some q ∧
        d = AsyncDisk.mkState (delete id (reqq m)) (<[id:=resp]> (resq m)) c') as (id&q&resp&c'&Hq&->).
      { destruct Hd as [Hd|[[id Hd]|[[id Hd]|Hd]]].
        - destruct Hd as (?&?&?&_). done.
        - destruct Hd as (_&from&data&Hq&_&_&->). by eexists _, _, _, _.
        - destruct Hd as (_&to&data&Hq&_&->). by eexists _, _, _, _.
        - by destruct Hd. }
      split; cbn; [done|done| | | |done].
      + intros id' r' [_ Hx]%lookup_delete_Some. eauto.
      + intros id' r' [[<- _]|[Hne Hx]]%lookup_insert_Some.
        * split; [eauto|]. apply lookup_delete.
        * destruct (I4 _ _ Hx). split; [done|]. rewrite lookup_delete_None. by right.
      + intros id' r' Hx. destruct (I5 _ _ Hx) as (Hlt&Hn1&Hn2).
        split_and!; [done| |].
        * rewrite lookup_delete_None. by right.
        * rewrite lookup_insert_None. split; [done|]. intros ->. congruence.
    - (* crash *) destruct Hn as (t&d&->&[_ Ht]&[_ ->]&->). rewrite Ht. split; cbn; try done.
      + by left.
      + intros id r Hin. exfalso. multiset_solver.
      + apply unique_keys_empty.
  Qed.

  (** *** The simulation *)
  Lemma lift_req_surj r : (∃ r0, r = lift_req r0) ∨ ∃ id, r = mkXReq XSync id.
  Proof.
    destruct r as [[k|k v| |] id]; [left; by exists (mkReq (QueryInput k) id)|left; by exists (mkReq (PutInput k v) id)
      |right; by exists id|left; by exists (mkReq NoopInput id)].
  Qed.
  Lemma lift_reply_surj r : (∃ r0, r = lift_reply r0) ∨ ∃ id, r = mkXReply XSyncOutput id.
  Proof.
    destruct r as [[v| | |] id]; [left; by exists (mkReply (QueryOutput v) id)|left; by exists (mkReply PutOutput id)
      |right; by exists id|left; by exists (mkReply NoopOutput id)].
  Qed.
  Lemma mapspec_lift_req r : mapspec_req (lift_req r) = r.
  Proof. by destruct r as [[]]. Qed.
  Lemma mapspec_lift_reply r : mapspec_reply (lift_reply r) = r.
  Proof. by destruct r as [[]]. Qed.
  Lemma sys_label_receive r : sys_label (API.Receive (lift_req r)) = SystemModel.AcceptRequest r.
  Proof. by destruct r as [[]]. Qed.
  Lemma sys_label_reply r : sys_label (API.SendReply (lift_reply r)) = SystemModel.DeliverReply r.
  Proof. by destruct r as [[]]. Qed.
  Lemma mult_lift_req r r0 :
    multiplicity (lift_req r) ({[+ lift_req r0 +]} : gmultiset XRequest) = multiplicity r ({[+ r0 +]} : gmultiset Request).
  Proof.
    rewrite !multiplicity_singleton'. destruct (decide (r = r0)) as [->|Hne]; [by rewrite decide_True|].
    rewrite decide_False; [done|]. intros ?%lift_req_inj. done.
  Qed.
  Lemma mult_lift_reply r r0 :
    multiplicity (lift_reply r) ({[+ lift_reply r0 +]} : gmultiset XReply) = multiplicity r ({[+ r0 +]} : gmultiset Reply).
  Proof.
    rewrite !multiplicity_singleton'. destruct (decide (r = r0)) as [->|Hne]; [by rewrite decide_True|].
    rewrite decide_False; [done|]. intros ?%lift_reply_inj. done.
  Qed.
  Lemma mult_sync_req id id0 :
    multiplicity (mkXReq XSync id) ({[+ mkXReq XSync id0 +]} : gmultiset XRequest) = multiplicity id ({[+ id0 +]} : gmultiset N).
  Proof.
    rewrite !multiplicity_singleton'. destruct (decide (id = id0)) as [->|Hne]; [by rewrite decide_True|].
    rewrite decide_False; [done|]. congruence.
  Qed.
  Lemma mult_sync_reply id id0 :
    multiplicity (mkXReply XSyncOutput id) ({[+ mkXReply XSyncOutput id0 +]} : gmultiset XReply)
      = multiplicity id ({[+ id0 +]} : gmultiset N).
  Proof.
    rewrite !multiplicity_singleton'. destruct (decide (id = id0)) as [->|Hne]; [by rewrite decide_True|].
    rewrite decide_False; [done|]. congruence.
  Qed.
  Lemma mult_req_sync r id : multiplicity (lift_req r) ({[+ mkXReq XSync id +]} : gmultiset XRequest) = 0.
  Proof. apply multiplicity_singleton_ne, lift_req_not_sync. Qed.
  Lemma mult_sync_lift r id : multiplicity (mkXReq XSync id) ({[+ lift_req r +]} : gmultiset XRequest) = 0.
  Proof. apply multiplicity_singleton_ne, not_eq_sym, lift_req_not_sync. Qed.
  Lemma mult_reply_sync r id : multiplicity (lift_reply r) ({[+ mkXReply XSyncOutput id +]} : gmultiset XReply) = 0.
  Proof. apply multiplicity_singleton_ne, lift_reply_not_sync. Qed.
  Lemma mult_sync_lift' r id : multiplicity (mkXReply XSyncOutput id) ({[+ lift_reply r +]} : gmultiset XReply) = 0.
  Proof. apply multiplicity_singleton_ne, not_eq_sym, lift_reply_not_sync. Qed.
  Hint Rewrite mult_lift_req mult_lift_reply mult_sync_req mult_sync_reply mult_req_sync mult_sync_lift
    mult_reply_sync mult_sync_lift' : mlt.
  Ltac ms := intros; rewrite ?multiplicity_disj_union, ?multiplicity_difference; autorewrite with mlt;
    repeat match goal with R : ∀ _, multiplicity _ _ = _ |- _ => rewrite R end; try done; try lia;
    try match goal with R : ∀ _, multiplicity _ _ ≤ _, i : N |- _ => specialize (R i); lia end.

  Lemma rel_step m m' s l : minv m → rel m s → API.next PM API.repaired m m' l →
    ∃ s', SystemModel.next_fixed PM s s' (sys_label l) ∧ rel m' s'.
  Proof.
    intros [I1 I2 I3 I4 I5 I6] [R1 R2 R3 R4 R5 R6 R7 R8 R9] Hn. unfold SystemModel.next_fixed.
    destruct Hn as [Hn|[Hn|[Hn|[Hn|[Hn|[Hn|[Hn|Hn]]]]]]].
    - (* receive *) destruct Hn as (input&Hq&->&->). clear Hq.
      assert (SystemModel.fresh_id s (API.counter m)) as Hfresh.
      { intros Hx%R6. lia. }
      assert (∀ id, id ∈ SystemModel.id_history s ⊎ {[+ API.counter m +]} → (id < API.counter m + 1)%N) as Hh.
      { intros id [Hx%R6|Hx%gmultiset_elem_of_singleton]%gmultiset_elem_of_disj_union; lia. }
      destruct (lift_req_surj (mkXReq input (API.counter m))) as [[r0 E]|[id E]]; rewrite E.
      + rewrite sys_label_receive. assert (API.counter m = req_id r0) as Ec by (by destruct r0 as [[]]; injection E).
        eexists. split; [left; exists r0; rewrite <- Ec; split_and!; reflexivity || done|].
        split; cbn; try done; ms.
      + injection E as -> <-. cbn.
        eexists. split; [do 3 right; left; eexists; split_and!; reflexivity || done|].
        split; cbn; try done; ms.
    - (* send_reply *) destruct Hn as (rep&->&Hin&->).
      destruct (lift_reply_surj rep) as [[r0 ->]|[id ->]].
      + rewrite sys_label_reply.
        assert (r0 ∈ SystemModel.replies s) as Hin'.
        { rewrite elem_of_multiplicity, R3, <- elem_of_multiplicity. done. }
        eexists. split; [right; left; exists r0; split_and!; reflexivity || done|].
        split; cbn; try done; ms.
      + cbn. assert (id ∈ SystemModel.sync_replies s) as Hin'.
        { rewrite elem_of_multiplicity in Hin. rewrite elem_of_multiplicity. specialize (R5 id). lia. }
        eexists. split; [do 6 right; left; exists id; split_and!; reflexivity || done|].
        split; cbn; try done; ms.
    - (* step *) destruct Hn as (tl&t'&->&Ht&Hd&->).
      destruct Ht as (new&[Ht|[Ht|[Ht|[Ht|Ht]]]]).
      + (* internal *) destruct Ht as (->&Hp&->). rewrite <- R1 in Hp. cbn.
        eexists. split; [do 8 right; left; exists new; split_and!; reflexivity || done|]. by split.
      + (* execute *) destruct Ht as (req&rep&->&Hns&Hty&Hin&Hp&->). specialize (Hty eq_refl).
        rewrite <- R1 in Hp. cbn.
        destruct (lift_req_surj req) as [[r0 ->]|[id ->]]; [|done].
        destruct (lift_reply_surj rep) as [[p0 ->]|[id ->]]; [|done].
        rewrite mapspec_lift_req, mapspec_lift_reply in *.
        assert (r0 ∈ SystemModel.requests s) as Hin'.
        { rewrite elem_of_multiplicity, R2, <- elem_of_multiplicity. done. }
        eexists. split; [do 2 right; left; exists new, r0, p0; split_and!; reflexivity || done|].
        split; cbn; try done; ms.
      + (* disk *) destruct Ht as (reqs&resps&->&Hsub&Hp&->). rewrite <- R1 in Hp. cbn.
        assert (unique_keys resps) as Hu by (by eapply unique_keys_sub).
        assert (unique_keys reqs ∧ (reqs = ∅ ∨ Tokens.disk_requests (toks m) = ∅ ∧ ∃ r, reqs = {[+ (API.counter m, r) +]}))
          as [Hu' Hr].
        { destruct (Hd _ _ eq_refl) as [->|(id&r&->&Hx&He)].
          - split; [apply unique_keys_empty|by left].
          - rewrite (I1 _ Hx). split; [|right; split; [by apply He|by eexists]].
            split; [intros e He'%gmultiset_elem_of_singleton; subst; apply multiplicity_singleton|].
            intros p1 p2 Hp1%gmultiset_elem_of_singleton Hp2%gmultiset_elem_of_singleton. subst. by left. }
        eexists. split.
        { do 7 right; left. exists new, (AsyncDisk.mkState (multiset_to_map reqs ∪ AsyncDisk.requests (SystemModel.disk s))
            (AsyncDisk.responses (SystemModel.disk s) ∖ multiset_to_map resps) (AsyncDisk.content (SystemModel.disk s))).
          eexists. split_and!; [reflexivity|done| |reflexivity].
          left. eexists _, _. split_and!; [reflexivity| | | |reflexivity]; cbn.
          - apply elem_of_disjoint. intros id [r Hx]%multiset_to_map_dom [r' Hx']%elem_of_dom.
            destruct Hr as [->|[He [r0 ->]]]; [multiset_solver|].
            apply gmultiset_elem_of_singleton in Hx. injection Hx as -> ->.
            apply R8 in Hx' as [Hx'|Hx']; [apply I3 in Hx'; lia|]. rewrite He in Hx'. multiset_solver.
          - apply elem_of_disjoint. intros id [r Hx]%multiset_to_map_dom [r' Hx']%elem_of_dom.
            destruct Hr as [->|[He [r0 ->]]]; [multiset_solver|].
            apply gmultiset_elem_of_singleton in Hx. injection Hx as -> ->.
            apply R9 in Hx' as [Hx'|Hx']; [apply I4 in Hx'; lia|apply I5 in Hx'; lia].
          - apply map_subseteq_spec. intros id r Hx%multiset_to_map_lookup; [|done].
            apply R9. right. multiset_solver. }
        split; cbn; try done.
        * intros id r. rewrite lookup_union_Some_raw, (multiset_to_map_lookup _ _ _ Hu'), R8.
          rewrite gmultiset_elem_of_disj_union. split.
          -- intros [?|[_ [?|?]]]; tauto.
          -- intros [Hx|[Hx|Hx]]; [right|right|by left].
             ++ split; [|by left]. apply eq_None_not_Some. intros [v Hv%multiset_to_map_lookup]; [|done].
                destruct Hr as [->|[He [r0 ->]]]; [multiset_solver|].
                apply gmultiset_elem_of_singleton in Hv. injection Hv as -> ->. apply I3 in Hx. lia.
             ++ split; [|by right]. destruct Hr as [->|[He _]]; [by rewrite multiset_to_map_empty|].
                rewrite He in Hx. multiset_solver.
        * intros id r. rewrite lookup_difference_Some, R9.
          rewrite (elem_of_diff_single resps) by (done || apply I6).
          rewrite eq_None_not_Some. unfold is_Some.
          split.
          -- intros [[Hx|Hx] Hnone]; [by left|]. right. split; [done|]. intros Hy. apply Hnone.
             exists r. by apply multiset_to_map_lookup.
          -- intros [Hx|[Hx Hy]].
             ++ split; [by left|]. intros [v Hv%multiset_to_map_lookup]; [|done].
                assert ((id, v) ∈ Tokens.disk_responses (toks m)) as Hz by multiset_solver.
                apply I5 in Hz as (_&_&Hz). congruence.
             ++ split; [by right|]. intros [v Hv%multiset_to_map_lookup]; [|done].
                assert ((id, v) ∈ Tokens.disk_responses (toks m)) as Hz by multiset_solver.
                destruct (proj2 I6 _ _ Hx Hz) as [E|E]; [|done]. by injection E as <-.
      + (* accept sync *) destruct Ht as (id&->&Hin&Hp&->). rewrite <- R1 in Hp. cbn.
        assert (id ∈ SystemModel.sync_requests s) as Hin'.
        { rewrite elem_of_multiplicity, R4, <- elem_of_multiplicity. done. }
        eexists. split.
        { do 4 right; left. exists new. split; [eexists; split_and!; reflexivity || done|]. by intros ? [= ->]. }
        split; cbn; try done; ms.
      + (* deliver sync *) destruct Ht as (id&->&Hp&->). rewrite <- R1 in Hp. cbn.
        eexists. split; [do 5 right; left; exists new; eexists; split_and!; reflexivity || done|].
        split; cbn; try done; ms.
    - (* predict *) destruct Hn as (Hq&->&->). exists s. cbn. split; [do 11 right; done|]. by split.
    - (* send *) destruct Hn as (id&r&d&->&Hp&Hin&(reqs&resps&[= <- <-]&D1&D2&D3&->)&->).
      assert (id = API.counter m) as -> by auto. exists s. cbn. split; [do 11 right; done|].
      destruct I2 as [I2|(r'&I2&_)]; rewrite I2 in Hin; [multiset_solver|].
      apply gmultiset_elem_of_singleton in Hin. injection Hin as <-.
      split; cbn; try done.
      + intros id Hx%R6. lia.
      + intros id r'. rewrite R8, I2, lookup_union_Some_raw, lookup_singleton_Some, lookup_singleton_None.
        replace ({[+ (API.counter m, r) +]} ∖ {[+ (API.counter m, r) +]}) with
          (∅ : gmultiset (ID * DiskRequest)) by multiset_solver.
        rewrite gmultiset_elem_of_singleton. split.
        * intros [Hx|[= -> ->]]; [left; right|left; left; done].
          split; [|done]. apply I3 in Hx. lia.
        * intros [[[<- <-]|[_ Hx]]|Hx]; [by right|by left|]. multiset_solver.
      + intros id r'. rewrite R9, (right_id_L ∅ (∖)). done.
    - (* receive response *) destruct Hn as (id&resp&d&->&(reqs&resps&[= <- <-]&D1&D2&D3&->)&->).
      assert (resq m !! id = Some resp) as Hr by (eapply lookup_weaken; [apply lookup_singleton|done]).
      exists s. cbn. split; [do 11 right; done|].
      split; cbn; try done.
      + intros id' r'. rewrite (left_id_L ∅ (∪)). apply R8.
      + intros id' r'. rewrite R9, lookup_difference_Some, gmultiset_elem_of_disj_union,
          gmultiset_elem_of_singleton, lookup_singleton_None.
        destruct (decide (id = id')) as [->|Hne].
        * split.
          -- intros [Hx|Hx]; [|tauto]. right. right. congruence.
          -- intros [[_ ?]|[Hx|[= ->]]]; [done|tauto|]. by left.
        * split; [tauto|]. intros [[? _]|[?|[= -> ->]]]; tauto.
    - (* disk internal *) destruct Hn as (d&->&Hd&->). cbn.
      assert (∃ id q resp c' c'', reqq m !! id = Some q ∧
        d = AsyncDisk.mkState (delete id (reqq m)) (<[id:=resp]> (resq m)) c' ∧ c'' = c' ∧
        AsyncDisk.next (SystemModel.disk s)
          (AsyncDisk.mkState (delete id (AsyncDisk.requests (SystemModel.disk s)))
             (<[id:=resp]> (AsyncDisk.responses (SystemModel.disk s))) c'') AsyncDisk.Internal)
        as (id&q&resp&c'&?&Hq&->&->&Hs).
      { destruct Hd as [Hd|[[id Hd]|[[id Hd]|Hd]]].
        - destruct Hd as (?&?&?&_). done.
        - destruct Hd as (_&from&data&Hq&Hw&Hc&->). eexists _, _, _, _, _. split_and!; [done|done|done|].
          right; left. exists id. split; [done|]. exists from, data. split_and!; [apply R8; by left|done|by rewrite R7|by rewrite R7].
        - destruct Hd as (_&to&data&Hq&Hw&->). eexists _, _, _, _, _. split_and!; [done|done|done|].
          do 2 right; left. exists id. split; [done|]. exists to, data. split_and!; [apply R8; by left|done|by rewrite R7].
        - by destruct Hd. }
      eexists. split; [do 9 right; left; eexists; split_and!; reflexivity || exact Hs|].
      assert (∀ r, (id, r) ∉ Tokens.disk_requests (toks m)) as Hna.
      { intros r Hx. apply I3 in Hq. destruct I2 as [I2|(r'&I2&_)]; rewrite I2 in Hx; [multiset_solver|].
        apply gmultiset_elem_of_singleton in Hx. injection Hx as -> ->. lia. }
      split; cbn; try done.
      + intros id' r. rewrite !lookup_delete_Some, R8. split; [tauto|].
        intros [[? ?]|Hx]; [tauto|]. split; [|tauto]. intros <-. by eapply Hna.
      + intros id' r. rewrite !lookup_insert_Some, R9. split; [tauto|].
        intros [[?|[? ?]]|Hx]; [tauto|tauto|]. right. split; [|tauto]. intros <-.
        apply I5 in Hx as (_&Hx&_). congruence.
    - (* crash *) destruct Hn as (t&d&->&[Hi Ht]&[_ ->]&->). cbn.
      eexists. split.
      { do 10 right; left. exists (Tokens.model t), (AsyncDisk.mkState ∅ ∅ (AsyncDisk.content (SystemModel.disk s))).
        split_and!; [reflexivity|done| |reflexivity]. do 3 right. done. }
      destruct t; cbn in *; simplify_eq. split; cbn; try done; intros; rewrite ?multiplicity_empty; try done; try lia.
      + split; [done|intros [?|?]; [done|multiset_solver]].
      + split; [done|intros [?|?]; [done|multiset_solver]].
  Qed.

  Lemma repaired_sim m0 ls m : idle_when_formatted PM → API.init PM m0 → run (API.next PM API.repaired) m0 ls m →
    minv m ∧ ∃ s0 s, SystemModel.initialize PM s0 ∧ run (SystemModel.next_fixed PM) s0 (sys_label <$> ls) s ∧ rel m s.
  Proof.
    intros Hidle Hi Hr. induction Hr as [m|m ls m1 l m2 Hr IH Hn].
    - split; [by apply minv_init|]. destruct (rel_init m Hi) as [Hs Hrel].
      exists (sys_of m), (sys_of m). split_and!; [done|constructor|done].
    - destruct (IH Hi) as (Hv&s0&s&Hs0&Hrs&Hrel). split; [by eapply minv_step|].
      destruct (rel_step _ _ _ _ Hv Hrel Hn) as (s'&Hn'&Hrel').
      exists s0, s'. rewrite fmap_app. split_and!; [done| |done]. eapply run_snoc; done.
  Qed.
  Lemma repaired_is_system m0 ls m : idle_when_formatted PM → API.init PM m0 →
    run (API.next PM API.repaired) m0 ls m →
    ∃ s0 s, SystemModel.initialize PM s0 ∧ run (SystemModel.next_fixed PM) s0 (sys_label <$> ls) s ∧
      program_promise m s ∧ response_promise m s ∧ sync_promise m s.
  Proof.
    intros Hidle Hi Hr. destruct (repaired_sim _ _ _ Hidle Hi Hr) as (Hv&s0&s&Hs0&Hrs&Hrel).
    exists s0, s. split_and!; [done|done|apply Hrel| |].
    - intros id r Hin. apply (r_dresp _ _ Hrel). by right.
    - intros id Hin. rewrite elem_of_multiplicity, (r_sreq _ _ Hrel), <- elem_of_multiplicity. done.
  Qed.

  (** *** Numbers *)
  Lemma counter_step m m' l : API.next PM API.repaired m m' l →
    (API.counter m ≤ API.counter m')%N ∧ ∀ n, draws l = Some n → n = API.counter m ∧ API.counter m' = (n + 1)%N.
  Proof.
    intros [Hn|[Hn|[Hn|[Hn|[Hn|[Hn|[Hn|Hn]]]]]]].
    - destruct Hn as (input&Hq&->&->). cbn. split; [lia|]. by intros n [= <-].
    - destruct Hn as (rep&->&_&->). cbn. split; [lia|done].
    - destruct Hn as (tl&t'&->&_&_&->). cbn. split; [lia|done].
    - destruct Hn as (_&->&->). cbn. split; [lia|done].
    - destruct Hn as (id&r&d&->&_&_&_&->). cbn. split; [lia|]. by intros n [= <-].
    - destruct Hn as (id&resp&d&->&_&->). cbn. split; [lia|done].
    - destruct Hn as (d&->&_&->). cbn. split; [lia|done].
    - destruct Hn as (t&d&->&_&_&->). cbn. split; [lia|done].
  Qed.
  Lemma drawn_below m0 ls m i l n : run (API.next PM API.repaired) m0 ls m →
    ls !! i = Some l → draws l = Some n → (n < API.counter m)%N.
  Proof.
    intros Hr. induction Hr as [m|m ls m1 l1 m2 Hr IH Hn]; [done|].
    intros [[_ Hl]|[-> <-]]%lookup_snoc_Some Hd; apply counter_step in Hn as [Hle Hc].
    - specialize (IH Hl Hd). lia.
    - destruct (Hc _ Hd). lia.
  Qed.
  Lemma repaired_distinct m0 ls m : run (API.next PM API.repaired) m0 ls m → numbers_distinct ls.
  Proof.
    intros Hr. induction Hr as [m|m ls m1 l1 m2 Hr IH Hn]; [done|].
    apply counter_step in Hn as [Hle Hc].
    intros i j l l' n [[_ Hl]|[-> <-]]%lookup_snoc_Some [[_ Hl']|[-> <-]]%lookup_snoc_Some Hd Hd'.
    - by eapply IH.
    - destruct (Hc _ Hd'). assert (n < API.counter m1)%N by (eapply drawn_below; done). lia.
    - destruct (Hc _ Hd). assert (n < API.counter m1)%N by (eapply drawn_below; done). lia.
    - done.
  Qed.
  Lemma repaired_predicted m0 ls m : idle_when_formatted PM → API.init PM m0 →
    run (API.next PM API.repaired) m0 ls m → numbers_as_predicted ls.
  Proof.
    intros Hidle Hi Hr. induction Hr as [m|m ls m1 l m2 Hr IH Hn].
    - intros id n r Hx. by apply elem_of_nil in Hx.
    - intros id n r [Hx|Hx]%elem_of_app; [by eapply IH|].
      apply elem_of_list_singleton in Hx. subst l.
      destruct (repaired_sim _ _ _ Hidle Hi Hr) as [Hv _].
      destruct Hn as [Hn|[Hn|[Hn|[Hn|[Hn|[Hn|[Hn|Hn]]]]]]].
      + by destruct Hn as (?&?&?&_).
      + by destruct Hn as (?&?&_).
      + by destruct Hn as (?&?&?&_).
      + by destruct Hn as (?&?&_).
      + destruct Hn as (id'&r'&d&[= -> -> ->]&Hp&_). symmetry. by apply (n_pred _ Hv).
      + by destruct Hn as (?&?&?&?&_).
      + by destruct Hn as (?&?&_).
      + by destruct Hn as (?&?&?&_).
  Qed.

  (** *** What goes wrong in the interface as written, for every program model *)
  Definition fresh_tokens (p : P) : Tokens.State P := Tokens.mkState p ∅ ∅ ∅ ∅.
  Definition booted (p : P) (n : ID) (d : AsyncDisk.State) : MS := API.mkState (fresh_tokens p) None n d.
  Lemma booted_init p d : pm_init PM p → pm_is_mkfs PM d → API.init PM (booted p 0 d).
  Proof. intros Hp Hd. by split_and!. Qed.
  Definition with_request (r : XRequest) (m : MS) : MS :=
    let t := toks m in
    API.mkState (Tokens.mkState (Tokens.model t) (Tokens.requests t ⊎ {[+ r +]}) (Tokens.replies t)
                   (Tokens.disk_requests t) (Tokens.disk_responses t))
      (API.predicted m) (API.counter m + 1)%N (API.disk m).
  Lemma can_receive c m i : API.quiet c m →
    API.next PM c m (with_request (mkXReq i (API.counter m)) m) (API.Receive (mkXReq i (API.counter m))).
  Proof. intros Hq. left. exists i. by split_and!. Qed.

  Lemma system_ids_once s0 ls s : SystemModel.initialize PM s0 → run (SystemModel.next PM) s0 ls s →
    ∀ req, SystemModel.AcceptRequest req ∈ ls → req_id req ∈ SystemModel.id_history s.
  Proof.
    intros Hi Hr. induction Hr as [s|s ls s1 l s2 Hr IH Hn].
    - intros req Hx. by apply elem_of_nil in Hx.
    - intros req [Hx|Hx]%elem_of_app.
      + specialize (IH Hi _ Hx).
        destruct Hn as [(?&->&?&->)|[(?&->&?&->)|[(p&?&?&->&?&?&->)|[(?&->&?&->)|[(p&?&->&?&->)|[(p&?&->&?&->)|
          [(?&->&?&->)|[(p&d&?&->&?&?&->)|[(p&->&?&->)|[(d&->&?&->)|[(p&d&->&?&?&->)|[-> ->]]]]]]]]]]]]; cbn; multiset_solver.
      + apply elem_of_list_singleton in Hx. subst l.
        destruct Hn as [(?&[= ->]&?&->)|[(?&?&_)|[(p&?&?&?&_)|[(?&?&_)|[(p&?&?&_)|[(p&?&?&_)|
          [(?&?&_)|[(p&d&?&?&_)|[(p&?&_)|[(d&?&_)|[(p&d&?&_)|[? _]]]]]]]]]]]]; try done. cbn; multiset_solver.
  Qed.
  Lemma restart_refuted c p d : API.keeps c = false → pm_init PM p → pm_is_mkfs PM d →
    ∃ m0 ls m, API.init PM m0 ∧ run (API.next PM c) m0 ls m ∧ ¬ numbers_distinct ls ∧
      ∀ s0 s, SystemModel.initialize PM s0 → ¬ run (SystemModel.next PM) s0 (sys_label <$> ls) s.
  Proof.
    intros Hk Hp Hd.
    exists (booted p 0 d), [API.Receive (mkXReq XNoop 0); API.Crash; API.Receive (mkXReq XNoop 0)].
    eexists. split_and!; [by apply booted_init| | |].
    - eapply run_cons; [by apply (can_receive c (booted p 0 d) XNoop)|].
      eapply (run_cons _ _ _ (booted p 0 (AsyncDisk.mkState ∅ ∅ (AsyncDisk.content d)))).
      { do 7 right. eexists (fresh_tokens p), _. split; [reflexivity|]. split; [by split|]. split; [by split|]. by rewrite Hk. }
      eapply run_cons; [|constructor].
      by apply (can_receive c (booted p 0 (AsyncDisk.mkState ∅ ∅ (AsyncDisk.content d))) XNoop).
    - intros Hx. specialize (Hx 0 2 _ _ 0%N eq_refl eq_refl eq_refl eq_refl). done.
    - intros s0 s Hi Hr. cbn in Hr.
      apply (run_snoc_inv _ _ [SystemModel.AcceptRequest (mkReq NoopInput 0); SystemModel.Crash]) in Hr as (s1&Hr1&Hr2).
      assert (0%N ∈ SystemModel.id_history s1) as Hin.
      { apply (system_ids_once _ _ _ Hi Hr1 (mkReq NoopInput 0)). set_solver. }
      destruct Hr2 as [(?&[= <-]&Hf&_)|[(?&?&_)|[(?&?&?&?&_)|[(?&?&_)|[(?&?&?&_)|[(?&?&?&_)|
        [(?&?&_)|[(?&?&?&?&_)|[(?&?&_)|[(?&?&_)|[(?&?&?&_)|[? _]]]]]]]]]]]]; try done.
  Qed.
  Lemma promise_refuted c p d : pm_init PM p → pm_is_mkfs PM d →
    ∃ m0 ls m, API.init PM m0 ∧ run (API.next PM c) m0 ls m ∧
      ∀ s0 s, SystemModel.initialize PM s0 → run (SystemModel.next PM) s0 (sys_label <$> ls) s →
        ¬ request_promise m s.
  Proof.
    intros Hp Hd. exists (booted p 0 d), [API.Receive (mkXReq (XPut 1 7) 0)].
    eexists. split_and!; [by apply booted_init| |].
    - eapply run_cons; [by apply (can_receive c (booted p 0 d) (XPut 1 7))|]. constructor.
    - intros s0 s Hi Hr Hx. cbn in Hr. apply (run_snoc_inv _ _ []) in Hr as (s1&->%run_nil_inv&Hr).
      assert (0%N ∈ SystemModel.sync_requests s) as Hin.
      { apply (Hx (mkXReq (XPut 1 7) 0)). cbn [with_request Tokens.requests API.tokens].
        apply gmultiset_elem_of_disj_union. right. by apply gmultiset_elem_of_singleton. }
      destruct Hi as (_&_&Hs0).
      destruct Hr as [(?&[= <-]&Hf&Hs)|[(?&?&_)|[(?&?&?&?&_)|[(?&?&_)|[(?&?&?&_)|[(?&?&?&_)|
        [(?&?&_)|[(?&?&?&?&_)|[(?&?&_)|[(?&?&_)|[(?&?&?&_)|[? _]]]]]]]]]]]]; try done.
      rewrite Hs, Hs0 in Hin. cbn in Hin. by apply gmultiset_not_elem_of_empty in Hin.
  Qed.
End sim.
