(** Proofs about the executable server. *)
From Verif Require Import Spec_Model Spec_Spec Spec_Proof Abs_Spec Abs_Proof AsyncDisk_Proof
  Exec_Model Exec_Spec.
From stdpp Require Import list.

(** The journal entries of a log of operations. *)
Definition puts (log : list Input) : list KeyedMessage :=
  omap (λ op, match op with PutInput k v => Some (mkKM k (Define v)) | _ => None end) log.
Definition jl (log : list Input) : Journal := mkJournal (puts log) 0.

Lemma puts_app l l' : puts (l ++ l') = puts l ++ puts l'.
Proof. apply omap_app. Qed.
Lemma last_write_snoc k log op :
  last_write k (log ++ [op]) =
    match op with PutInput k' v => if decide (k' = k) then v else last_write k log
             | _ => last_write k log end.
Proof. unfold last_write. by rewrite fold_left_app. Qed.
Lemma journal_get_jl log k : journal_get (jl log) k = last_write k log.
Proof.
  unfold journal_get. simpl. induction log as [|op log IH] using rev_ind; [done|].
  rewrite puts_app, fold_left_app, last_write_snoc, IH. destruct op; simpl; try done.
Qed.
Lemma journal_log j : is_log (journal_view j) (j_history j).
Proof.
  split; [simpl; lia|]. intros lsn km. simpl. by rewrite lookup_map_seq_Some.
Qed.
Lemma volatile_jl log im : journal im = jl log → shows (volatile_map im) log.
Proof.
  intros Hj k. unfold volatile_map, to_stamped_map. cbn [MapSpec.kmmap]. rewrite Hj.
  assert (Hl := journal_log (jl log)).
  destruct (mph_after stamped_empty (journal_view (jl log)) _ Hl) as [_ HH]; [done|].
  rewrite HH. cbn [j_history jl]. clear HH Hl Hj im.
  induction log as [|op log IH] using rev_ind; [done|].
  unfold after in *. rewrite puts_app, fold_left_app, IH, last_write_snoc.
  destruct op; simpl; try done. by case_decide.
Qed.

(** The puts of a history. *)
Lemma taken_app ls ls' : puts_taken (ls ++ ls') = puts_taken ls ++ puts_taken ls'.
Proof. apply omap_app. Qed.
Lemma taken_log log req outs : puts (log_after log req) = puts log ++ puts_taken [Exec.Recv req outs].
Proof.
  unfold log_after. destruct req as [[k|k v| |] id]; cbn [op_of xreq_input]; rewrite ?puts_app; cbn; by rewrite ?app_nil_r.
Qed.
Lemma taken_more ls e h : h `sublist_of` puts_taken ls → h `sublist_of` puts_taken (ls ++ [e]).
Proof. intros ?. rewrite taken_app. by apply sublist_inserts_r. Qed.
Lemma puts_prefix log log' : log `prefix_of` log' → puts log `sublist_of` puts log'.
Proof. intros [l ->]. rewrite puts_app. by apply sublist_inserts_r. Qed.
Lemma fits_app `{Codec} ls ls' : codec_fits (ls ++ ls') → codec_fits ls.
Proof. intros Hf h Hh. apply Hf. rewrite taken_app. by apply sublist_inserts_r. Qed.
Lemma fits_same `{Codec} ls ls' : codec_fits ls → puts_taken ls' = [] → codec_fits (ls ++ ls').
Proof. intros Hf He h Hh. apply Hf. by rewrite taken_app, He, app_nil_r in Hh. Qed.
Lemma autonomous_taken ls : Forall autonomous ls → puts_taken ls = [].
Proof. induction 1 as [|e ls He _ IH]; [done|]. destruct e; try done; exact IH. Qed.

Ltac splits := repeat match goal with |- _ ∧ _ => split end.

Section exec.
  Context `{HG : Geometry} `{HC : Codec}.
  Context (kp : bool).

  (** ** Facts about single handlers *)
  Lemma disk_ops_inv (d d' : AsyncDisk.State) reqs resps :
    AsyncDisk.disk_ops d d' (AsyncDisk.DiskOps reqs resps) →
    dom reqs ## dom (AsyncDisk.requests d) ∧ dom reqs ## dom (AsyncDisk.responses d) ∧
    resps ⊆ AsyncDisk.responses d ∧
    d' = AsyncDisk.mkState (reqs ∪ AsyncDisk.requests d) (AsyncDisk.responses d ∖ resps) (AsyncDisk.content d).
  Proof. intros (?&?&[= <- <-]&?&?&?&?). done. Qed.

  (** ** The invariant of the repaired server *)
  Definition waits (ls : list Exec.Label) (logs : list (list Input)) (bound : list Input) (r : XRequest) : Prop :=
    xreq_input r = XSync ∧
    ∃ i a, pending_at ls i (xreq_id r) ∧ logs !! i = Some a ∧ a `prefix_of` bound.

  Definition acked_ok (ls : list Exec.Label) (logs : list (list Input)) (dlog : list Input) : Prop :=
    ∀ j e id, ls !! j = Some e → acks e id →
      ∃ i a, i < j ∧ ls !! i = Some (Exec.Recv (mkXReq XSync id) []) ∧
        (∀ m e', i < m < j → ls !! m = Some e' → ¬ fails e' ∧ ¬ acks e' id) ∧
        NoDup (xreply_id <$> replies e) ∧
        logs !! i = Some a ∧ a `prefix_of` dlog ∧
        ∀ k b, j < k → logs !! k = Some b → a `prefix_of` b.

  Definition hist (ls : list Exec.Label) (logs : list (list Input)) (log dlog : list Input) : Prop :=
    served ls logs ∧ logs !! length ls = Some log ∧ dlog `prefix_of` log ∧ acked_ok ls logs dlog.

  Definition no_pending (ls : list Exec.Label) : Prop := ∀ i id, ¬ pending_at ls i id.

  Definition flight (im : Impl) (log dlog : list Input) (n : ID) (d : AsyncDisk.State)
      (ls : list Exec.Label) (logs : list (list Input)) : Prop :=
    (satisfied_reqs im = [] ∧ deferred_reqs im = [] ∧
     AsyncDisk.requests d = ∅ ∧ AsyncDisk.responses d = ∅) ∨
    (satisfied_reqs im ≠ [] ∧ ∃ wid plog, (wid < n)%N ∧ plog `prefix_of` log ∧
       dlog `prefix_of` plog ∧
       Forall (waits ls logs plog) (satisfied_reqs im) ∧
       ((AsyncDisk.requests d = {[wid := WriteReq superblock_addr (marshall (jl plog))]} ∧
         AsyncDisk.responses d = ∅) ∨
        (AsyncDisk.requests d = ∅ ∧ AsyncDisk.responses d = {[wid := WriteResp]} ∧ plog = dlog))).

  Definition pinv (ls : list Exec.Label) (logs : list (list Input)) (log dlog : list Input)
      (s : Exec.State) : Prop :=
    let d := Exec.disk s in
    match Exec.proc s with
    | Exec.Starting => log = dlog ∧
        AsyncDisk.requests d = ∅ ∧ AsyncDisk.responses d = ∅ ∧ no_pending ls
    | Exec.Recovering => log = dlog ∧ no_pending ls ∧ ∃ rid, (rid < Exec.next_id s)%N ∧
        ((AsyncDisk.requests d = {[rid := ReadReq superblock_addr]} ∧ AsyncDisk.responses d = ∅) ∨
         (AsyncDisk.requests d = ∅ ∧
          AsyncDisk.responses d = {[rid := ReadResp (marshall (jl dlog))]}))
    | Exec.Ready im =>
        journal im = jl log ∧
        flight im log dlog (Exec.next_id s) d ls logs ∧
        Forall (waits ls logs log) (deferred_reqs im) ∧
        NoDup (xreq_id <$> satisfied_reqs im ++ deferred_reqs im) ∧
        Forall (λ r, (xreq_id r < Exec.next_id s)%N) (satisfied_reqs im ++ deferred_reqs im) ∧
        ∀ i id, pending_at ls i id → id ∈ xreq_id <$> (satisfied_reqs im ++ deferred_reqs im)
    | Exec.Panicked => False
    end.

  Definition einv (ls : list Exec.Label) (logs : list (list Input)) (log dlog : list Input)
      (s : Exec.State) : Prop :=
    hist ls logs log dlog ∧
    AsyncDisk.content (Exec.disk s) !! superblock_addr = Some (marshall (jl dlog)) ∧
    pinv ls logs log dlog s ∧ puts log `sublist_of` puts_taken ls.
  Lemma einv_fits ls logs log dlog s : einv ls logs log dlog s → puts dlog `sublist_of` puts_taken ls.
  Proof. intros ((_&_&Hp&_)&_&_&Hl). etrans; [by apply puts_prefix|done]. Qed.

  (** *** Extending the history by one event *)
  Lemma pending_snoc ls e i id :
    pending_at (ls ++ [e]) i id ↔
      (i < length ls ∧ pending_at ls i id ∧ ¬ fails e ∧ ¬ acks e id) ∨
      (i = length ls ∧ e = Exec.Recv (mkXReq XSync id) []).
  Proof.
    split.
    - intros [Hi Hm]. apply lookup_snoc_Some in Hi as [[Hlt Hi]|[-> ->]].
      + left. destruct (Hm (length ls) e) as [Hf Ha]; [lia|by rewrite lookup_app_r, Nat.sub_diag by lia|].
        splits; try done. split; [done|]. intros m e' Hlt' Hm'. apply (Hm m e'); [done|].
        by apply lookup_app_l_Some.
      + by right.
    - intros [(Hlt&[Hi Hm]&Hf&Ha)|[-> ->]].
      + split; [by apply lookup_app_l_Some|]. intros m e' Hlt' Hm'.
        apply lookup_snoc_Some in Hm' as [[_ Hm']|[-> ->]]; [by apply (Hm m)|done].
      + split; [by rewrite lookup_app_r, Nat.sub_diag by lia|].
        intros m e' Hlt' Hm'. apply lookup_lt_Some in Hm'. rewrite app_length in Hm'. simpl in Hm'. lia.
  Qed.
  Lemma waits_snoc ls logs bound bound' r e log' :
    waits ls logs bound r → length logs = S (length ls) → ¬ fails e → ¬ acks e (xreq_id r) →
    bound `prefix_of` bound' → waits (ls ++ [e]) (logs ++ [log']) bound' r.
  Proof.
    intros [Hs (i&a&Hp&Ha&Hpre)] Hlen Hf Hk Hb. split; [done|]. exists i, a.
    assert (i < length ls) by (destruct Hp as [Hi _]; by apply lookup_lt_Some in Hi).
    splits; [|by apply lookup_app_l_Some|by etrans].
    apply pending_snoc. by left.
  Qed.
  Lemma waits_weaken ls logs b b' r : waits ls logs b r → b `prefix_of` b' → waits ls logs b' r.
  Proof. intros [? (i&a&?&?&?)] ?. split; [done|]. exists i, a. splits; try done. by etrans. Qed.

  Lemma hist_snoc ls logs log dlog e log' dlog' :
    hist ls logs log dlog → exec_log_step e log log' →
    dlog `prefix_of` dlog' → dlog' `prefix_of` log' →
    (∀ id, acks e id → NoDup (xreply_id <$> replies e) ∧
       ∃ i a, pending_at ls i id ∧ logs !! i = Some a ∧ a `prefix_of` dlog') →
    hist (ls ++ [e]) (logs ++ [log']) log' dlog'.
  Proof.
    intros ((Hlen&H0&Hst)&Hl&Hd&Hack) He Hdd Hdl Hnew.
    assert (Hlast : (logs ++ [log']) !! S (length ls) = Some log')
      by (rewrite lookup_app_r, Hlen, Nat.sub_diag by lia; done).
    split; [|split; [|split; [done|]]].
    - split; [rewrite !app_length; simpl; lia|]. split; [by apply lookup_app_l_Some|].
      intros i e' Hi. apply lookup_snoc_Some in Hi as [[Hlt Hi]|[-> ->]].
      + destruct (Hst i e' Hi) as (a&b&?&?&?). exists a, b. splits; try by apply lookup_app_l_Some. done.
      + exists log, log'. splits; try done. by apply lookup_app_l_Some.
    - rewrite app_length. simpl. by rewrite Nat.add_1_r.
    - intros j e' id Hj Ha. apply lookup_snoc_Some in Hj as [[Hlt Hj]|[-> ->]].
      + destruct (Hack j e' id Hj Ha) as (i&a&Hij&Hi&Hm&Hnd&Hla&Hpre&Hk).
        exists i, a. splits; try done.
        * by apply lookup_app_l_Some.
        * intros m e'' Hmm Hm'. apply lookup_snoc_Some in Hm' as [[_ Hm']|[-> _]]; [by apply (Hm m)|lia].
        * by apply lookup_app_l_Some.
        * by etrans.
        * intros k b Hjk Hb. apply lookup_snoc_Some in Hb as [[_ Hb]|[-> ->]]; [by apply (Hk k)|].
          etrans; [done|]. by etrans.
      + destruct (Hnew id Ha) as [Hnd (i&a&[Hi Hp]&Hla&Hpre)].
        assert (i < length ls) by by apply lookup_lt_Some in Hi.
        exists i, a. splits; try done.
        * by apply lookup_app_l_Some.
        * intros m e'' Hmm Hm'. apply lookup_snoc_Some in Hm' as [[_ Hm']|[-> _]]; [apply (Hp m); [lia|done]|lia].
        * by apply lookup_app_l_Some.
        * intros k b Hjk Hb. apply lookup_snoc_Some in Hb as [[Hkk Hb]|[-> ->]]; [|by etrans].
          lia.
  Qed.
  Lemma no_pending_fail ls e : fails e → no_pending (ls ++ [e]).
  Proof.
    intros Hf i id Hp. apply pending_snoc in Hp as [(_&_&?&_)|[_ ->]]; done.
  Qed.
  Lemma no_pending_snoc ls e :
    no_pending ls → (∀ id, e ≠ Exec.Recv (mkXReq XSync id) []) → no_pending (ls ++ [e]).
  Proof.
    intros Hn He i id Hp. apply pending_snoc in Hp as [(_&?&_&_)|[_ ->]]; [by eapply Hn|by eapply He].
  Qed.
  Lemma no_acks_nil e id : replies e = [] → ¬ acks e id.
  Proof. unfold acks. intros ->. apply not_elem_of_nil. Qed.
  Lemma no_acks_ops e log req id :
    replies e `prefix_of` expected_replies log req → ¬ acks e id.
  Proof.
    unfold acks. intros [k Hk] Hin.
    assert (Hin' : mkXReply XSyncOutput id ∈ expected_replies log req)
      by (rewrite Hk; by apply elem_of_app; left).
    unfold expected_replies in Hin'. destruct req as [[]]; simpl in Hin'; 
      (apply elem_of_list_singleton in Hin' || by apply elem_of_nil in Hin'); done.
  Qed.

  (** *** Crashes *)
  Lemma einv_crash n ls logs log dlog s e :
    einv ls logs log dlog s → fails e → exec_log_step e log dlog →
    (∀ id, acks e id → NoDup (xreply_id <$> replies e) ∧
       ∃ i a, pending_at ls i id ∧ logs !! i = Some a ∧ a `prefix_of` dlog) →
    einv (ls ++ [e]) (logs ++ [dlog]) dlog dlog (Exec.after_crash (repaired kp) n (Exec.disk s)).
  Proof.
    intros Hinv Hf He Ha. assert (Hsub := einv_fits _ _ _ _ _ Hinv). destruct Hinv as (Hh&Hc&_).
    unfold einv. splits; [|done| |by apply taken_more].
    - by eapply hist_snoc.
    - unfold pinv. simpl. splits; try done. by apply no_pending_fail.
  Qed.

  (** *** One step *)
  Lemma handle_ops s req s' outs dr log :
    handle_user_request (repaired kp) s req = (s', outs, dr) → journal s = jl log →
    outs = expected_replies log req ∧ journal s' = jl (log_after log req) ∧
    (xreq_input req ≠ XSync → dr = None ∧ satisfied_reqs s' = satisfied_reqs s ∧
       deferred_reqs s' = deferred_reqs s).
  Proof.
    intros Hh Hj. unfold handle_user_request in Hh.
    destruct req as [[k|k v| |] id]; simpl in *.
    - injection Hh as <- <- <-. unfold expected_replies, log_after; simpl. rewrite Hj.
      splits; try done; [by rewrite journal_get_jl|].
      unfold jl. by rewrite puts_app, app_nil_r.
    - injection Hh as <- <- <-. unfold expected_replies, log_after; simpl. rewrite Hj.
      splits; try done. unfold journal_insert, jl; simpl. by rewrite puts_app.
    - unfold handle_sync_request in Hh. destruct maybe_launch_superblock as [s1 dr1] eqn:Hm.
      injection Hh as <- <- <-. unfold expected_replies, log_after; simpl. splits; [done| |done].
      unfold maybe_launch_superblock, send_superblock in Hm.
      destruct (deferred_reqs _), (satisfied_reqs _); by simplify_eq/=.
    - injection Hh as <- <- <-. unfold expected_replies, log_after; simpl. rewrite Hj.
      splits; try done. unfold jl. by rewrite puts_app, app_nil_r.
  Qed.

  Lemma requests_numbered (d : AsyncDisk.State) n dr :
    AsyncDisk.requests d = ∅ → Exec.numbered n dr ∪ AsyncDisk.requests d = Exec.numbered n dr.
  Proof. intros ->. apply map_union_empty. Qed.
  Lemma responses_none (d : AsyncDisk.State) : AsyncDisk.responses d ∖ ∅ = AsyncDisk.responses d.
  Proof. apply map_difference_empty. Qed.
  Lemma requests_none (d : AsyncDisk.State) : ∅ ∪ AsyncDisk.requests d = AsyncDisk.requests d.
  Proof. apply map_empty_union. Qed.

  Lemma flight_snoc im im' log dlog log' n n' d ls logs e :
    flight im log dlog n d ls logs →
    satisfied_reqs im' = satisfied_reqs im → deferred_reqs im' = deferred_reqs im →
    log `prefix_of` log' → (n ≤ n')%N → length logs = S (length ls) →
    ¬ fails e → (∀ id, ¬ acks e id) →
    flight im' log' dlog n' d (ls ++ [e]) (logs ++ [log']).
  Proof.
    intros Hf Hs Hd Hpre Hn Hlen Hne Hna. unfold flight. rewrite Hs, Hd.
    destruct Hf as [?|(?&wid&plog&?&?&?&Hw&?)]; [by left|right]. split; [done|].
    exists wid, plog. splits; try done; [lia|by etrans|].
    eapply Forall_impl; [exact Hw|]. intros r Hr. by eapply waits_snoc.
  Qed.

  Lemma handle_sync c s id s' outs dr :
    handle_user_request c s (mkXReq XSync id) = (s', outs, dr) →
    outs = [] ∧ journal s' = journal s ∧
    satisfied_reqs s' ++ deferred_reqs s' = satisfied_reqs s ++ deferred_reqs s ++ [mkXReq XSync id] ∧
    ((satisfied_reqs s = [] ∧ satisfied_reqs s' = deferred_reqs s ++ [mkXReq XSync id] ∧
      deferred_reqs s' = [] ∧ dr = Some (WriteReq superblock_addr (marshall (journal s)))) ∨
     (satisfied_reqs s ≠ [] ∧ satisfied_reqs s' = satisfied_reqs s ∧
      deferred_reqs s' = deferred_reqs s ++ [mkXReq XSync id] ∧ dr = None)).
  Proof.
    unfold handle_user_request, handle_sync_request, maybe_launch_superblock, send_superblock.
    cbn [xreq_input satisfied_reqs deferred_reqs journal].
    destruct (deferred_reqs s ++ [mkXReq XSync id]) as [|r0 rest] eqn:Happ;
      [by apply app_eq_nil in Happ as [_ ?]|]. rewrite <- Happ.
    destruct (satisfied_reqs s) as [|r1 rest1] eqn:Hs; intros [= <- <- <-]; cbn; splits; try done.
    - by rewrite app_nil_r.
    - by left.
    - by right.
  Qed.

  Lemma recv_step ls logs log dlog s s' l :
    einv ls logs log dlog s → Exec.recv (repaired kp) s s' l →
    ∃ log' dlog', einv (ls ++ [l]) (logs ++ [log']) log' dlog' s'.
  Proof.
    intros (Hh&Hc&Hp&Hsub) (im&input&im'&outs&dr&d'&Hproc&Hhandle&Hd&->&->).
    unfold pinv in Hp. rewrite Hproc in Hp. destruct Hp as (Hj&Hfl&Hdef&Hnd&Hlt&Hpend).
    apply disk_ops_inv in Hd as (_&_&_&->).
    set (req := mkXReq input (Exec.next_id s)) in *.
    assert (Hlen : length logs = S (length ls)) by apply Hh.
    destruct (handle_ops _ _ _ _ _ _ Hhandle Hj) as (Hout&Hj'&Hns).
    assert (Hpre : log `prefix_of` log_after log req).
    { unfold log_after. destruct op_of; [by eexists|done]. }
    assert (Hnf : ¬ fails (Exec.Recv req outs)) by by intros [].
    assert (Hna : ∀ id, ¬ acks (Exec.Recv req outs) id).
    { intros id. apply (no_acks_ops _ log req). simpl. by rewrite Hout. }
    exists (log_after log req), dlog. unfold einv. apply and_assoc, and_assoc. split; [splits|].
    { eapply hist_snoc; [done|by split|done|etrans; [apply Hh|done]|].
      intros id Ha. by destruct (Hna id). }
    { done. }
    2: { rewrite (taken_log _ _ outs), taken_app. by apply sublist_app. }
    unfold pinv. cbn [Exec.proc Exec.next_id Exec.disk].
    destruct (decide (input = XSync)) as [->|Hsync].
    - destruct (handle_sync _ _ _ _ _ _ Hhandle) as (->&Hjj&Happ&Hcase).
      assert (Hnew : waits (ls ++ [Exec.Recv req []]) (logs ++ [log]) log req).
      { split; [done|]. exists (length ls), log.
        splits; [|apply lookup_app_l_Some; apply Hh|done]. apply pending_snoc. by right. }
      splits; [done|..].
      + destruct Hcase as [(Hs0&Hs1&Hd1&->)|(Hs0&Hs1&Hd1&->)];
          destruct Hfl as [(Hs0'&Hd0&Hrq&Hrs)|(Hs0'&wid&plog&Hw1&Hw2&Hw3&Hw4&Hw5)]; try done.
        * right. rewrite Hs1, Hd0. split; [done|]. exists (Exec.next_id s + 1)%N, log.
          splits; [simpl; lia|done|apply Hh|by constructor|].
          left. cbn [AsyncDisk.requests AsyncDisk.responses Exec.numbered]. rewrite Hrq, Hrs, Hj. split; [by rewrite map_union_empty|by rewrite map_difference_empty].
        * right. rewrite Hs1. split; [done|]. exists wid, plog.
          cbn [AsyncDisk.requests AsyncDisk.responses AsyncDisk.content Exec.numbered].
          rewrite responses_none, requests_none.
          splits; try done; [cbn; lia|].
          eapply Forall_impl; [exact Hw4|]. intros r Hr. by eapply waits_snoc.
      + destruct Hcase as [(Hs0&Hs1&Hd1&->)|(Hs0&Hs1&Hd1&->)]; rewrite Hd1; [done|].
        apply Forall_app. split; [|by constructor].
        eapply Forall_impl; [exact Hdef|]. intros r Hr. by eapply waits_snoc.
      + rewrite Happ, app_assoc, fmap_app. apply NoDup_app. splits; [done| |apply NoDup_singleton].
        intros x Hx Hx'. apply elem_of_list_singleton in Hx' as ->.
        apply elem_of_list_fmap in Hx as (r&Hr&Hin).
        rewrite Forall_forall in Hlt. apply Hlt in Hin. cbn in Hr. lia.
      + rewrite Happ, app_assoc. apply Forall_app. split.
        * eapply Forall_impl; [exact Hlt|]. cbn. intros. lia.
        * constructor; [cbn; lia|done].
      + intros i id Hp. rewrite Happ, app_assoc, fmap_app. apply elem_of_app.
        apply pending_snoc in Hp as [(_&Hp&_)|[_ [= <-]]]; [left; by eapply Hpend|right].
        by apply elem_of_list_singleton.
    - destruct (Hns Hsync) as (->&Hs&Hdd). rewrite Hs, Hdd. cbn [Exec.numbered Exec.used].
      splits; [done|..].
      + eapply (flight_snoc im im' log dlog _ (Exec.next_id s)); [|done|done|done|lia|done|done|done].
        unfold flight in *. cbn [AsyncDisk.requests AsyncDisk.responses].
        by rewrite responses_none, requests_none.
      + eapply Forall_impl; [exact Hdef|]. intros r Hr. by eapply waits_snoc.
      + done.
      + eapply Forall_impl; [exact Hlt|]. cbn. intros. lia.
      + intros i id Hp. apply pending_snoc in Hp as [(_&Hp&_)|[_ Heq]]; [by eapply Hpend|].
        unfold req in Heq. congruence.
  Qed.

  Lemma handle_disk s id resp s' outs dr :
    handle_disk_response s id resp = (s', outs, dr) →
    outs = deliver_inflight_replies (satisfied_reqs s) ∧ journal s' = journal s ∧
    satisfied_reqs s' = deferred_reqs s ∧ deferred_reqs s' = [] ∧
    dr = match deferred_reqs s with [] => None
         | _ => Some (WriteReq superblock_addr (marshall (journal s))) end.
  Proof.
    unfold handle_disk_response, maybe_launch_superblock, send_superblock. cbn.
    destruct (deferred_reqs s) eqn:Hd; intros [= <- <- <-]; cbn; splits; by try done.
  Qed.
  Lemma acks_deliver ready id :
    mkXReply XSyncOutput id ∈ deliver_inflight_replies ready → id ∈ xreq_id <$> ready.
  Proof.
    unfold deliver_inflight_replies. rewrite elem_of_list_In, in_map_iff.
    intros (r&[= <-]&Hin%in_rev). apply elem_of_list_fmap. exists r. split; [done|].
    by apply elem_of_list_In.
  Qed.
  Lemma deliver_acks ready id :
    id ∈ xreq_id <$> ready → mkXReply XSyncOutput id ∈ deliver_inflight_replies ready.
  Proof.
    intros (r&->&Hin)%elem_of_list_fmap. unfold deliver_inflight_replies.
    rewrite elem_of_list_In, in_map_iff. exists r. split; [done|]. apply in_rev.
    rewrite rev_involutive. by apply elem_of_list_In.
  Qed.
  Lemma deliver_sync ready r : r ∈ deliver_inflight_replies ready → xreply_output r = XSyncOutput.
  Proof. unfold deliver_inflight_replies. rewrite elem_of_list_In, in_map_iff. by intros (?&<-&_). Qed.
  Lemma deliver_ids ready : xreply_id <$> deliver_inflight_replies ready = rev (xreq_id <$> ready).
  Proof.
    change (map xreply_id (map (λ r, mkXReply XSyncOutput (xreq_id r)) (rev ready)) = rev (map xreq_id ready)).
    rewrite map_map. apply map_rev.
  Qed.
  Lemma deliver_NoDup ready : NoDup (xreq_id <$> ready) → NoDup (xreply_id <$> deliver_inflight_replies ready).
  Proof. rewrite deliver_ids. intros Hnd. by rewrite <- Permutation_rev. Qed.

  Lemma singleton_sub (m : gmap ID DiskResponse) id resp :
    {[id := resp]} ⊆ m → m !! id = Some resp.
  Proof. intros Hsub. eapply lookup_weaken; [|done]. by rewrite lookup_singleton. Qed.

  Lemma ready_response im log dlog n d ls logs id resp :
    flight im log dlog n d ls logs → AsyncDisk.responses d !! id = Some resp →
    ∃ wid, resp = WriteResp ∧ id = wid ∧ AsyncDisk.requests d = ∅ ∧
      AsyncDisk.responses d = {[wid := WriteResp]} ∧
      satisfied_reqs im ≠ [] ∧ Forall (waits ls logs dlog) (satisfied_reqs im).
  Proof.
    intros [(_&_&_&Hr)|(Hs&wid&plog&_&_&_&Hw&[[_ Hr]|(Hq&Hr&->)])]; rewrite Hr; [done|done|].
    intros [<- <-]%lookup_singleton_Some. exists wid. by splits.
  Qed.

  Lemma done_step ls logs log dlog s s' l :
    einv ls logs log dlog s → Exec.done s s' l →
    ∃ log' dlog', einv (ls ++ [l]) (logs ++ [log']) log' dlog' s'.
  Proof.
    intros (Hh&Hc&Hp&Hputs) (im&id&resp&im'&outs&dr&d'&Hproc&Hhandle&Hd&->&->).
    unfold pinv in Hp. rewrite Hproc in Hp. destruct Hp as (Hj&Hfl&Hdef&Hnd&Hlt&Hpend).
    apply disk_ops_inv in Hd as (_&_&Hsub%singleton_sub&->).
    assert (Hlen : length logs = S (length ls)) by apply Hh.
    destruct (ready_response _ _ _ _ _ _ _ _ _ Hfl Hsub) as (wid&->&->&Hq&Hr&Hs0&Hw).
    destruct (handle_disk _ _ _ _ _ _ Hhandle) as (->&Hj'&Hs'&Hd'&->).
    rewrite fmap_app in Hnd. apply NoDup_app in Hnd as (Hnd1&Hdisj&Hnd2).
    assert (Hnf : ¬ fails (Exec.Done (deliver_inflight_replies (satisfied_reqs im)))) by by intros [].
    assert (Hna : ∀ id, id ∉ xreq_id <$> satisfied_reqs im →
      ¬ acks (Exec.Done (deliver_inflight_replies (satisfied_reqs im))) id).
    { intros id Hid Ha. apply Hid. by apply acks_deliver. }
    assert (Hdef' : Forall (waits (ls ++ [Exec.Done (deliver_inflight_replies (satisfied_reqs im))])
                      (logs ++ [log]) log) (deferred_reqs im)).
    { apply Forall_forall. intros r Hin. rewrite Forall_forall in Hdef.
      eapply waits_snoc; [by apply Hdef|done|done| |done].
      apply Hna. intros Hx. apply (Hdisj _ Hx). by apply elem_of_list_fmap_1. }
    exists log, dlog. unfold einv. apply and_assoc, and_assoc. split; [splits|].
    4: { by apply taken_more. }
    { eapply hist_snoc; [done| |done|apply Hh|].
      - split; [|done]. intros r Hr'. by eapply deliver_sync.
      - intros id Ha. simpl. split; [by apply deliver_NoDup|].
        apply acks_deliver in Ha. apply elem_of_list_fmap in Ha as (r&->&Hin).
        rewrite Forall_forall in Hw. destruct (Hw r Hin) as [_ Hx]. exact Hx. }
    { done. }
    unfold pinv. cbn [Exec.proc Exec.next_id Exec.disk]. rewrite Hs', Hd'.
    splits.
    - by rewrite Hj'.
    - unfold flight. rewrite Hs', Hd'. cbn [AsyncDisk.requests AsyncDisk.responses].
      destruct (deferred_reqs im) as [|r rest] eqn:Hdr.
      + left. splits; try done; cbn [Exec.numbered]; [by rewrite requests_none|].
        rewrite Hr. by rewrite map_difference_diag.
      + right. split; [done|]. exists (Exec.next_id s), log. splits.
        * simpl. lia.
        * done.
        * apply Hh.
        * done.
        * left. cbn [Exec.numbered]. rewrite Hq, Hr, Hj, map_union_empty, map_difference_diag. done.
    - done.
    - by rewrite app_nil_r.
    - rewrite app_nil_r. apply Forall_app in Hlt as [_ Hlt].
      eapply Forall_impl; [exact Hlt|]. cbn. intros. lia.
    - intros i id Hp. rewrite app_nil_r. apply pending_snoc in Hp as [(_&Hp&_&Ha)|[_ [=]]].
      apply Hpend in Hp. rewrite fmap_app in Hp. apply elem_of_app in Hp as [Hp|]; [|done].
      destruct Ha. by apply deliver_acks.
  Qed.

  Lemma prefix_take_in {A} (l : list A) n x : x ∈ take n l → x ∈ l.
  Proof. intros Hx. rewrite <- (take_drop n l). apply elem_of_app. by left. Qed.

  Lemma einv_step ls logs log dlog s s' l : codec_fits ls →
    einv ls logs log dlog s → Exec.next (repaired kp) s s' l →
    ∃ log' dlog', einv (ls ++ [l]) (logs ++ [log']) log' dlog' s'.
  Proof.
    intros Hcodec Hinv [Hs|[Hs|[Hs|[Hs|[Hs|[Hs|[Hs|Hs]]]]]]].
    - destruct Hinv as (Hh&Hc&Hp&Hputs), Hs as (->&Hproc&d&Hd&->).
      unfold pinv in Hp. rewrite Hproc in Hp. destruct Hp as (->&Hrq&Hrs&Hnp).
      apply disk_ops_inv in Hd as (_&_&_&->).
      exists dlog, dlog. unfold einv. splits; [|done| |by apply taken_more].
      + eapply hist_snoc; [done|done|done|done|]. intros id Ha. by apply no_acks_nil in Ha.
      + unfold pinv. cbn [Exec.proc Exec.next_id Exec.disk AsyncDisk.requests AsyncDisk.responses].
        rewrite Hrq, Hrs. splits; [done|by apply no_pending_snoc|]. exists (Exec.next_id s). split; [lia|]. left.
        cbn [Exec.numbered]. by rewrite map_union_empty, map_difference_empty.
    - assert (Hfit := Hcodec _ (einv_fits _ _ _ _ _ Hinv)). change (mkJournal (puts dlog) 0) with (jl dlog) in Hfit.
      destruct Hinv as (Hh&Hc&Hp&Hputs), Hs as (Hproc&id&resp&d&Hd&Hm).
      unfold pinv in Hp. rewrite Hproc in Hp. destruct Hp as (->&Hnp&rid&Hn&Hdisk).
      apply disk_ops_inv in Hd as (_&_&Hsub%singleton_sub&->).
      destruct Hdisk as [[_ Hr]|[Hq Hr]]; rewrite Hr in Hsub; [done|].
      apply lookup_singleton_Some in Hsub as [<- <-].
      cbn [recover_response] in Hm. rewrite Hfit in Hm. destruct Hm as [-> ->].
      exists dlog, dlog. unfold einv. splits; [|done| |by apply taken_more].
      + eapply hist_snoc; [done|done|done|done|]. intros id Ha. by apply no_acks_nil in Ha.
      + unfold pinv. cbn [Exec.proc Exec.next_id Exec.disk restores repaired impl_new journal
          satisfied_reqs deferred_reqs app fmap list_fmap].
        splits; [done| |done|constructor|done|].
        * left. splits; try done; cbn [AsyncDisk.requests AsyncDisk.responses];
            [by rewrite requests_none|by rewrite Hr, map_difference_diag].
        * intros i id Hp. by eapply no_pending_snoc in Hp.
    - by eapply recv_step.
    - destruct Hs as (im&input&im'&outs&dr&n&Hproc&Hhandle&->&->).
      exists dlog, dlog.
      assert (Hj : journal im = jl log).
      { destruct Hinv as (_&_&Hp&_). unfold pinv in Hp. rewrite Hproc in Hp. apply Hp. }
      destruct (handle_ops _ _ _ _ _ _ Hhandle Hj) as (Hout&_&_).
      assert (Hpre : take n outs `prefix_of` expected_replies log (mkXReq input (Exec.next_id s))).
      { rewrite <- Hout. exists (drop n outs). by rewrite take_drop. }
      eapply einv_crash; [done|done|split; [done|apply Hinv]|].
      intros id Ha. by eapply no_acks_ops in Ha.
    - by eapply done_step.
    - destruct Hs as (im&id&resp&im'&outs&dr&n&Hproc&Hhandle&Hresp&->&->).
      exists dlog, dlog.
      assert (Hp : pinv ls logs log dlog s) by apply Hinv.
      unfold pinv in Hp. rewrite Hproc in Hp. destruct Hp as (Hj&Hfl&Hdef&Hnd&Hlt&Hpend).
      destruct (ready_response _ _ _ _ _ _ _ _ _ Hfl Hresp) as (wid&->&->&Hq&Hr&Hs0&Hw).
      destruct (handle_disk _ _ _ _ _ _ Hhandle) as (->&Hj'&Hs'&Hd'&->).
      rewrite fmap_app in Hnd. apply NoDup_app in Hnd as (Hnd1&_&_).
      eapply einv_crash; [done|done| |].
      + split; [|apply Hinv]. intros r Hin%prefix_take_in. by eapply deliver_sync.
      + intros id Ha. simpl. split.
        * rewrite fmap_take. apply deliver_NoDup in Hnd1.
          rewrite <- (take_drop n) in Hnd1. by apply NoDup_app in Hnd1 as (?&_&_).
        * apply prefix_take_in, acks_deliver in Ha. apply elem_of_list_fmap in Ha as (r&->&Hin).
          rewrite Forall_forall in Hw. destruct (Hw r Hin) as [_ Hx]. exact Hx.
    - destruct Hs as (->&d&Hd&->). destruct Hinv as (Hh&Hc&Hp&Hputs).
      assert (Hlen : length logs = S (length ls)) by apply Hh.
      assert (Hna : ∀ id, ¬ acks Exec.DiskInternal id) by (intros id; by apply no_acks_nil).
      assert (Hhist : ∀ dlog', dlog `prefix_of` dlog' → dlog' `prefix_of` log →
        hist (ls ++ [Exec.DiskInternal]) (logs ++ [log]) log dlog').
      { intros dlog' ??. eapply hist_snoc; try done. intros id Ha. by apply Hna in Ha. }
      assert (Hpd : dlog `prefix_of` log) by apply Hh.
      exists log.
      destruct Hd as [(?&?&?&_)|[(id&_&from&data&Hid&Hwf&Hdata&->)|[(id&_&to&data&Hid&Hwf&->)|[? _]]]]; try done.
      + exists dlog. unfold einv. splits; [by apply Hhist|done| |by apply taken_more].
        unfold pinv in *. cbn [Exec.proc Exec.next_id Exec.disk].
        destruct (Exec.proc s) as [| |im|].
        * destruct Hp as (?&Hrq&_). by rewrite Hrq in Hid.
        * destruct Hp as (->&Hnp&rid&Hn&[[Hq Hr]|[Hq _]]); [|by rewrite Hq in Hid].
          splits; [done|by apply no_pending_snoc|]. exists rid. split; [done|]. right. cbn [AsyncDisk.requests AsyncDisk.responses].
          rewrite Hq in *. apply lookup_singleton_Some in Hid as [<- [= <-]].
          rewrite delete_singleton, Hr. split; [done|].
          by rewrite (Hdata _ Hc).
        * destruct Hp as (Hj&Hfl&_). exfalso.
          destruct Hfl as [(_&_&Hq&_)|(_&wid&plog&_&_&_&_&[[Hq _]|[Hq _]])]; rewrite Hq in Hid; try done.
          by apply lookup_singleton_Some in Hid as [_ [=]].
        * done.
      + assert (∃ im, Exec.proc s = Exec.Ready im) as [im Hproc].
        { unfold pinv in Hp. destruct (Exec.proc s) as [| |im|]; [| |by eexists|done].
          - destruct Hp as (?&Hrq&_). by rewrite Hrq in Hid.
          - destruct Hp as (_&_&rid&_&[[Hq _]|[Hq _]]); rewrite Hq in Hid; [|done].
            by apply lookup_singleton_Some in Hid as [_ [=]]. }
        unfold pinv in Hp. rewrite Hproc in Hp. destruct Hp as (Hj&Hfl&Hdef&Hnd&Hlt&Hpend).
        destruct Hfl as [(_&_&Hq&_)|(Hs0&wid&plog&Hwn&Hpl&Hdp&Hw&[[Hq Hr]|(Hq&_&_)])];
          [by rewrite Hq in Hid| |by rewrite Hq in Hid].
        rewrite Hq in *. apply lookup_singleton_Some in Hid as [<- [= <- <-]].
        exists plog. unfold einv. apply and_assoc, and_assoc. split; [splits|by apply taken_more].
        * by apply Hhist.
        * cbn [Exec.disk AsyncDisk.content]. by rewrite lookup_insert.
        * unfold pinv. cbn [Exec.proc Exec.next_id Exec.disk]. rewrite Hproc. splits; try done.
          -- right. split; [done|]. exists wid, plog. splits; try done.
             ++ eapply Forall_impl; [exact Hw|]. intros r Hrr. eapply waits_snoc; [exact Hrr|done|by intros []|apply Hna|done].
             ++ right. cbn [AsyncDisk.requests AsyncDisk.responses]. rewrite Hr, delete_singleton. done.
          -- eapply Forall_impl; [exact Hdef|]. intros r Hrr. eapply waits_snoc; [exact Hrr|done|by intros []|apply Hna|done].
          -- intros i id Hp. apply pending_snoc in Hp as [(_&Hp&_)|[_ [=]]]. by eapply Hpend.
    - destruct Hs as (->&->). exists dlog, dlog.
      eapply einv_crash; [done|done|apply Hinv|]. intros id Ha. by apply no_acks_nil in Ha.
  Qed.

  Lemma einv_run s0 ls s : codec_fits ls →
    Exec.init s0 → run (Exec.next (repaired kp)) s0 ls s → ∃ logs log dlog, einv ls logs log dlog s.
  Proof.
    intros Hf Hi Hr. induction Hr as [s|s ls s1 l s2 Hr IH Hn].
    - destruct Hi as (c&->&Hc). exists [[]], [], []. unfold einv. splits; [|done| |done].
      + unfold hist, served. by splits.
      + unfold pinv. cbn. splits; try done. by intros i id [Hj _].
    - apply fits_app in Hf. destruct (IH Hf Hi) as (logs&log&dlog&Hinv).
      destruct (einv_step _ _ _ _ _ _ _ Hf Hinv Hn) as (log'&dlog'&?). eauto.
  Qed.

  Theorem exec_correct s0 ls s : codec_fits ls →
    Exec.init s0 → run (Exec.next (repaired kp)) s0 ls s →
    ∃ logs, served ls logs ∧ exec_syncs_durable ls logs ∧
      ∀ im log, Exec.proc s = Exec.Ready im → logs !! length ls = Some log →
        shows (volatile_map im) log.
  Proof.
    intros Hf Hi Hr. destruct (einv_run _ _ _ Hf Hi Hr) as (logs&log&dlog&(Hs&Hl&_&Hack)&_&Hp&_).
    exists logs. split; [done|]. split.
    - intros j e id Hj Ha. destruct (Hack j e id Hj Ha) as (i&a&?&?&?&?&?&_&?). exists i, a. by splits.
    - intros im log' Hproc Hl'. rewrite Hl in Hl'. injection Hl' as <-.
      unfold pinv in Hp. rewrite Hproc in Hp. apply volatile_jl. apply Hp.
  Qed.

  (** ** Progress *)
  Lemma einv_run_from ls0 logs log dlog s ls s' :
    codec_fits (ls0 ++ ls) → einv ls0 logs log dlog s → run (Exec.next (repaired kp)) s ls s' →
    ∃ logs' log' dlog', einv (ls0 ++ ls) logs' log' dlog' s'.
  Proof.
    intros Hf Hinv Hr. induction Hr as [s|s ls s1 l s2 Hr IH Hn].
    - rewrite app_nil_r. eauto.
    - rewrite app_assoc in Hf. apply fits_app in Hf. destruct (IH Hf Hinv) as (logs'&log'&dlog'&Hinv').
      destruct (einv_step _ _ _ _ _ _ _ Hf Hinv' Hn) as (log2&dlog2&?).
      rewrite app_assoc. eauto.
  Qed.

  Lemma land ls logs log dlog s im :
    addr_wf superblock_addr → einv ls logs log dlog s →
    Exec.proc s = Exec.Ready im → satisfied_reqs im ≠ [] →
    ∃ ls' s' im', run (Exec.next (repaired kp)) s ls' s' ∧ Forall autonomous ls' ∧
      (∀ id, id ∈ xreq_id <$> satisfied_reqs im → ∃ e, e ∈ ls' ∧ acks e id) ∧
      Exec.proc s' = Exec.Ready im' ∧ satisfied_reqs im' = deferred_reqs im.
  Proof.
    intros Hwf Hinv Hproc Hne.
    assert (∃ ls1 s1 wid, run (Exec.next (repaired kp)) s ls1 s1 ∧ Forall autonomous ls1 ∧
      Exec.proc s1 = Exec.Ready im ∧ (wid < Exec.next_id s1)%N ∧
      AsyncDisk.requests (Exec.disk s1) = ∅ ∧
      AsyncDisk.responses (Exec.disk s1) = {[wid := WriteResp]}) as (ls1&s1&wid&Hr1&Ha1&Hp1&Hw1&Hq1&Hrs1).
    { destruct Hinv as (_&_&Hp&_). unfold pinv in Hp. rewrite Hproc in Hp.
      destruct Hp as (_&[(?&_)|(_&wid&plog&Hw&_&_&_&[[Hq Hr]|(Hq&Hr&_)])]&_); [done| |].
      - eexists [Exec.DiskInternal], _, wid. splits; [apply run_one| | | | |].
        + do 6 right. left. split; [done|]. eexists. split; [|reflexivity].
          right. right. left. exists wid. split; [done|]. do 2 eexists.
          split; [rewrite Hq; apply lookup_singleton|]. by split.
        + by constructor.
        + done.
        + done.
        + cbn. by rewrite Hq, delete_singleton.
        + cbn. by rewrite Hr.
      - exists [], s, wid. splits; try done. constructor. }
    destruct (handle_disk_response im wid WriteResp) as [[im' outs] dr] eqn:Hh.
    destruct (handle_disk _ _ _ _ _ _ Hh) as (Hout&_&Hs'&_&_).
    eexists (ls1 ++ [Exec.Done outs]), (Exec.mkState (Exec.Ready im') _ _), im'. splits.
    - eapply run_snoc; [exact Hr1|]. do 4 right. left.
      exists im, wid, WriteResp, im', outs, dr. eexists. split; [done|]. split; [done|].
      split; [|split; [done|reflexivity]].
      do 2 eexists. split; [done|]. splits; [..|reflexivity].
      + rewrite Hq1, dom_empty_L. set_solver.
      + rewrite Hrs1, dom_singleton_L. destruct dr; cbn; [|set_solver].
        rewrite dom_singleton_L. apply disjoint_singleton_l, not_elem_of_singleton. lia.
      + by rewrite Hrs1.
    - apply Forall_app. split; [done|]. by constructor.
    - intros id Hid. exists (Exec.Done outs). split.
      + apply elem_of_app. right. by apply elem_of_list_singleton.
      + unfold acks. cbn. rewrite Hout. by apply deliver_acks.
    - done.
    - done.
  Qed.

  Theorem exec_progress s0 ls s i id :
    codec_fits ls → addr_wf superblock_addr → Exec.init s0 → run (Exec.next (repaired kp)) s0 ls s → pending_at ls i id →
    ∃ ls' s', run (Exec.next (repaired kp)) s ls' s' ∧ Forall autonomous ls' ∧ ∃ e, e ∈ ls' ∧ acks e id.
  Proof.
    intros Hf Hwf Hi Hr Hpa. destruct (einv_run _ _ _ Hf Hi Hr) as (logs&log&dlog&Hinv).
    assert (Hp := Hinv). destruct Hp as (_&_&Hp&_). unfold pinv in Hp.
    destruct (Exec.proc s) as [| |im|] eqn:Hproc; [| | |done].
    { destruct Hp as (_&_&_&Hnp). by apply Hnp in Hpa. }
    { destruct Hp as (_&Hnp&_). by apply Hnp in Hpa. }
    destruct Hp as (_&Hfl&_&_&_&Hin). apply Hin in Hpa. clear Hin.
    assert (Hne : satisfied_reqs im ≠ []).
    { destruct Hfl as [(Hs&Hd&_)|(?&_)]; [|done]. rewrite Hs, Hd in Hpa. by apply elem_of_nil in Hpa. }
    destruct (land _ _ _ _ _ _ Hwf Hinv Hproc Hne) as (ls1&s1&im1&Hr1&Ha1&Hk1&Hp1&Hs1).
    rewrite fmap_app in Hpa. apply elem_of_app in Hpa as [Hpa|Hpa].
    { exists ls1, s1. splits; try done. by apply Hk1. }
    destruct (einv_run_from _ _ _ _ _ _ _ (fits_same _ _ Hf (autonomous_taken _ Ha1)) Hinv Hr1) as (logs'&log'&dlog'&Hinv').
    assert (Hne1 : satisfied_reqs im1 ≠ []) by (rewrite Hs1; intros Hd; rewrite Hd in Hpa; by apply elem_of_nil in Hpa).
    destruct (land _ _ _ _ _ _ Hwf Hinv' Hp1 Hne1) as (ls2&s2&im2&Hr2&Ha2&Hk2&_&_).
    exists (ls1 ++ ls2), s2. splits; [by eapply run_app|by apply Forall_app|].
    rewrite Hs1 in Hk2. destruct (Hk2 id Hpa) as (e&He&?). exists e. split; [|done].
    apply elem_of_app. by right.
  Qed.

  (** ** Facts about every configuration *)
  (** A journal of some of the puts [U]. *)
  Definition within (U : list KeyedMessage) (j : Journal) : Prop := j_start j = 0 ∧ j_history j `sublist_of` U.
  Definition pages_ok (U : list KeyedMessage) (d : AsyncDisk.State) : Prop :=
    (∃ j, AsyncDisk.content d !! superblock_addr = Some (marshall j) ∧ within U j) ∧
    ∀ id r, AsyncDisk.requests d !! id = Some r →
      r = ReadReq superblock_addr ∨ ∃ j, r = WriteReq superblock_addr (marshall j) ∧ within U j.
  Definition calm (U : list KeyedMessage) (s : Exec.State) : Prop :=
    let d := Exec.disk s in
    pages_ok U d ∧
    match Exec.proc s with
    | Exec.Starting => AsyncDisk.requests d = ∅ ∧ AsyncDisk.responses d = ∅
    | Exec.Recovering =>
        (∀ id r, AsyncDisk.requests d !! id = Some r → r = ReadReq superblock_addr) ∧
        (∀ id r, AsyncDisk.responses d !! id = Some r → ∃ j, r = ReadResp (marshall j) ∧ within U j)
    | Exec.Ready im => within U (journal im)
    | Exec.Panicked => False
    end.
  Lemma within_more U U' j : within U j → within (U ++ U') j.
  Proof. intros [? ?]. split; [done|]. by apply sublist_inserts_r. Qed.
  Lemma within_fits ls j : codec_fits ls → within (puts_taken ls) j → unmarshall_journal (marshall j) = Some j.
  Proof. intros Hf [Hs Hh]. destruct j as [h n]. cbn in Hs, Hh. subst n. by apply Hf. Qed.
  Lemma pages_more U U' d : pages_ok U d → pages_ok (U ++ U') d.
  Proof.
    intros [(j&Hc&Hj) Hq]. split; [exists j; split; [done|by apply within_more]|].
    intros id r Hr. destruct (Hq id r Hr) as [->|(j'&->&Hj')]; [by left|]. right. exists j'. split; [done|]. by apply within_more.
  Qed.
  Lemma calm_more U U' s : calm U s → calm (U ++ U') s.
  Proof.
    intros [Hp Hs]. split; [by apply pages_more|]. destruct (Exec.proc s); try done; [|by apply within_more].
    destruct Hs as [Hq Hr]. split; [done|]. intros id r Hl. destruct (Hr id r Hl) as (j&->&Hj).
    exists j. split; [done|]. by apply within_more.
  Qed.

  Lemma launch_writes s s' dr :
    maybe_launch_superblock s = (s', dr) →
    dr = None ∨ dr = Some (WriteReq superblock_addr (marshall (journal s))).
  Proof.
    unfold maybe_launch_superblock, send_superblock.
    destruct (deferred_reqs s), (satisfied_reqs s); intros [= <- <-]; eauto.
  Qed.
  Lemma user_writes c s req s' outs dr :
    handle_user_request c s req = (s', outs, dr) →
    journal s' = mkJournal (j_history (journal s) ++ puts_taken [Exec.Recv req outs]) (j_start (journal s)) ∧
    (dr = None ∨ dr = Some (WriteReq superblock_addr (marshall (journal s)))).
  Proof.
    unfold handle_user_request. destruct req as [[k|k v| |] id]; cbn [xreq_input].
    - unfold handle_query. destruct (answers c); intros [= <- <- <-]; cbn; rewrite app_nil_r; destruct (journal s); auto.
    - intros [= <- <- <-]. cbn. auto.
    - unfold handle_sync_request. destruct maybe_launch_superblock as [s1 dr1] eqn:Hm.
      intros [= <- <- <-]. cbn. rewrite app_nil_r. split.
      + unfold maybe_launch_superblock, send_superblock in Hm.
        destruct (deferred_reqs _), (satisfied_reqs _); simplify_eq/=; by destruct (journal s).
      + destruct (launch_writes _ _ _ Hm) as [->| ->]; eauto.
    - intros [= <- <- <-]; cbn; rewrite app_nil_r; destruct (journal s); auto.
  Qed.
  Lemma disk_writes s id resp s' outs dr :
    handle_disk_response s id resp = (s', outs, dr) →
    dr = None ∨ dr = Some (WriteReq superblock_addr (marshall (journal s))).
  Proof.
    unfold handle_disk_response. destruct maybe_launch_superblock as [s1 dr1] eqn:Hm.
    intros [= <- <- <-]. destruct (launch_writes _ _ _ Hm) as [->| ->]; eauto.
  Qed.
  Lemma pages_ok_ops U d n dr resps :
    pages_ok U d → (dr = None ∨ dr = Some (ReadReq superblock_addr) ∨
      ∃ j, dr = Some (WriteReq superblock_addr (marshall j)) ∧ within U j) →
    pages_ok U (AsyncDisk.mkState (Exec.numbered n dr ∪ AsyncDisk.requests d)
                (AsyncDisk.responses d ∖ resps) (AsyncDisk.content d)).
  Proof.
    intros [Hc Hq] Hdr. split; [done|]. cbn [AsyncDisk.requests]. intros id r Hr.
    apply lookup_union_Some_raw in Hr as [Hr|[_ Hr]]; [|by eapply Hq].
    destruct Hdr as [->|[->|(j&->&Hj)]]; cbn [Exec.numbered] in Hr; [done|..];
      apply lookup_singleton_Some in Hr as [_ <-]; eauto.
  Qed.
  Lemma calm_crash U c n s : calm U s → calm U (Exec.after_crash c n (Exec.disk s)).
  Proof. intros [[Hc _] _]. by repeat split. Qed.

  Lemma calm_step c ls s s' l : codec_fits ls → calm (puts_taken ls) s → Exec.next c s s' l →
    calm (puts_taken (ls ++ [l])) s' ∧ l ≠ Exec.Panic.
  Proof.
    intros Hf Hcalm0 Hs. assert (Hcalm : calm (puts_taken (ls ++ [l])) s) by (rewrite taken_app; by apply calm_more).
    set (U := puts_taken (ls ++ [l])) in *.
    destruct Hs as [Hs|[Hs|[Hs|[Hs|[Hs|[Hs|[Hs|Hs]]]]]]].
    - destruct Hcalm as [Hpg Hp], Hs as (->&Hproc&d&Hd&->). rewrite Hproc in Hp. destruct Hp as [Hq Hr].
      apply disk_ops_inv in Hd as (_&_&_&->). split; [|done]. split; [apply pages_ok_ops; eauto|].
      cbn [Exec.proc Exec.disk AsyncDisk.requests AsyncDisk.responses]. split.
      + intros id r Hl. rewrite Hq, map_union_empty in Hl. cbn [Exec.numbered] in Hl.
        by apply lookup_singleton_Some in Hl as [_ <-].
      + intros id r Hl. by rewrite Hr, map_difference_empty in Hl.
    - destruct Hcalm as [Hpg _], Hcalm0 as [_ Hp], Hs as (Hproc&id&resp&d&Hd&Hm). rewrite Hproc in Hp.
      destruct Hp as [Hq Hr]. apply disk_ops_inv in Hd as (_&_&Hsub%singleton_sub&->).
      destruct (Hr _ _ Hsub) as (j&->&Hj). cbn [recover_response] in Hm. rewrite (within_fits _ _ Hf Hj) in Hm.
      destruct Hm as [-> ->]. split; [|done]. split.
      + change (∅ ∪ AsyncDisk.requests (Exec.disk s)) with (Exec.numbered 0%N None ∪ AsyncDisk.requests (Exec.disk s)).
        apply pages_ok_ops; eauto.
      + cbn [Exec.proc]. unfold U. rewrite taken_app. apply within_more.
        destruct (restores c); [done|]. split; [done|]. apply sublist_nil_l.
    - destruct Hcalm as [Hpg _], Hcalm0 as [_ Hp], Hs as (im&input&im'&outs&dr&d'&Hproc&Hhandle&Hd&->&->).
      apply disk_ops_inv in Hd as (_&_&_&->). split; [|done]. rewrite Hproc in Hp.
      destruct (user_writes _ _ _ _ _ _ Hhandle) as [Hj Hdr].
      assert (Hw : within U (journal im)) by (unfold U; rewrite taken_app; by apply within_more).
      split.
      + apply pages_ok_ops; [done|]. destruct Hdr as [->| ->]; eauto.
      + cbn [Exec.proc]. rewrite Hj. destruct Hp as [Hp1 Hp2]. split; [done|]. cbn [j_history].
        unfold U. rewrite taken_app. by apply sublist_app.
    - destruct Hs as (im&input&im'&outs&dr&n&Hproc&Hhandle&->&->). split; [by apply calm_crash|done].
    - destruct Hcalm as [Hpg Hp], Hs as (im&id&resp&im'&outs&dr&d'&Hproc&Hhandle&Hd&->&->).
      apply disk_ops_inv in Hd as (_&_&_&->). split; [|done]. rewrite Hproc in Hp. split.
      + apply pages_ok_ops; [done|]. destruct (disk_writes _ _ _ _ _ _ Hhandle) as [->| ->]; eauto.
      + cbn [Exec.proc]. by destruct (handle_disk _ _ _ _ _ _ Hhandle) as (_&->&_).
    - destruct Hs as (im&id&resp&im'&outs&dr&n&Hproc&Hhandle&_&->&->). split; [by apply calm_crash|done].
    - destruct Hcalm as [[Hc Hpq] Hp], Hs as (->&d&Hd&->). split; [|done].
      assert (Hdel : ∀ id r i, delete i (AsyncDisk.requests (Exec.disk s)) !! id = Some r →
        AsyncDisk.requests (Exec.disk s) !! id = Some r).
      { intros id r i Hl. by apply lookup_delete_Some in Hl as [_ ?]. }
      destruct Hd as [(?&?&?&_)|[(id&_&from&data&Hid&Hwf&Hdata&->)|[(id&_&to&data&Hid&Hwf&->)|[? _]]]]; try done.
      + split; [split; [done|]|].
        * cbn [Exec.disk AsyncDisk.requests]. intros id' r Hl. eapply Hpq. by eapply Hdel.
        * cbn [Exec.proc Exec.disk AsyncDisk.requests AsyncDisk.responses].
          destruct (Exec.proc s); try done.
          -- destruct Hp as [Hq _]. by rewrite Hq in Hid.
          -- destruct Hp as [Hq Hr]. split.
             ++ intros id' r Hl. eapply Hq. by eapply Hdel.
             ++ intros id' r Hl. apply lookup_insert_Some in Hl as [[_ <-]|[_ Hl]]; [|by eapply Hr].
                apply Hq in Hid as [= ->]. destruct Hc as (j&Hj&Hw). exists j. by rewrite (Hdata _ Hj).
      + split; [split|].
        * cbn [Exec.disk AsyncDisk.content]. destruct (Hpq _ _ Hid) as [[=]|(j&[= -> ->]&Hw)].
          exists j. by rewrite lookup_insert.
        * cbn [Exec.disk AsyncDisk.requests]. intros id' r Hl. eapply Hpq. by eapply Hdel.
        * cbn [Exec.proc Exec.disk AsyncDisk.requests AsyncDisk.responses].
          destruct (Exec.proc s); try done.
          -- destruct Hp as [Hq _]. by rewrite Hq in Hid.
          -- destruct Hp as [Hq _]. by apply Hq in Hid as [=].
    - destruct Hs as (->&->). split; [by apply calm_crash|done].
  Qed.
  Lemma calm_run c s0 ls s : codec_fits ls → Exec.init s0 → run (Exec.next c) s0 ls s →
    calm (puts_taken ls) s ∧ Exec.Panic ∉ ls.
  Proof.
    intros Hf Hi Hr. induction Hr as [s|s ls s1 l s2 Hr IH Hn].
    - destruct Hi as (cc&->&Hc). split; [|apply not_elem_of_nil]. split; [split; [by exists journal_empty|]|done].
      cbn. intros id r Hl. by rewrite lookup_empty in Hl.
    - apply fits_app in Hf. destruct (IH Hf Hi) as [Hc Hnp]. destruct (calm_step _ _ _ _ _ Hf Hc Hn) as [Hc' Hl].
      split; [done|]. rewrite elem_of_app, elem_of_list_singleton. naive_solver.
  Qed.
  Theorem exec_never_panics c s0 ls s : codec_fits ls →
    Exec.init s0 → run (Exec.next c) s0 ls s → Exec.Panic ∉ ls ∧ Exec.proc s ≠ Exec.Panicked.
  Proof.
    intros Hf Hi Hr. destruct (calm_run _ _ _ _ Hf Hi Hr) as [[_ Hp] Hn]. split; [done|].
    intros Hpr. by rewrite Hpr in Hp.
  Qed.
End exec.

(** ** The server as written *)
Section written.
  Context `{HG : Geometry} `{HC : Codec}.

  Lemma recv_label c s s' req outs :
    Exec.next c s s' (Exec.Recv req outs) →
    ∃ im im' dr, handle_user_request c im req = (im', outs, dr) ∧ Exec.proc s = Exec.Ready im ∧
      Exec.proc s' = Exec.Ready im'.
  Proof.
    intros [(?&_)|[(_&?&?&?&_&Hm)|[(im&input&im'&o&dr&d'&Hproc&Hhandle&_&[= -> ->]&->)|
      [(?&?&?&?&?&?&_&_&?&_)|[(?&?&?&?&?&?&?&_&_&_&?&_)|[(?&?&?&?&?&?&?&_&_&_&?&_)|[(?&_)|(?&_)]]]]]]];
      try done; [|by eauto 10].
    by destruct (recover_response _ _ _), Hm.
  Qed.
  Theorem exec_acks c s0 ls s i req outs :
    run (Exec.next c) s0 ls s → ls !! i = Some (Exec.Recv req outs) →
    match xreq_input req with
    | XPut _ _ => outs = [mkXReply XPutOutput (xreq_id req)]
    | XNoop => outs = [mkXReply XNoopOutput (xreq_id req)]
    | XSync => outs = []
    | XQuery _ => answers c = false → outs = []
    end.
  Proof.
    intros Hr Hi. destruct (run_at _ _ _ _ _ _ Hr Hi) as (s1&s2&_&Hn).
    destruct (recv_label _ _ _ _ _ Hn) as (im&im'&dr&Hh&_&_). unfold handle_user_request in Hh.
    destruct (xreq_input req).
    - unfold handle_query in Hh. destruct (answers c); by simplify_eq.
    - unfold handle_put in Hh. by simplify_eq.
    - unfold handle_sync_request in Hh. destruct maybe_launch_superblock. by simplify_eq.
    - unfold handle_noop in Hh. by simplify_eq.
  Qed.

  Lemma session_snoc ls e :
    session_ops (ls ++ [e]) = match e with
      | Exec.Recv req _ => log_after (session_ops ls) req
      | Exec.RecvCut _ _ | Exec.DoneCut _ | Exec.Crash => []
      | _ => session_ops ls end.
  Proof. unfold session_ops. by rewrite fold_left_app. Qed.

  Lemma handle_journal c s req s' outs dr log :
    handle_user_request c s req = (s', outs, dr) → journal s = jl log →
    journal s' = jl (log_after log req).
  Proof.
    intros Hh Hj. unfold handle_user_request in Hh.
    destruct req as [[k|k v| |] id]; simpl in *; unfold log_after, jl in *; simpl.
    - unfold handle_query in Hh. rewrite puts_app, app_nil_r. destruct (answers c); by simplify_eq.
    - injection Hh as <- <- <-. simpl. rewrite Hj. unfold journal_insert; simpl. by rewrite puts_app.
    - unfold handle_sync_request in Hh. destruct maybe_launch_superblock as [s1 dr1] eqn:Hm.
      injection Hh as <- <- <-. unfold maybe_launch_superblock, send_superblock in Hm.
      destruct (deferred_reqs _), (satisfied_reqs _); by simplify_eq/=.
    - injection Hh as <- <- <-. by rewrite puts_app, app_nil_r.
  Qed.

  (** Without restoring, what is in memory is what this incarnation received. *)
  Definition winv (ls : list Exec.Label) (s : Exec.State) : Prop :=
    match Exec.proc s with
    | Exec.Ready im => journal im = jl (session_ops ls)
    | _ => session_ops ls = []
    end.
  Lemma winv_run c s0 ls s :
    restores c = false → Exec.init s0 → run (Exec.next c) s0 ls s → winv ls s.
  Proof.
    intros Hc Hi Hr. induction Hr as [s|s ls s1 l s2 Hr IH Hn].
    - destruct Hi as (cc&->&_). done.
    - specialize (IH Hi). unfold winv in *.
      destruct Hn as [Hs|[Hs|[Hs|[Hs|[Hs|[Hs|[Hs|Hs]]]]]]].
      + destruct Hs as (->&Hproc&d&Hd&->). rewrite Hproc in IH. by rewrite session_snoc.
      + destruct Hs as (Hproc&id&resp&d&Hd&Hm). rewrite Hproc in IH.
        destruct (recover_response c impl_new resp) as [im|] eqn:Hre; destruct Hm as [-> ->];
          cbn [Exec.proc]; rewrite session_snoc; [|done].
        rewrite IH. unfold recover_response in Hre. destruct resp; [|done].
        destruct unmarshall_journal; [|done]. rewrite Hc in Hre. by injection Hre as <-.
      + destruct Hs as (im&input&im'&outs&dr&d'&Hproc&Hhandle&Hd&->&->). rewrite Hproc in IH.
        cbn [Exec.proc]. rewrite session_snoc. by eapply handle_journal.
      + destruct Hs as (im&input&im'&outs&dr&n&Hproc&Hhandle&->&->). by rewrite session_snoc.
      + destruct Hs as (im&id&resp&im'&outs&dr&d'&Hproc&Hhandle&Hd&->&->). rewrite Hproc in IH.
        cbn [Exec.proc]. rewrite session_snoc.
        destruct (handle_disk _ _ _ _ _ _ Hhandle) as (_&->&_). done.
      + destruct Hs as (im&id&resp&im'&outs&dr&n&Hproc&Hhandle&_&->&->). by rewrite session_snoc.
      + destruct Hs as (->&d&Hd&->). by rewrite session_snoc.
      + destruct Hs as (->&->). by rewrite session_snoc.
  Qed.
  Theorem written_volatile c s0 ls s im :
    restores c = false → Exec.init s0 → run (Exec.next c) s0 ls s → Exec.proc s = Exec.Ready im →
    shows (volatile_map im) (session_ops ls).
  Proof.
    intros Hc Hi Hr Hp. assert (Hw := winv_run _ _ _ _ Hc Hi Hr). unfold winv in Hw.
    rewrite Hp in Hw. by apply volatile_jl.
  Qed.
  Theorem written_restart_empty c s0 ls s im k :
    restores c = false → Exec.init s0 → run (Exec.next c) s0 (ls ++ [Exec.Recovered]) s →
    Exec.proc s = Exec.Ready im → MapSpec.kmmap (volatile_map im) k = Define 0%N.
  Proof.
    intros Hc Hi Hr Hp. rewrite (written_volatile _ _ _ _ _ Hc Hi Hr Hp k). f_equal.
    apply run_snoc_inv in Hr as (s1&Hr&Hn). apply (winv_run _ _ _ _ Hc Hi) in Hr.
    rewrite session_snoc. unfold winv in Hr.
    destruct Hn as [(?&_)|[(Hproc&_)|[(im0&?&im'&o&dr&d'&_&_&_&?&_)|
      [(?&?&?&?&?&?&_&_&?&_)|[(?&?&?&?&?&?&?&_&_&_&?&_)|[(?&?&?&?&?&?&?&_&_&_&?&_)|[(?&_)|(?&_)]]]]]]];
      try done. rewrite Hproc in Hr. by rewrite Hr.
  Qed.
  Theorem written_no_query_reply c s0 ls s i e r v :
    answers c = false → run (Exec.next c) s0 ls s → ls !! i = Some e → r ∈ replies e →
    xreply_output r ≠ XQueryOutput v.
  Proof.
    intros Hc Hr Hi Hin. destruct (run_at _ _ _ _ _ _ Hr Hi) as (s1&s2&_&Hn).
    assert (Hu : ∀ im req im' outs dr, handle_user_request c im req = (im', outs, dr) → r ∈ outs →
      xreply_output r ≠ XQueryOutput v).
    { intros im req im' outs dr Hh Ho. unfold handle_user_request in Hh. destruct (xreq_input req).
      - unfold handle_query in Hh. rewrite Hc in Hh. injection Hh as <- <- <-. by apply elem_of_nil in Ho.
      - injection Hh as <- <- <-. by apply elem_of_list_singleton in Ho as ->.
      - destruct req as [? id]. unfold handle_sync_request in Hh.
        destruct maybe_launch_superblock. injection Hh as <- <- <-. by apply elem_of_nil in Ho.
      - injection Hh as <- <- <-. by apply elem_of_list_singleton in Ho as ->. }
    assert (Hd : ∀ im id resp im' outs dr, handle_disk_response im id resp = (im', outs, dr) → r ∈ outs →
      xreply_output r ≠ XQueryOutput v).
    { intros im id resp im' outs dr Hh Ho. destruct (handle_disk _ _ _ _ _ _ Hh) as (->&_).
      rewrite (deliver_sync _ _ Ho). done. }
    destruct Hn as [Hs|[Hs|[Hs|[Hs|[Hs|[Hs|[Hs|Hs]]]]]]].
    - destruct Hs as (->&_). by apply elem_of_nil in Hin.
    - destruct Hs as (_&?&?&?&_&Hm). 
      destruct (recover_response _ _ _), Hm as [-> _]; by apply elem_of_nil in Hin.
    - destruct Hs as (im&input&im'&outs&dr&d'&Hproc&Hhandle&Hd'&->&->). by eapply Hu.
    - destruct Hs as (im&input&im'&outs&dr&n&Hproc&Hhandle&->&->).
      eapply Hu; [done|]. by eapply prefix_take_in.
    - destruct Hs as (im&id&resp&im'&outs&dr&d'&Hproc&Hhandle&Hd'&->&->). by eapply Hd.
    - destruct Hs as (im&id&resp&im'&outs&dr&n&Hproc&Hhandle&_&->&->).
      eapply Hd; [done|]. by eapply prefix_take_in.
    - destruct Hs as (->&_). by apply elem_of_nil in Hin.
    - destruct Hs as (->&_). by apply elem_of_nil in Hin.
  Qed.
End written.
