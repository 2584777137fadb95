(** Proofs: the paged journal refines the message log (C11). *)
From Verif Require Import Abs_Model Abs_Spec Abs_Proof Spec_Proof Journal_Model Journal_Spec.

(** PagedJournalRefinement_v.rs 27-52 *)
Fixpoint rec_i (r : list MsgHistory) (bdy : nat) : MsgHistory :=
  match r with
  | [] => empty_history_at bdy
  | m :: p =>
      if decide (seq_start m ≤ bdy ≤ seq_end m) then discard_old m bdy
      else mh_concat (rec_i p bdy) m
  end.
Definition chain_end (r : list MsgHistory) (bdy : nat) : nat :=
  match r with [] => bdy | m :: _ => seq_end m end.
(** 301, 384 *)
Definition ptj_i (tj : Paged.TruncatedJournal) : MsgHistory :=
  rec_i (Paged.freshest_rec tj) (Paged.boundary_lsn tj).
Definition paged_i (s : Paged.State) : AbstractJournal.State :=
  AbstractJournal.mkState (mh_concat (ptj_i (Paged.truncated_journal s)) (Paged.unmarshalled_tail s)).
(** 362-380 *)
Definition paged_lbl (l : Paged.Label) : AbstractJournal.Label :=
  match l with
  | Paged.ReadForRecovery m => AbstractJournal.ReadForRecoveryLabel m
  | Paged.FreezeForCommit tj => AbstractJournal.FreezeForCommitLabel (ptj_i tj)
  | Paged.QueryEndLsn n => AbstractJournal.QueryEndLsnLabel n
  | Paged.Put m => AbstractJournal.PutLabel m
  | Paged.DiscardOld x y => AbstractJournal.DiscardOldLabel x y
  | Paged.Internal => AbstractJournal.InternalLabel
  end.

Lemma rec_wf_cons m p : Paged.rec_wf (m :: p) →
  mh_wf m ∧ Paged.rec_wf p ∧ (p = [] ∨ chain_end p 0 = seq_start m).
Proof.
  destruct p as [|m' p]; [intros [? _]; split_and!; [done|done|by left]|]. intros (?&?&Hc).
  split_and!; [done|done|right]. unfold can_concat, can_follow in Hc. simpl. lia.
Qed.
Lemma rec_wf_cons_intro m p :
  mh_wf m → Paged.rec_wf p → (p = [] ∨ chain_end p 0 = seq_start m) → Paged.rec_wf (m :: p).
Proof.
  intros ?? Hc. destruct p as [|m' p]; [done|]. split_and!; [done|done|].
  destruct Hc as [?|Hc]; [done|]. unfold can_concat, can_follow. simpl in Hc. lia.
Qed.
Lemma valid_rec_wf r bdy : Paged.valid r bdy → Paged.rec_wf r.
Proof. destruct r; [done|]. by intros (?&_). Qed.
Lemma valid_end r bdy : Paged.valid r bdy → bdy ≤ chain_end r bdy.
Proof. destruct r; simpl; [done|]. intros (_&?&_). lia. Qed.
(** The shape of a valid chain: either the head page contains the boundary, or
    the prior is a non-empty valid chain ending where the head begins. *)
Lemma valid_cons m p bdy : Paged.valid (m :: p) bdy →
  mh_wf m ∧ bdy < seq_end m ∧
  (seq_start m ≤ bdy ∨ (bdy < seq_start m ∧ p ≠ [] ∧ Paged.valid p bdy ∧ chain_end p bdy = seq_start m)).
Proof.
  intros (Hw&Hb&Hd). pose proof (rec_wf_cons _ _ Hw) as (Hm&Hp&Hc).
  split_and!; [done|done|]. destruct (decide (seq_start m ≤ bdy)); [by left|right].
  destruct Hd as [[]|[Hne Hv]]; [lia|]. split_and!; [lia|done|done|].
  destruct p; [done|]. destruct Hc; [done|]. done.
Qed.
Lemma valid_cons_here m p bdy :
  Paged.rec_wf (m :: p) → seq_start m ≤ bdy < seq_end m → Paged.valid (m :: p) bdy.
Proof. intros ??. split_and!; [done|lia|]. left. split; lia. Qed.
Lemma valid_cons_prior m p bdy :
  mh_wf m → p ≠ [] → Paged.valid p bdy → chain_end p bdy = seq_start m → bdy < seq_end m →
  Paged.valid (m :: p) bdy.
Proof.
  intros Hm Hne Hv He Hb. split_and!; [|done|by right]. apply rec_wf_cons_intro; [done|by eapply valid_rec_wf|].
  right. destruct p; [done|]. done.
Qed.
Lemma valid_cropped m p bdy :
  Paged.valid (m :: p) bdy → Paged.valid (Paged.cropped_prior m p bdy) bdy.
Proof.
  intros H%valid_cons. unfold Paged.cropped_prior. case_decide; [done|].
  destruct H as (_&_&[|(_&_&?&_)]); [lia|done].
Qed.

Lemma rec_i_wf r bdy : Paged.valid r bdy →
  mh_wf (rec_i r bdy) ∧ seq_start (rec_i r bdy) = bdy ∧ seq_end (rec_i r bdy) = chain_end r bdy.
Proof.
  induction r as [|m p IH]; intros Hv; [split_and!; try done; apply empty_history_wf|].
  apply valid_cons in Hv as (Hm&Hb&Hc). simpl. case_decide as Hd.
  - split_and!; [|done|done]. by apply do_wf.
  - destruct Hc as [?|(?&Hne&Hv&He)]; [lia|]. destruct (IH Hv) as (Hw&Hs&Hen).
    split_and!; [|done|done]. apply concat_wf; [done|done|].
    unfold can_concat, can_follow. lia.
Qed.

(** Moving the boundary forward inside the chain. *)
Lemma valid_newer r bdy lsn :
  Paged.valid r bdy → bdy ≤ lsn → lsn < chain_end r bdy → Paged.valid r lsn.
Proof.
  induction r as [|m p IH]; [done|]. intros Hv Hle Hlt. simpl in Hlt.
  destruct (decide (seq_start m ≤ lsn)) as [?|?].
  - apply valid_cons_here; [by eapply valid_rec_wf|lia].
  - pose proof (valid_cons _ _ _ Hv) as (Hm&Hb&[?|(?&Hne&Hv'&He)]); [lia|].
    apply valid_cons_prior; [done|done| |..]; [apply IH; [done|done|lia]| |lia].
    by destruct p.
Qed.
Lemma discard_rec_cons m p lsn : Paged.discard_old_journal_rec (m :: p) lsn =
  m :: (if decide (seq_start m ≤ lsn) then [] else Paged.discard_old_journal_rec p lsn).
Proof. done. Qed.
Lemma valid_discard r lsn : Paged.valid r lsn → Paged.valid (Paged.discard_old_journal_rec r lsn) lsn.
Proof.
  induction r as [|m p IH]; [done|]. intros Hv. rewrite discard_rec_cons. case_decide.
  - apply valid_cons in Hv as (Hm&Hb&_). by apply valid_cons_here.
  - apply valid_cons in Hv as (Hm&Hb&[?|(?&Hne&Hv&He)]); [lia|].
    apply valid_cons_prior; try done; [by destruct p|by apply IH|by destruct p].
Qed.
Lemma rec_i_discard_rec r lsn :
  rec_i (Paged.discard_old_journal_rec r lsn) lsn = rec_i r lsn ∨ ¬ Paged.valid r lsn.
Proof.
  induction r as [|m p IH]; [by left|]. simpl. destruct (decide (seq_start m ≤ lsn)) as [?|?].
  - destruct (decide (lsn ≤ seq_end m)).
    + left. by rewrite !decide_True.
    + right. intros Hv%valid_cons. destruct Hv as (_&?&_). lia.
  - rewrite !decide_False by lia. destruct IH as [->|Hn]; [by left|right].
    intros Hv%valid_cons. apply Hn. destruct Hv as (_&_&[?|(_&_&?&_)]); [lia|done].
Qed.
Lemma rec_i_newer r bdy lsn :
  Paged.valid r bdy → bdy ≤ lsn → lsn < chain_end r bdy →
  rec_i r lsn = discard_old (rec_i r bdy) lsn.
Proof.
  induction r as [|m p IH]; [simpl; lia|]. intros Hv Hle Hlt. simpl in Hlt |- *.
  apply valid_cons in Hv as (Hm&Hb&Hc).
  destruct (decide (seq_start m ≤ lsn ≤ seq_end m)) as [Hl|Hl].
  - destruct (decide (seq_start m ≤ bdy ≤ seq_end m)).
    + by rewrite do_do by lia.
    + destruct Hc as [|(?&Hne&Hv&He)]; [lia|].
      apply mh_eq; [done|done|]. intros x. rewrite !do_lookup, concat_lookup. simpl. case_decide; [|done].
      destruct (mh_wf_Some m x Hm) as [y ->]; [split; lia|done].
  - destruct Hc as [|(?&Hne&Hv&He)]; [lia|].
    rewrite decide_False by lia.
    rewrite IH; [|done|done|lia].
    destruct (rec_i_wf _ _ Hv) as (Hw&Hs&Hen).
    apply mh_eq; [done|done|]. intros x.
    rewrite do_lookup, !concat_lookup, do_lookup. simpl. destruct (msgs m !! x) eqn:E.
    + assert (is_Some (msgs m !! x)) as Hx by (by eexists). apply Hm in Hx. destruct Hx.
      rewrite decide_True by lia. done.
    + destruct Hm as [Hm1 Hm2]. repeat case_decide; try done; try lia.
      apply eq_None_not_Some in E. exfalso; apply E, Hm2. split; lia.
Qed.

Lemma can_crop_valid d r bdy : Paged.can_crop_head_records d r bdy → Paged.valid r bdy.
Proof. destruct r, d; simpl; tauto. Qed.
(** Dropping the newest pages keeps an initial part of the log. *)
Lemma crop_spec d : ∀ r bdy, Paged.can_crop_head_records d r bdy →
  Paged.valid (Paged.crop_head_records d r bdy) bdy ∧
  chain_end (Paged.crop_head_records d r bdy) bdy ≤ chain_end r bdy ∧
  rec_i (Paged.crop_head_records d r bdy) bdy =
    discard_recent (rec_i r bdy) (chain_end (Paged.crop_head_records d r bdy) bdy).
Proof.
  induction d as [|d IH]; intros r bdy Hc.
  - assert (Paged.crop_head_records 0 r bdy = r) as -> by (by destruct r).
    pose proof (can_crop_valid _ _ _ Hc) as Hv. split_and!; [done|done|].
    destruct (rec_i_wf _ _ Hv) as (Hw&Hs&<-). by rewrite dr_all.
  - destruct r as [|m p].
    { simpl in Hc; lia. }
    pose proof (can_crop_valid _ _ _ Hc) as Hv. destruct Hc as [_ Hc]. simpl.
    destruct (IH _ _ Hc) as (H1&H2&H3). split; [done|].
    pose proof (valid_cons _ _ _ Hv) as (Hm&Hb&Hd). unfold Paged.cropped_prior in *.
    destruct (decide (seq_start m ≤ bdy)) as [?|?].
    + assert (Paged.crop_head_records d [] bdy = []) as -> by (by destruct d). simpl.
      split; [lia|]. rewrite decide_True by lia.
      apply mh_eq; [done|done|]. intros x. rewrite dr_lookup, do_lookup. simpl.
      rewrite lookup_empty. repeat case_decide; try done; lia.
    + destruct Hd as [|(?&Hne&Hvp&He)]; [lia|].
      destruct (rec_i_wf _ _ Hvp) as (Hw&Hs&Hen). destruct Hm as [? ?].
      split; [lia|].
      rewrite decide_False by lia. rewrite H3. symmetry. apply dr_concat_l; [done| |lia].
      unfold can_concat, can_follow. lia.
Qed.
Lemma crop_nonempty d : ∀ r bdy, r ≠ [] → Paged.can_crop_head_records (S d) r bdy →
  Paged.crop_head_records d r bdy ≠ [] ∧ Paged.can_crop_head_records d r bdy.
Proof.
  induction d as [|d IH]; intros r bdy Hne Hc.
  - destruct r; [done|]. split; [done|]. destruct Hc as [? _]. by split.
  - destruct r as [|m p]; [done|]. destruct Hc as [Hv Hc]. 
    assert (Paged.cropped_prior m p bdy ≠ []) as Hcp.
    { intros E. rewrite E in Hc. simpl in Hc. lia. }
    destruct (IH _ _ Hcp Hc) as [? ?]. split; [done|]. by split.
Qed.

Lemma ptj_i_holds tj : Paged.tj_wf tj → paged_holds tj (ptj_i tj).
Proof.
  intros Hv. destruct tj as [bdy r]. unfold Paged.tj_wf, paged_holds, ptj_i in *; simpl in *.
  destruct (rec_i_wf _ _ Hv) as (Hw&Hs&He). split_and!; [done|done|]. clear Hw Hs He.
  induction r as [|m p IH]; intros lsn km; simpl.
  - rewrite lookup_empty. split; [done|]. intros (_&m&Hm&_). by apply elem_of_nil in Hm.
  - pose proof (valid_cons _ _ _ Hv) as (Hm&Hb&Hc).
    assert (∀ q, q ∈ m :: p → is_Some (msgs q !! lsn) → seq_start m ≤ bdy → bdy ≤ lsn → q = m) as Hold.
    { intros q [->|Hq]%elem_of_cons Hx Hsm Hl; [done|]. exfalso.
      apply valid_rec_wf in Hv. apply rec_wf_cons in Hv as (_&Hp&[->|Hce]); [by apply elem_of_nil in Hq|].
      assert (∀ p, Paged.rec_wf p → ∀ q, q ∈ p → mh_wf q ∧ seq_end q ≤ chain_end p 0) as Hall.
      { clear. induction p as [|m p IH]; intros Hp q Hq; [by apply elem_of_nil in Hq|].
        apply rec_wf_cons in Hp as (Hm&Hp&Hce). apply elem_of_cons in Hq as [->|Hq]; [done|].
        destruct (IH Hp _ Hq). split; [done|]. destruct Hce as [->|Hce]; [by apply elem_of_nil in Hq|].
        destruct Hm as [? _]. simpl. lia. }
      destruct (Hall _ Hp _ Hq) as [[_ Hq1] Hq2]. apply Hq1 in Hx. destruct Hx. lia. }
    case_decide as Hd.
    + rewrite do_lookup. split.
      * case_decide as Hd2; [|done]. intros E. split; [lia|]. exists m. split; [by left|done].
      * intros (Hl&q&Hq&E). assert (q = m) as ->.
        { apply Hold; [done|by eexists|lia|done]. }
        assert (is_Some (msgs m !! lsn)) as Hx by (by eexists). apply Hm in Hx. destruct Hx.
        by rewrite decide_True by lia.
    + destruct Hc as [|(Hsb&Hne&Hvp&He)]; [lia|].
      specialize (IH Hvp lsn km). rewrite concat_lookup.
      destruct (rec_i_wf _ _ Hvp) as (Hw&Hs&Hen).
      destruct (msgs m !! lsn) as [y|] eqn:E.
      * assert (is_Some (msgs m !! lsn)) as Hx by (by eexists). apply Hm in Hx. destruct Hx.
        split.
        { intros [= ->]. split; [lia|]. exists m. split; [by left|done]. }
        { intros (Hl&q&[->|Hq]%elem_of_cons&Eq); [congruence|]. exfalso.
          assert (msgs (rec_i p bdy) !! lsn = Some km) as Eb.
          { apply IH. split; [done|]. by exists q. }
          assert (is_Some (msgs (rec_i p bdy) !! lsn)) as Hy by (by eexists).
          apply Hw in Hy. destruct Hy. lia. }
      * rewrite IH. split.
        { intros (?&q&?&?). split; [done|]. exists q. split; [by right|done]. }
        { intros (?&q&[->|Hq]%elem_of_cons&?); [congruence|]. split; [done|]. by exists q. }
Qed.
Lemma paged_holds_det tj h h' : paged_holds tj h → paged_holds tj h' → h = h'.
Proof.
  intros (?&?&H1) (?&?&H2). apply mh_eq; [congruence|congruence|]. intros lsn.
  destruct (msgs h !! lsn) as [x|] eqn:E.
  - apply H1, H2 in E. by rewrite E.
  - destruct (msgs h' !! lsn) as [x|] eqn:E'; [|done]. apply H2, H1 in E'. congruence.
Qed.

Lemma ptj_i_wf tj : Paged.tj_wf tj →
  mh_wf (ptj_i tj) ∧ seq_start (ptj_i tj) = Paged.boundary_lsn tj ∧
  seq_end (ptj_i tj) = Paged.tj_seq_end tj.
Proof. intros Hv. by apply (rec_i_wf _ _ Hv). Qed.
Lemma ptj_discard tj lsn : Paged.tj_wf tj → Paged.tj_can_discard_to tj lsn →
  Paged.tj_wf (Paged.discard_old_defn tj lsn) ∧
  Paged.tj_seq_end (Paged.discard_old_defn tj lsn) = Paged.tj_seq_end tj ∧
  ptj_i (Paged.discard_old_defn tj lsn) = discard_old (ptj_i tj) lsn.
Proof.
  intros Hv [Hl Hu]. destruct tj as [bdy r]. unfold Paged.discard_old_defn, Paged.tj_wf, ptj_i in *.
  simpl in *. destruct (rec_i_wf _ _ Hv) as (Hw&Hs&He).
  change (Paged.tj_seq_end (Paged.mkTJ bdy r)) with (chain_end r bdy) in *.
  unfold Paged.tj_seq_start in Hl; simpl in Hl.
  case_decide as Hd; simpl.
  - split_and!; [done|done|]. apply mh_eq; [done|simpl; lia|]. intros x. rewrite do_lookup.
    simpl. rewrite lookup_empty, He. case_decide; [lia|done].
  - assert (Paged.valid r lsn) as Hvl by (eapply valid_newer; [done|done|lia]).
    split_and!.
    + by apply valid_discard.
    + unfold Paged.tj_seq_end. destruct r; [simpl in *; lia|done].
    + destruct (rec_i_discard_rec r lsn) as [->|?]; [|done]. apply rec_i_newer; [done|done|lia].
Qed.

Lemma paged_next_refines pre post l :
  Paged.wf pre → Paged.next pre post l →
  Paged.wf post ∧ AbstractJournal.next (paged_i pre) (paged_i post) (paged_lbl l).
Proof.
  intros (Hv&Hw&He) Hn.
  destruct (ptj_i_wf _ Hv) as (Hiw&His&Hie).
  assert (can_concat (ptj_i (Paged.truncated_journal pre)) (Paged.unmarshalled_tail pre)) as Hcc.
  { unfold can_concat, can_follow. congruence. }
  assert (AbstractJournal.wf (paged_i pre)) as Hawf by (by apply concat_wf).
  assert (Paged.wf pre) as Hpre by done.
  destruct Hn as [[d Hn]|[[d Hn]|[Hn|[Hn|[Hn|[[cut Hn]|Hn]]]]]].
  - destruct Hn as (_&m&->&Hmw&(Hne&Hcan&Hm)&->). split; [done|]. left.
    split; [done|]. exists m. split_and!; [done| |done].
    destruct (crop_nonempty _ _ _ Hne Hcan) as [_ Hcan'].
    destruct (crop_spec _ _ _ Hcan') as (Hcv&Hce&Hci).
    destruct (Paged.crop_head_records _ _ _) as [|x p] eqn:Ec; [done|].
    simpl in Hce. set (bdy := Paged.boundary_lsn (Paged.truncated_journal pre)) in *.
    assert (chain_end (Paged.freshest_rec (Paged.truncated_journal pre)) bdy
            = seq_end (ptj_i (Paged.truncated_journal pre))) as Ece by (by rewrite Hie).
    pose proof (valid_cons _ _ _ Hcv) as (Hxw&Hxb&Hxc).
    destruct Hw as [Hwle Hwl].
    split_and!; simpl.
    + subst m. unfold maybe_discard_old. case_decide; simpl; rewrite His; lia.
    + subst m. unfold maybe_discard_old. case_decide; simpl; lia.
    + intros lsn Hl. assert (seq_start x `max` bdy ≤ lsn < seq_end x ∧ msgs m !! lsn = msgs x !! lsn) as [Hlr Hml].
      { subst m. unfold maybe_discard_old in *. destruct (decide (seq_start x ≤ bdy)).
        - unfold mh_contains in Hl; simpl in Hl. split; [lia|]. rewrite do_lookup. by rewrite decide_True by lia.
        - unfold mh_contains in Hl. split; [lia|done]. }
      split; [split; simpl; [rewrite His; lia|lia]|].
      change (msgs (mh_concat (ptj_i (Paged.truncated_journal pre)) (Paged.unmarshalled_tail pre)) !! lsn = msgs m !! lsn).
      rewrite concat_lookup.
      rewrite (mh_wf_None (Paged.unmarshalled_tail pre)) by (by split || (unfold mh_contains; lia)).
      rewrite Hml.
      assert (msgs (rec_i (x :: p) bdy) !! lsn = msgs (ptj_i (Paged.truncated_journal pre)) !! lsn) as Hpp.
      { rewrite Hci, dr_lookup. simpl. unfold ptj_i in His. rewrite decide_True; [done|].
        fold bdy in His. rewrite His. lia. }
      rewrite <- Hpp. simpl. case_decide.
      * rewrite do_lookup. by rewrite decide_True by lia.
      * rewrite concat_lookup. destruct (mh_wf_Some x lsn Hxw) as [y ->]; [split; lia|done].
  - destruct Hn as (fj&->&(Hfw&Hcan&Hcd&Hfj)&->). split; [done|]. right; left.
    split; [done|]. eexists. split_and!; [done|by apply ptj_i_wf| |done].
    destruct (crop_spec _ _ _ Hcan) as (Hcv&Hce&Hci).
    set (ctj := Paged.tj_crop (Paged.truncated_journal pre) d) in *.
    destruct (ptj_discard ctj (Paged.boundary_lsn fj)) as (_&Hde&Hdi); [done|done|].
    rewrite <- Hfj in Hde, Hdi. rewrite Hdi.
    assert (ptj_i ctj = discard_recent (ptj_i (Paged.truncated_journal pre)) (Paged.tj_seq_end ctj)) as -> by done.
    destruct Hcd as [Hcd1 Hcd2]. destruct (ptj_i_wf fj Hfw) as (_&_&Hfe).
    assert (Paged.tj_seq_end ctj ≤ Paged.tj_seq_end (Paged.truncated_journal pre)) as Hle by done.
    rewrite <- (dr_concat_l _ (Paged.unmarshalled_tail pre)); [|done|done|by rewrite Hie].
    change (mh_concat (ptj_i (Paged.truncated_journal pre)) (Paged.unmarshalled_tail pre))
      with (AbstractJournal.journal (paged_i pre)).
    apply includes_slice_inv; [done| |].
    + simpl. rewrite His. unfold Paged.tj_seq_start in Hcd1. simpl in Hcd1. lia.
    + simpl. destruct Hw. lia.
  - destruct Hn as (->&->). split; [done|]. do 2 right; left. split; [done|]. by eexists.
  - destruct Hn as (m&->&Hmw&Hms&->). 
    assert (can_concat (Paged.unmarshalled_tail pre) m) as Hc2 by done.
    split.
    { split_and!; [done| |done]. by apply concat_wf. }
    do 3 right; left. split; [done|]. exists m. split_and!; [done|by simpl|].
    unfold paged_i. simpl. by rewrite concat_assoc.
  - destruct Hn as (lsn&rend&->&Hb&Hre&->). unfold Paged.st_start, Paged.st_end in *.
    assert (can_discard_to (AbstractJournal.journal (paged_i pre)) lsn) as Hcd.
    { split; simpl; [rewrite His|]; lia. }
    case_decide as Hd.
    + split.
      { split_and!; [done| |done]. apply do_wf; [done|]. split; lia. }
      do 4 right; left. split; [done|]. exists lsn, rend. split_and!; [done|done|done|].
      unfold paged_i; simpl. f_equal. apply mh_eq; [done|done|]. intros x.
      rewrite concat_lookup, !do_lookup, concat_lookup. simpl. rewrite lookup_empty.
      case_decide as Hx; [|done]. destruct (mh_wf_Some _ x Hw) as [y ->]; [split; lia|done].
    + destruct (ptj_discard (Paged.truncated_journal pre) lsn) as (Hdw&Hde&Hdi); [done|split; [unfold Paged.tj_seq_start|]; lia|].
      split.
      { split_and!; [done|done|]. simpl. congruence. }
      do 4 right; left. split; [done|]. exists lsn, rend. split_and!; [done|done|done|].
      unfold paged_i; simpl. f_equal. rewrite Hdi. apply mh_eq; [done|done|]. intros x.
      rewrite concat_lookup, !do_lookup, concat_lookup. simpl. destruct Hw as [Hw1 Hw2].
      destruct (msgs (Paged.unmarshalled_tail pre) !! x) eqn:E.
      * assert (is_Some (msgs (Paged.unmarshalled_tail pre) !! x)) as Hx by (by eexists).
        apply Hw2 in Hx. destruct Hx. by rewrite decide_True by lia.
      * repeat case_decide; try done; try lia.
        exfalso. apply eq_None_not_Some in E. apply E, Hw2. split; lia.
  - destruct Hn as (->&Hc1&Hc2&->).
    assert (mh_wf (discard_recent (Paged.unmarshalled_tail pre) cut)) as Hdw by (by apply dr_wf).
    assert (Paged.tj_wf (Paged.append_record (Paged.truncated_journal pre)
              (discard_recent (Paged.unmarshalled_tail pre) cut))) as Haw.
    { change (Paged.valid (discard_recent (Paged.unmarshalled_tail pre) cut ::
         Paged.freshest_rec (Paged.truncated_journal pre)) (Paged.boundary_lsn (Paged.truncated_journal pre))).
      unfold Paged.tj_wf in Hv. unfold Paged.tj_seq_end in He.
      destruct (Paged.freshest_rec (Paged.truncated_journal pre)) as [|x p] eqn:E.
      - apply valid_cons_here; [by split|]. simpl. lia.
      - apply valid_cons_prior; [done|done|done|done|]. apply valid_end in Hv. simpl in Hv. simpl. lia. }
    split.
    { split_and!; [done|by apply do_wf|done]. }
    do 5 right. split; [done|]. split; [done|].
    unfold paged_i; simpl. f_equal.
    assert (ptj_i (Paged.append_record (Paged.truncated_journal pre) (discard_recent (Paged.unmarshalled_tail pre) cut))
            = mh_concat (ptj_i (Paged.truncated_journal pre)) (discard_recent (Paged.unmarshalled_tail pre) cut)) as ->.
    { unfold ptj_i; simpl. case_decide as Hd; [|done].
      (* the boundary is where the tail starts: the chain was empty *)
      pose proof (valid_end _ _ Hv) as Hve.
      change (chain_end (Paged.freshest_rec (Paged.truncated_journal pre)) (Paged.boundary_lsn (Paged.truncated_journal pre)))
        with (Paged.tj_seq_end (Paged.truncated_journal pre)) in Hve.
      assert (Paged.boundary_lsn (Paged.truncated_journal pre) = seq_start (Paged.unmarshalled_tail pre)) as Eb by lia.
      assert (Paged.freshest_rec (Paged.truncated_journal pre) = []) as Er.
      { unfold Paged.tj_wf in Hv. unfold Paged.tj_seq_end in He.
        destruct (Paged.freshest_rec (Paged.truncated_journal pre)) as [|x p]; [done|].
        apply valid_cons in Hv as (_&?&_). lia. }
      rewrite Er. simpl. apply mh_eq; [done|done|]. intros x.
      rewrite do_lookup, concat_lookup, !dr_lookup. simpl. rewrite lookup_empty.
      repeat case_decide; try done; try lia. by destruct (msgs _ !! x). }
    rewrite concat_assoc. by rewrite concat_split.
  - destruct Hn as (->&->). split; [done|]. by do 5 right.
Qed.

Lemma paged_init_refines s tj :
  Paged.initialize s tj → Paged.wf s ∧ AbstractJournal.initialize (paged_i s) (ptj_i tj).
Proof.
  intros [Hv ->]. destruct (ptj_i_wf _ Hv) as (Hiw&His&Hie). split.
  { split_and!; [done|apply empty_history_wf|done]. }
  split; [done|]. unfold paged_i; simpl. f_equal. rewrite <- Hie.
  apply mh_eq; [done|done|]. intros x. rewrite concat_lookup. simpl. by rewrite lookup_empty.
Qed.

Lemma paged_event_lbl pre post l :
  Paged.wf pre → Paged.next pre post l → paged_event l (paged_lbl l).
Proof.
  intros Hw Hn. destruct l; simpl; try done. eexists. split; [done|]. apply ptj_i_holds.
  destruct Hn as [[d Hn]|[[d Hn]|[Hn|[Hn|[Hn|[[cut Hn]|Hn]]]]]].
  - by destruct Hn as (_&m&?&_).
  - by destruct Hn as (fj&[= ->]&(Hfw&_)&_).
  - by destruct Hn.
  - by destruct Hn as (m&?&_).
  - by destruct Hn as (m&?&?&_).
  - by destruct Hn.
  - by destruct Hn.
Qed.

Lemma paged_run s0 ls s :
  Paged.wf s0 → run Paged.next s0 ls s →
  Paged.wf s ∧ run AbstractJournal.next (paged_i s0) (paged_lbl <$> ls) (paged_i s) ∧
  Forall2 paged_event ls (paged_lbl <$> ls).
Proof.
  intros Hw Hr. induction Hr as [|s0 ls s1 l s2 Hr IH Hn]; [split_and!; [done|constructor|constructor]|].
  destruct IH as (Hw1&Hr1&Hf); [done|]. destruct (paged_next_refines _ _ _ Hw1 Hn) as [Hw2 Hn2].
  split_and!; [done| |].
  - rewrite fmap_app. simpl. by eapply run_snoc.
  - rewrite fmap_app. apply Forall2_app; [done|]. constructor; [|constructor]. exact (paged_event_lbl _ _ _ Hw1 Hn).
Qed.

Lemma paged_faithful tj0 s0 ls s :
  Paged.initialize s0 tj0 → run Paged.next s0 ls s →
  ∃ h0 a0 als a, paged_holds tj0 h0 ∧ AbstractJournal.initialize a0 h0 ∧
    run AbstractJournal.next a0 als a ∧ Forall2 paged_event ls als ∧
    paged_journal_is s (AbstractJournal.journal a).
Proof.
  intros Hi Hr. pose proof (paged_init_refines _ _ Hi) as [Hw Hai].
  destruct (paged_run _ _ _ Hw Hr) as (Hws&Hra&Hf).
  eexists _, _, _, _. split_and!; [|done|done|done|].
  - apply ptj_i_holds. by destruct Hi.
  - eexists. split; [apply ptj_i_holds; apply Hws|done].
Qed.
