(** Proofs: the linked journal refines the paged journal (C12). *)
From Verif Require Import Abs_Model Abs_Spec Abs_Proof Spec_Proof Journal_Model Journal_Spec Paged_Proof.

(** The pages met when following links from a pointer, freshest first. *)
Inductive path (dv : DiskView) : Pointer → list (Address * JournalRecord) → Prop :=
  | path_nil : path dv None []
  | path_cons a r l : entries dv !! a = Some r →
      path dv (Linked.cropped_prior r (boundary_lsn dv)) l → path dv (Some a) ((a, r) :: l).
Notation seqs l := ((λ x : Address * JournalRecord, message_seq x.2) <$> l).

Lemma path_det dv ptr l l' : path dv ptr l → path dv ptr l' → l = l'.
Proof.
  intros H. revert l'. induction H as [|a r l He Hp IH]; intros l' H'; inversion H'; subst; [done|].
  simplify_eq. f_equal. by apply IH.
Qed.

(** Existence from a ranking. *)
Lemma path_exists_rank dv rk : Linked.valid_ranking dv rk → Linked.nondangling_pointers dv →
  ∀ n ptr, Linked.is_nondangling_pointer dv ptr →
    (∀ a x, ptr = Some a → rk !! a = Some x → x < n) → ∃ l, path dv ptr l.
Proof.
  intros [Hd Hr] Hnd. induction n as [|n IH]; intros [a|] Hp Hn; [|eexists; constructor| |eexists; constructor].
  - destruct (Hp a eq_refl) as [r He].
    assert (a ∈ dom rk) as Hin by (apply Hd; apply elem_of_dom; by eexists).
    apply elem_of_dom in Hin as [x Hx]. specialize (Hn a x eq_refl Hx). lia.
  - destruct (Hp a eq_refl) as [r He].
    destruct (IH (Linked.cropped_prior r (boundary_lsn dv))) as [l Hl].
    + by eapply Hnd.
    + intros p x Hpp Hx. destruct (Hr _ _ _ He Hpp) as (x'&y&Hx'&Hy&Hlt). simplify_eq.
      specialize (Hn a y eq_refl Hy). lia.
    + exists ((a, r) :: l). by constructor.
Qed.
Lemma path_exists dv ptr : Linked.dv_wf dv → Linked.acyclic dv → Linked.is_nondangling_pointer dv ptr →
  ∃ l, path dv ptr l.
Proof.
  intros (_&Hnd&_) [rk Hrk] Hp. destruct ptr as [a|]; [|eexists; constructor].
  destruct (rk !! a) as [x|] eqn:E.
  - eapply (path_exists_rank _ _ Hrk Hnd (S x)); [done|]. intros ? ? [= <-] ?. simplify_eq. lia.
  - exfalso. apply not_elem_of_dom in E. apply E. destruct (Hp a eq_refl). apply Hrk. apply elem_of_dom. by eexists.
Qed.

Lemma path_reaches dv ptr l : path dv ptr l → ∀ a, reaches dv ptr a ↔ ∃ r, (a, r) ∈ l.
Proof.
  induction 1 as [|a r l He Hp IH]; intros b.
  - split; [by inversion 1|]. intros [r Hr]. by apply elem_of_nil in Hr.
  - split.
    + inversion 1 as [? Hs|? r' ? He' Hlt Hre]; subst.
      * exists r. by left.
      * simplify_eq. unfold Linked.cropped_prior in *. rewrite decide_True in IH by done.
        apply IH in Hre as [r' ?]. exists r'. by right.
    + intros [r' [Heq|Hin]%elem_of_cons].
      * simplify_eq. apply reaches_here. by eexists.
      * eapply reaches_prior; [done| |].
        { unfold Linked.cropped_prior in Hp. case_decide; [done|]. inversion Hp; subst. by apply elem_of_nil in Hin. }
        { assert (reaches dv (Linked.cropped_prior r (boundary_lsn dv)) b) as Hb by (apply IH; by eexists).
          unfold Linked.cropped_prior in Hb. case_decide; [done|]. by inversion Hb. }
Qed.
Lemma path_entries dv ptr l : path dv ptr l → ∀ a r, (a, r) ∈ l → entries dv !! a = Some r.
Proof.
  induction 1 as [|a r l He Hp IH]; intros b r'; [intros H; by apply elem_of_nil in H|].
  intros [Heq|Hin]%elem_of_cons; [by simplify_eq|]. by apply IH.
Qed.
(** A suffix of a path is the path of its head. *)
Lemma path_suffix dv ptr l k : path dv ptr l → ∀ a r, l !! k = Some (a, r) → path dv (Some a) (drop k l).
Proof.
  intros H. revert k. induction H as [|a r l He Hp IH]; intros [|k] b r' Hk; simpl in *; try done.
  - simplify_eq. by constructor.
  - by eapply IH.
Qed.
Lemma path_nodup dv ptr l : path dv ptr l → NoDup l.*1.
Proof.
  induction 1 as [|a r l He Hp IH]; [constructor|]. simpl. constructor; [|done].
  intros Hin. apply elem_of_list_fmap in Hin as ([b r']&Heq&Hin). simpl in Heq. subst b.
  apply elem_of_list_lookup in Hin as [k Hk].
  pose proof (path_suffix _ _ _ _ Hp _ _ Hk) as Hs.
  assert (path dv (Some a) ((a, r) :: l)) as Hfull by (by constructor).
  pose proof (path_det _ _ _ _ Hs Hfull) as E. apply (f_equal length) in E.
  rewrite drop_length in E. simpl in E. lia.
Qed.
Lemma path_length dv ptr l : path dv ptr l → length l ≤ Linked.fuel_of dv.
Proof.
  intros Hp. unfold Linked.fuel_of.
  assert ((list_to_set l.*1 : gset Address) ⊆ dom (entries dv)) as Hsub.
  { intros a [[b r] [-> Hin]]%elem_of_list_to_set%elem_of_list_fmap. apply elem_of_dom.
    exists r. by eapply path_entries. }
  apply subseteq_size in Hsub. rewrite size_dom in Hsub.
  rewrite size_list_to_set, fmap_length in Hsub by (by eapply path_nodup). done.
Qed.
(** [build_tight] keeps exactly the pages on the path. *)
Lemma build_tight_path dv ptr l : path dv ptr l →
  ∀ n, length l ≤ n → Linked.build_tight_fuel n dv ptr = list_to_map l.
Proof.
  induction 1 as [|a r l He Hp IH]; intros n Hn; [by destruct n|].
  destruct n as [|n]; simpl in Hn; [lia|]. simpl. rewrite He. f_equal. rewrite IH by lia. done.
Qed.
Lemma build_tight_entries dv ptr l : path dv ptr l →
  entries (Linked.dv_build_tight dv ptr) = list_to_map l.
Proof. intros Hp. simpl. apply (build_tight_path _ _ _ Hp). by eapply path_length. Qed.
Lemma path_in_map dv ptr l : path dv ptr l → ∀ a r, (a, r) ∈ l ↔ (list_to_map l : gmap Address JournalRecord) !! a = Some r.
Proof. intros Hp a r. apply elem_of_list_to_map. by eapply path_nodup. Qed.

(** A view with the same boundary holding all pages of the path has the path. *)
Lemma path_transfer dv dv' ptr l : path dv ptr l → boundary_lsn dv' = boundary_lsn dv →
  (∀ a r, (a, r) ∈ l → entries dv' !! a = Some r) → path dv' ptr l.
Proof.
  intros H Hb. induction H as [|a r l He Hp IH]; intros Hin; [constructor|].
  constructor; [apply Hin; by left|]. rewrite Hb. apply IH. intros b r' ?. apply Hin. by right.
Qed.

(** Raising the boundary cuts the path. *)
Lemma path_discard dv ptr l lsn : path dv ptr l → boundary_lsn dv ≤ lsn →
  ∃ l', path (Linked.dv_discard_old dv lsn) ptr l' ∧ l' `prefix_of` l ∧
    seqs l' = Paged.discard_old_journal_rec (seqs l) lsn.
Proof.
  intros H Hb. induction H as [|a r l He Hp IH].
  - exists []. split_and!; [constructor|done|done].
  - destruct IH as (l'&Hp'&Hpre&Hs).
    destruct (decide (seq_start (message_seq r) ≤ lsn)) as [Hle|Hgt].
    + exists [(a, r)]. split_and!.
      * constructor; [done|]. simpl. unfold Linked.cropped_prior. rewrite decide_False by lia. constructor.
      * by exists l.
      * simpl. by rewrite decide_True.
    + exists ((a, r) :: l'). split_and!.
      * constructor; [done|]. unfold Linked.cropped_prior in *. simpl.
        rewrite decide_True in Hp' by lia. by rewrite decide_True by lia.
      * by apply prefix_cons.
      * simpl. rewrite decide_False by done. by f_equal.
Qed.

(** Well-formed views give valid chains. *)
Lemma path_valid dv ptr l : Linked.dv_wf dv → path dv ptr l → Linked.block_in_bounds dv ptr →
  Paged.valid (seqs l) (boundary_lsn dv) ∧ chain_end (seqs l) (boundary_lsn dv) = Linked.dv_seq_end dv ptr.
Proof.
  intros (Hew&Hnd&Hcc&Hlk) Hp. induction Hp as [|a r l He Hp IH]; intros [Hbn Hbb]; [done|].
  pose proof (Hew _ _ He) as [Hrw _]. pose proof (Hbb _ _ eq_refl He) as Hlt.
  split; [|simpl; by rewrite He].
  change (Paged.valid (message_seq r :: seqs l) (boundary_lsn dv)).
  destruct (decide (boundary_lsn dv < seq_start (message_seq r))) as [Hs|Hs].
  - destruct (Hlk _ _ He Hs) as [p Hcp]. rewrite Hcp in Hp, IH.
    inversion Hp as [|? q l' Hq Hl']; subst.
    pose proof (Hcc _ _ He _ _ Hcp Hq) as Hcan. unfold can_concat, can_follow in Hcan.
    destruct IH as [IHv IHe].
    { split; [intros ? [= <-]; by eexists|]. intros ? ? [= <-] Hq'. simplify_eq. lia. }
    apply valid_cons_prior; try done.
  - assert (l = []) as -> by (unfold Linked.cropped_prior in Hp; rewrite decide_False in Hp by done; by inversion Hp).
    apply valid_cons_here; [by split|lia].
Qed.

Lemma can_crop_path dv ptr l d : Linked.dv_wf dv → path dv ptr l → Linked.block_in_bounds dv ptr →
  Linked.dv_can_crop dv ptr d →
  path dv (Linked.pointer_after_crop dv ptr d) (drop d l) ∧
  Linked.block_in_bounds dv (Linked.pointer_after_crop dv ptr d) ∧
  Paged.can_crop_head_records d (seqs l) (boundary_lsn dv) ∧
  Paged.crop_head_records d (seqs l) (boundary_lsn dv) = seqs (drop d l).
Proof.
  intros Hw. revert ptr l. induction d as [|d IH]; intros ptr l Hp Hb Hc.
  - simpl. rewrite drop_0. pose proof (path_valid _ _ _ Hw Hp Hb) as [Hv _].
    split_and!; [done|done| |by destruct l]. destruct l; [done|]. by split.
  - pose proof (path_valid _ _ _ Hw Hp Hb) as [Hv _].
    destruct Hc as [[a ->] Hc]. inversion Hp as [|? r l' He Hp']; subst.
    simpl in Hc. rewrite He in Hc.
    assert (Linked.block_in_bounds dv (Linked.cropped_prior r (boundary_lsn dv))) as Hb'.
    { destruct Hw as (Hew&Hnd&Hcc&Hlk). split; [by eapply Hnd|]. intros p q Hcp Hq.
      pose proof (Hcc _ _ He _ _ Hcp Hq) as Hcan. unfold can_concat, can_follow in Hcan.
      unfold Linked.cropped_prior in Hcp. case_decide; [|done]. lia. }
    destruct (IH _ _ Hp' Hb' Hc) as (H1&H2&H3&H4).
    assert (Paged.cropped_prior (message_seq r) (seqs l') (boundary_lsn dv) = seqs l') as Ecp.
    { unfold Paged.cropped_prior. case_decide; [|done]. unfold Linked.cropped_prior in Hp'.
      rewrite decide_False in Hp' by lia. by inversion Hp'. }
    simpl Linked.pointer_after_crop. rewrite He. split_and!; [done|done| |].
    + change (Paged.valid (message_seq r :: seqs l') (boundary_lsn dv) ∧
        Paged.can_crop_head_records d (Paged.cropped_prior (message_seq r) (seqs l') (boundary_lsn dv)) (boundary_lsn dv)).
      by rewrite Ecp.
    + change (Paged.crop_head_records d (Paged.cropped_prior (message_seq r) (seqs l') (boundary_lsn dv))
        (boundary_lsn dv) = seqs (drop d l')). by rewrite Ecp.
Qed.

(** *** Simulation relation *)
Definition ltj_rel (tj : TruncatedJournal) (p : Paged.TruncatedJournal) : Prop :=
  ∃ l, path (disk_view tj) (freshest_rec tj) l ∧
    p = Paged.mkTJ (boundary_lsn (disk_view tj)) (seqs l).
Definition linked_rel (s : Linked.State) (p : Paged.State) : Prop :=
  ltj_rel (Linked.truncated_journal s) (Paged.truncated_journal p) ∧
  Paged.unmarshalled_tail p = Linked.unmarshalled_tail s.
Definition linked_lbl_rel (l : Linked.Label) (p : Paged.Label) : Prop :=
  match l with
  | Linked.ReadForRecovery m => p = Paged.ReadForRecovery m
  | Linked.FreezeForCommit tj => ∃ ptj, p = Paged.FreezeForCommit ptj ∧ ltj_rel tj ptj ∧ Linked.tj_wf tj
  | Linked.QueryEndLsn n => p = Paged.QueryEndLsn n
  | Linked.Put m => p = Paged.Put m
  | Linked.DiscardOld x y => p = Paged.DiscardOld x y
  | Linked.Internal => p = Paged.Internal
  end.
Definition linked_inv (s : Linked.State) : Prop :=
  Linked.wf s ∧ Linked.acyclic (disk_view (Linked.truncated_journal s)).

Lemma ltj_rel_facts tj p : Linked.tj_wf tj → ltj_rel tj p →
  Paged.tj_wf p ∧ Paged.tj_seq_end p = Linked.tj_seq_end tj ∧
  Paged.boundary_lsn p = boundary_lsn (disk_view tj).
Proof.
  intros [Hw Hb] (l&Hp&->). destruct (path_valid _ _ _ Hw Hp Hb) as [Hv He]. done.
Qed.
Lemma ltj_rel_exists tj : Linked.tj_decodable tj → ∃ p, ltj_rel tj p.
Proof.
  intros [[Hw Hb] Hac]. destruct (path_exists _ (freshest_rec tj) Hw Hac) as [l Hl]; [apply Hb|].
  eexists _, l. split; done.
Qed.
Lemma paged_linked_holds tj p h : Linked.tj_wf tj → ltj_rel tj p → paged_holds p h → linked_holds tj h.
Proof.
  intros [Hw Hb] (l&Hp&->) (Hs&He&Hm). simpl in *. split_and!; [done| |].
  - inversion Hp as [Hn|a r l' Hr Hl' Hn]; subst; simpl in *; [done|]. by exists r.
  - intros lsn km. rewrite Hm. split.
    + intros (Hle&m&Hin&Hk). split; [done|]. apply elem_of_list_fmap in Hin as ([a r]&->&Hin).
      exists a, r. split_and!; [|by eapply path_entries|done].
      apply (path_reaches _ _ _ Hp). by exists r.
    + intros (Hle&a&r&Hr&Ha&Hk). split; [done|]. apply (path_reaches _ _ _ Hp) in Hr as [r' Hin].
      pose proof (path_entries _ _ _ Hp _ _ Hin). simplify_eq.
      exists (message_seq r). split; [|done]. apply elem_of_list_fmap. by exists (a, r).
Qed.

Lemma acyclic_sub tj lsn new : Linked.acyclic (disk_view tj) → boundary_lsn (disk_view tj) ≤ lsn →
  Linked.is_sub_disk (disk_view new) (disk_view (Linked.tj_discard_old tj lsn)) →
  Linked.acyclic (disk_view new).
Proof.
  intros [rk [Hd Hr]] Hle [Hb Hs]. simpl in *. exists rk. split.
  - intros a [r Ha]%elem_of_dom. apply Hd, elem_of_dom. exists r. by eapply lookup_weaken.
  - intros a r p Ha Hc. apply (Hr a r p); [by eapply lookup_weaken|].
    unfold Linked.cropped_prior in *. rewrite <- Hb in Hc. case_decide; [|done]. by rewrite decide_True by lia.
Qed.

(** Truncating: the new view's chain is the truncated chain. *)
Lemma valid_discard_rel tj p lsn new : Linked.tj_wf tj → Linked.acyclic (disk_view tj) →
  ltj_rel tj p → Linked.tj_can_discard_to tj lsn → Linked.valid_discard_old tj lsn new →
  ltj_rel new (Paged.discard_old_defn p lsn) ∧ Linked.acyclic (disk_view new).
Proof.
  intros Hw Hac Hrel [Hl Hu] (Hnw&Hnf&Hsub&Htight).
  pose proof (ltj_rel_facts _ _ Hw Hrel) as (Hpw&Hpe&Hpb).
  split; [|by eapply acyclic_sub].
  destruct Hrel as (l&Hp&->). unfold Paged.discard_old_defn. rewrite Hpe. simpl.
  destruct Hsub as [Hb Hs]. simpl in Hb, Hs.
  unfold Linked.tj_discard_old in *. simpl in *.
  unfold Linked.tj_seq_start in Hl.
  case_decide as Hd.
  - exists []. rewrite Hnf. split; [constructor|]. by rewrite Hb.
  - destruct (path_discard _ _ _ lsn Hp Hl) as (l'&Hp'&Hpre&Heq).
    exists l'. rewrite Hnf. split; [|by rewrite <- Hb, Heq].
    eapply path_transfer; [done|done|]. intros a r Hin.
    destruct Htight as [_ Ht]. simpl in Ht.
    eapply lookup_weaken; [|exact Ht].
    pose proof (build_tight_entries _ _ _ Hp') as Hbt. simpl in Hbt. rewrite Hbt.
    by apply (path_in_map _ _ _ Hp').
Qed.

Lemma linked_next_sim pre post l p : linked_inv pre → linked_rel pre p → Linked.next pre post l →
  linked_inv post ∧ ∃ p' pl, linked_rel post p' ∧ Paged.next p p' pl ∧ linked_lbl_rel l pl.
Proof.
  intros [Hwf Hac] [Hrel Hut] Hn.
  pose proof Hwf as (Htw&Hmw&Hse&Hee).
  pose proof (ltj_rel_facts _ _ Htw Hrel) as (Hpw&Hpe&Hpb).
  assert (Paged.wf p) as Hpwf.
  { split_and!; [done|by rewrite Hut|]. rewrite Hut, Hpe. done. }
  destruct Hn as [[d Hn]|[[d Hn]|[Hn|[Hn|[[new Hn]|[(cut&a&Hn)|Hn]]]]]].
  - destruct Hn as (_&m&->&Hm&_&Hc&a&r&Ha&Hr&Hmd&->). split; [done|].
    exists p, (Paged.ReadForRecovery m). split_and!; [done| |done].
    left. exists d. split; [done|]. exists m. split_and!; [done|done| |done].
    destruct Hrel as (pl&Hp&Heq). destruct Htw as [Hdw Hdb].
    destruct (can_crop_path _ _ _ (S d) Hdw Hp Hdb) as (H1&H2&H3&H4).
    { clear -Hc Ha Hr. revert Hc Ha. generalize (freshest_rec (Linked.truncated_journal pre)). 
      induction d as [|d IH]; intros ptr; simpl; [by intros _ ->; split|].
      intros [? ?] ?. split; [done|]. by apply IH. }
    destruct (can_crop_path _ _ _ d Hdw Hp Hdb Hc) as (G1&G2&G3&G4).
    rewrite Heq. unfold Paged.has_messages_at_depth; simpl. rewrite G4.
    assert (∃ l', drop d pl = (a, r) :: l') as [l' Hx].
    { rewrite Ha in G1. remember (drop d pl) as dl. inversion G1 as [|? r' l' Hr' Hl']. simplify_eq. by eexists. }
    rewrite Hx. split_and!; [|done|done]. destruct pl; [by rewrite drop_nil in Hx|done].
  - destruct Hn as (_&fj&->&Hfd&_&Hc&Hle&Hcd&Hvd&->). split; [done|].
    destruct Hrel as (pl&Hp&Heq). destruct Htw as [Hdw Hdb].
    destruct (can_crop_path _ _ _ d Hdw Hp Hdb Hc) as (G1&G2&G3&G4).
    set (ctj := Linked.tj_crop (Linked.truncated_journal pre) d) in *.
    assert (Linked.tj_wf ctj) as Hcw by done.
    assert (ltj_rel ctj (Paged.tj_crop (Paged.truncated_journal p) d)) as Hcr.
    { exists (drop d pl). split; [done|]. rewrite Heq. unfold Paged.tj_crop; simpl. by rewrite G4. }
    destruct (valid_discard_rel _ _ _ _ Hcw Hac Hcr Hcd Hvd) as [Hfr Hfa].
    pose proof (ltj_rel_facts _ _ Hcw Hcr) as (Hcpw&Hcpe&Hcpb).
    exists p, (Paged.FreezeForCommit (Paged.discard_old_defn (Paged.tj_crop (Paged.truncated_journal p) d) (Linked.tj_seq_start fj))).
    split; [split; [by exists pl|done]|].
    split; [|eexists; split; [done|split; [exact Hfr|apply Hfd]]].
    right; left. exists d. eexists. split; [done|]. split; [|done].
    assert (Paged.tj_can_discard_to (Paged.tj_crop (Paged.truncated_journal p) d) (Linked.tj_seq_start fj)) as Hpcd.
    { destruct Hcd. split; [|by rewrite Hcpe]. unfold Paged.tj_seq_start. by rewrite Hcpb. }
    split_and!; [|by rewrite Heq|done|done].
    by apply ptj_discard.
  - destruct Hn as (_&->&->). split; [done|]. exists p, (Paged.QueryEndLsn (Linked.st_end pre)).
    split_and!; [done| |done]. do 2 right; left. split; [|done]. unfold Paged.st_end, Linked.st_end. by rewrite Hut.
  - destruct Hn as (_&m&->&Hm&Hms&->). split.
    { split; [|done]. split_and!; [done| |done|done]. by apply concat_wf. }
    eexists (Paged.mkState (Paged.truncated_journal p) (mh_concat (Paged.unmarshalled_tail p) m)), (Paged.Put m).
    split_and!; [split; [done|by rewrite <- Hut]| |done].
    do 3 right; left. exists m. split_and!; [done|done| |done]. unfold Paged.st_end. by rewrite Hut.
  - destruct Hn as (_&lsn&re&->&->&Hcd&Hvd&->).
    destruct (valid_discard_rel _ _ _ _ Htw Hac Hrel Hcd Hvd) as [Hnr Hna].
    destruct Hvd as (Hnw&Hnf&Hsub&Htight).
    pose proof (ltj_rel_facts _ _ Hnw Hnr) as (Hqw&Hqe&Hqb).
    destruct Hcd as [Hl Hu].
    destruct (ptj_discard (Paged.truncated_journal p) lsn) as (_&Hde&_).
    { done. } { split; [|by rewrite Hpe]. unfold Paged.tj_seq_start. by rewrite Hpb. }
    assert (Linked.bounded_discard (Linked.unmarshalled_tail pre) lsn = Linked.unmarshalled_tail pre) as Hbd.
    { unfold Linked.bounded_discard. case_decide; [|done].
      assert (lsn = seq_start (Linked.unmarshalled_tail pre)) as -> by lia. by apply do_all. }
    rewrite Hbd. split.
    { split; [|done]. split_and!; [done|done| |].
      - change (Linked.tj_seq_start new ≤ Linked.tj_seq_end new).
        rewrite <- Hqe, Hde, Hpe. destruct Hsub as [Hsb _]. unfold Linked.tj_seq_start. simpl in Hsb. lia.
      - change (Linked.tj_seq_end new = seq_start (Linked.unmarshalled_tail pre)).
        rewrite <- Hqe, Hde, Hpe. done. }
    eexists (Paged.mkState (Paged.discard_old_defn (Paged.truncated_journal p) lsn) (Linked.unmarshalled_tail pre)), _.
    split_and!; [done| |simpl; done].
    do 4 right; left. eexists lsn, _. split_and!; [done| | | |].
    + unfold Paged.st_start. rewrite Hpb. done.
    + unfold Paged.st_end. rewrite Hut. destruct Hmw. lia.
    + unfold Paged.st_end. by rewrite Hut.
    + rewrite Hut. case_decide as Hd; [|done].
      assert (lsn = seq_start (Linked.unmarshalled_tail pre)) as -> by lia.
      rewrite do_all by done. f_equal. unfold Paged.discard_old_defn. by rewrite decide_True by congruence.
  - destruct Hn as (Hua&_&->&Hlt&Hcan&->). unfold Linked.unused_addr in Hua.
    set (m := discard_recent (Linked.unmarshalled_tail pre) cut).
    set (tj := Linked.truncated_journal pre) in *.
    assert (mh_wf m) as Hmwf by (by apply dr_wf).
    destruct Htw as [(Hew&Hnd&Hcc&Hlk) Hdb].
    assert (∀ ptr, Linked.is_nondangling_pointer (disk_view tj) ptr → ptr ≠ Some a) as Hnota.
    { intros ptr Hp ->. destruct (Hp a eq_refl). congruence. }
    assert (∀ b r, b ≠ a → (<[a:=mkRec m (freshest_rec tj)]> (entries (disk_view tj))) !! b = Some r →
       entries (disk_view tj) !! b = Some r) as Hold by (intros ?? ?; by rewrite lookup_insert_ne).
    assert (∀ ptr, Linked.is_nondangling_pointer (disk_view tj) ptr →
       Linked.is_nondangling_pointer (disk_view (Linked.append_record tj a m)) ptr) as Hndp.
    { intros ptr Hp b Hb. destruct (Hp b Hb) as [r Hr]. exists r. simpl.
      rewrite lookup_insert_ne; [done|]. intros ->. congruence. }
    assert (Linked.is_nondangling_pointer (disk_view tj)
      (Linked.cropped_prior (mkRec m (freshest_rec tj)) (boundary_lsn (disk_view tj)))) as Hcpn.
    { unfold Linked.cropped_prior. case_decide; [apply Hdb|done]. }
    assert (linked_inv (Linked.mkState (Linked.append_record tj a m) (discard_old (Linked.unmarshalled_tail pre) cut))) as Hinv.
    { split.
      - split_and!; [split; [split_and!|split]| | |].
        + intros b r. simpl. intros Hb. destruct (decide (b = a)) as [->|Hne].
          * rewrite lookup_insert in Hb. simplify_eq. split; [done|]. unfold mh_is_empty. simpl. lia.
          * eapply Hew. by eapply Hold.
        + intros b r Hb. apply Hndp. simpl in Hb. destruct (decide (b = a)) as [->|Hne].
          * rewrite lookup_insert in Hb. by simplify_eq.
          * eapply Hnd. by eapply Hold.
        + intros b r Hb q rq Hq Hrq. simpl in *. destruct (decide (b = a)) as [->|Hne].
          * rewrite lookup_insert in Hb. simplify_eq.
            rewrite lookup_insert_ne in Hrq by (intros <-; by apply Hnota in Hcpn).
            unfold Linked.cropped_prior in Hq. case_decide; [|done]. simpl in Hq.
            unfold can_concat, can_follow. simpl. rewrite <- Hee. unfold Linked.tj_seq_end, Linked.dv_seq_end.
            by rewrite Hq, Hrq.
          * apply Hold in Hb; [|done].
            rewrite lookup_insert_ne in Hrq by (intros <-; by eapply Hnota; [by eapply Hnd|]).
            by eapply Hcc.
        + intros b r Hb. simpl in Hb |- *. destruct (decide (b = a)) as [->|Hne].
          * rewrite lookup_insert in Hb. simplify_eq. unfold Linked.has_link, Linked.cropped_prior. simpl.
            intros Hbd. rewrite decide_True by done. unfold Linked.tj_seq_end, Linked.dv_seq_end in Hee.
            destruct (freshest_rec tj); [by eexists|]. lia.
          * eapply Hlk. by eapply Hold.
        + intros b Hb. simpl in *. simplify_eq. rewrite lookup_insert. by eexists.
        + intros b r Hb Hr. simpl in *. simplify_eq. rewrite lookup_insert in Hr. simplify_eq. simpl.
          unfold Linked.tj_seq_start in Hse. lia.
        + by apply do_wf.
        + unfold Linked.tj_seq_start, Linked.tj_seq_end. simpl. rewrite lookup_insert. simpl.
          unfold Linked.tj_seq_start in Hse. lia.
        + unfold Linked.tj_seq_end. simpl. by rewrite lookup_insert.
      - destruct Hac as [rk [Hrd Hrr]].
        destruct (freshest_rec tj) as [f|] eqn:Ef.
        + destruct Hdb as [Hdb1 _]. destruct (Hdb1 f eq_refl) as [rf Hrf].
          assert (f ∈ dom rk) as [xf Hxf]%elem_of_dom by (apply Hrd, elem_of_dom; by eexists).
          exists (<[a := S xf]> rk). split.
          { simpl. rewrite !dom_insert_L. set_solver. }
          intros b r q Hb Hq. simpl in *. rewrite Ef in Hb.
          destruct (decide (b = a)) as [->|Hne].
          * rewrite lookup_insert in Hb. simplify_eq. unfold Linked.cropped_prior in Hq. case_decide; [|done].
            simpl in Hq. simplify_eq. exists xf, (S xf).
            rewrite lookup_insert, lookup_insert_ne; [split_and!; [done|done|lia]|]. intros ->. congruence.
          * apply Hold in Hb; [|done]. destruct (Hrr _ _ _ Hb Hq) as (x&y&Hx&Hy&?).
            exists x, y. rewrite !lookup_insert_ne; [done|done|]. intros <-. by eapply Hnota; [by eapply Hnd|].
        + exists (<[a := 0]> rk). split.
          { simpl. rewrite !dom_insert_L. set_solver. }
          intros b r q Hb Hq. simpl in *. rewrite Ef in Hb.
          destruct (decide (b = a)) as [->|Hne].
          * rewrite lookup_insert in Hb. simplify_eq. unfold Linked.cropped_prior in Hq. by case_decide.
          * apply Hold in Hb; [|done]. destruct (Hrr _ _ _ Hb Hq) as (x&y&Hx&Hy&?).
            exists x, y. rewrite !lookup_insert_ne; [done|done|]. intros <-. by eapply Hnota; [by eapply Hnd|]. }
    split; [done|].
    exists (Paged.mkState (Paged.append_record (Paged.truncated_journal p) m) (discard_old (Linked.unmarshalled_tail pre) cut)), Paged.Internal.
    split_and!; [split; [|done]| |done].
    + destruct Hrel as (pl&Hp&Heq). rewrite Heq. unfold Paged.append_record. simpl.
      exists ((a, mkRec m (freshest_rec tj)) :: pl). split; [|done].
      constructor; [apply lookup_insert|].
      assert (Linked.cropped_prior (mkRec m (freshest_rec tj)) (boundary_lsn (disk_view tj)) = freshest_rec tj) as Ecp.
      { unfold Linked.cropped_prior. case_decide as Hd; [done|]. simpl in Hd.
        destruct (freshest_rec tj) as [f|] eqn:Ef; [|done]. exfalso.
        destruct Hdb as [Hdb1 Hdb2]. rewrite ?Ef in *. destruct (Hdb1 f eq_refl) as [rf Hrf].
        specialize (Hdb2 _ _ eq_refl Hrf).
        unfold Linked.tj_seq_end, Linked.dv_seq_end in Hee. rewrite Ef, Hrf in Hee. lia. }
      simpl. rewrite Ecp. eapply path_transfer; [done|done|]. intros b r Hin. simpl.
      pose proof (path_entries _ _ _ Hp _ _ Hin). rewrite lookup_insert_ne; [done|]. intros <-. congruence.
    + do 5 right; left. exists cut. unfold Paged.internal_journal_marshal. rewrite Hut. by split_and!.
  - destruct Hn as (_&->&->). split; [done|]. exists p, Paged.Internal. split_and!; [done| |done]. by do 6 right.
Qed.

Lemma linked_init_sim s tj : Linked.initialize s tj →
  linked_inv s ∧ ∃ p ptj, ltj_rel tj ptj ∧ Paged.initialize p ptj ∧ linked_rel s p.
Proof.
  intros [[Hw Hac] ->]. pose proof (ltj_rel_exists tj) as [ptj Hr]; [by split|].
  pose proof (ltj_rel_facts _ _ Hw Hr) as (Hpw&Hpe&Hpb). split.
  - split; [|done]. split_and!; [done|apply empty_history_wf| |done].
    destruct Hr as (l&Hp&->). apply valid_end in Hpw. simpl in Hpw.
    simpl. rewrite <- Hpe. done.
  - eexists (Paged.mkState ptj _), ptj. split_and!; [done|split; [done|by rewrite Hpe]|done].
Qed.

Lemma linked_run s0 ls s p0 : linked_inv s0 → linked_rel s0 p0 → run Linked.next s0 ls s →
  linked_inv s ∧ ∃ p pls, linked_rel s p ∧ run Paged.next p0 pls p ∧ Forall2 linked_lbl_rel ls pls.
Proof.
  intros Hi Hr H. induction H as [|s0 ls s1 l s2 H IH Hn].
  - split; [done|]. exists p0, []. split_and!; [done|constructor|constructor].
  - destruct IH as (Hi1&p1&pls&Hr1&Hrun&Hf); [done|done|].
    destruct (linked_next_sim _ _ _ _ Hi1 Hr1 Hn) as (Hi2&p2&pl&Hr2&Hn2&Hl).
    split; [done|]. exists p2, (pls ++ [pl]). split_and!; [done|by eapply run_snoc|].
    apply Forall2_app; [done|]. by constructor.
Qed.

Lemma linked_event_compose l pl al : linked_lbl_rel l pl → paged_event pl al → linked_event l al.
Proof.
  destruct l; simpl; try (by intros ->). intros (ptj&->&Hrel&Hw) (h&->&Hh). exists h. split; [done|].
  by eapply paged_linked_holds.
Qed.

Lemma linked_faithful tj0 s0 ls s :
  Linked.initialize s0 tj0 → run Linked.next s0 ls s →
  ∃ h0 a0 als a, linked_holds tj0 h0 ∧ AbstractJournal.initialize a0 h0 ∧
    run AbstractJournal.next a0 als a ∧ Forall2 linked_event ls als ∧
    linked_journal_is s (AbstractJournal.journal a).
Proof.
  intros Hi Hr. destruct (linked_init_sim _ _ Hi) as (Hinv&p0&ptj&Htr&Hpi&Hrel).
  destruct (linked_run _ _ _ _ Hinv Hrel Hr) as (Hinv'&p&pls&Hrel'&Hrun&Hf).
  destruct (paged_faithful _ _ _ _ Hpi Hrun) as (h0&a0&als&a&Hh0&Hai&Har&Haf&Hj).
  exists h0, a0, als, a. split_and!; [|done|done| |].
  - eapply paged_linked_holds; [|done|done]. apply Hi.
  - clear -Hf Haf. revert als Haf. induction Hf; intros als Haf; inversion Haf; subst; constructor.
    + by eapply linked_event_compose.
    + by apply IHHf.
  - destruct Hj as (h&Hh&->). destruct Hrel' as [Hr1 Hr2]. exists h. rewrite Hr2. split; [|done].
    eapply paged_linked_holds; [|done|done]. apply Hinv'.
Qed.

(** *** Structure of reachable disks *)
Lemma decodable_links tj : Linked.tj_decodable tj → links_resolve tj.
Proof.
  intros [[Hw Hb] Hac]. destruct (path_exists _ (freshest_rec tj) Hw Hac) as [l Hl]; [apply Hb|].
  split; [apply Hb|]. intros a r Hre He Hlt.
  destruct Hw as (Hew&Hnd&Hcc&Hlk). destruct (Hlk _ _ He Hlt) as [p Hcp].
  destruct (Hnd _ _ He p Hcp) as [q Hq]. pose proof (Hcc _ _ He _ _ Hcp Hq) as Hcan.
  exists p, q. unfold Linked.cropped_prior in Hcp. rewrite decide_True in Hcp by done.
  split_and!; [done|done|done|]. intros Hback.
  destruct (path_exists (disk_view tj) (Some a)) as [la Hla]; [done|done|intros ? [= <-]; by eexists|].
  pose proof Hla as Hla'. inversion Hla as [|? r' l' Hr' Hl']; subst. simplify_eq.
  unfold Linked.cropped_prior in Hl'. rewrite decide_True, Hcp in Hl' by done.
  destruct (proj1 (path_reaches _ _ _ Hl' a) Hback) as [r'' Hin].
  apply path_nodup in Hla'. rewrite fmap_cons in Hla'. apply list.NoDup_cons in Hla' as [Hnin _]. apply Hnin.
  apply elem_of_list_fmap. by exists (a, r'').
Qed.

(** Pages of a path cover disjoint ranges. *)
Lemma path_located dv ptr l : Linked.dv_wf dv → path dv ptr l → Linked.block_in_bounds dv ptr →
  (∀ a r, (a, r) ∈ l → seq_end (message_seq r) ≤ Linked.dv_seq_end dv ptr) ∧
  ∀ lsn, boundary_lsn dv ≤ lsn < Linked.dv_seq_end dv ptr →
    ∃ a r, (a, r) ∈ l ∧ seq_start (message_seq r) ≤ lsn < seq_end (message_seq r) ∧
      ∀ b r', (b, r') ∈ l → seq_start (message_seq r') ≤ lsn < seq_end (message_seq r') → b = a.
Proof.
  intros Hw Hp. pose proof Hw as (Hew&Hnd&Hcc&Hlk). induction Hp as [|a r l He Hp IH]; intros Hb.
  - split; [intros ?? H; by apply elem_of_nil in H|]. simpl. lia.
  - pose proof (Hew _ _ He) as [[Hrw _] _]. simpl. rewrite He.
    destruct (decide (boundary_lsn dv < seq_start (message_seq r))) as [Hs|Hs].
    + destruct (Hlk _ _ He Hs) as [p Hcp]. destruct (Hnd _ _ He p Hcp) as [q Hq].
      pose proof (Hcc _ _ He _ _ Hcp Hq) as Hcan. unfold can_concat, can_follow in Hcan.
      destruct IH as [IH1 IH2].
      { rewrite Hcp. split; [intros ? [= <-]; by eexists|]. intros ?? [= <-] ?. simplify_eq. lia. }
      rewrite Hcp in IH1, IH2. simpl in IH1, IH2. rewrite Hq in IH1, IH2. split.
      * intros b r' [?|Hin]%elem_of_cons; [by simplify_eq|]. specialize (IH1 _ _ Hin). lia.
      * intros lsn Hl. destruct (decide (seq_start (message_seq r) ≤ lsn)) as [Hge|Hlt].
        { exists a, r. split_and!; [by left|done|lia|].
          intros b r' [?|Hin]%elem_of_cons ?; [by simplify_eq|]. specialize (IH1 _ _ Hin). lia. }
        { destruct (IH2 lsn) as (b&r'&Hin&Hr&Hu); [lia|]. exists b, r'. split_and!; [by right|lia|lia|].
          intros c r'' [?|Hin']%elem_of_cons Hr''; [simplify_eq; lia|]. by eapply Hu. }
    + assert (l = []) as -> by (unfold Linked.cropped_prior in Hp; rewrite decide_False in Hp by done; by inversion Hp).
      split.
      * intros b r' ?%elem_of_list_singleton. by simplify_eq.
      * intros lsn Hl. exists a, r. split_and!; [by left|lia|lia|].
        intros b r' ?%elem_of_list_singleton _. by simplify_eq.
Qed.
Lemma decodable_located tj : Linked.tj_decodable tj → lsns_located tj.
Proof.
  intros [[Hw Hb] Hac]. destruct (path_exists _ (freshest_rec tj) Hw Hac) as [l Hl]; [apply Hb|].
  intros e He lsn Hlsn.
  assert (e = Linked.dv_seq_end (disk_view tj) (freshest_rec tj)) as ->.
  { unfold Linked.dv_seq_end. destruct (freshest_rec tj); [|done]. by destruct He as (r&->&->). }
  destruct (path_located _ _ _ Hw Hl Hb) as [_ H]. destruct (H lsn Hlsn) as (a&r&Hin&Hr&Hu).
  exists a. split.
  - split; [apply (path_reaches _ _ _ Hl); by eexists|]. exists r. split; [by eapply path_entries|done].
  - intros b r' Hre He' Hr'. apply (path_reaches _ _ _ Hl) in Hre as [r'' Hin'].
    pose proof (path_entries _ _ _ Hl _ _ Hin'). simplify_eq. by eapply Hu.
Qed.

Lemma linked_reach_decodable tj0 s0 ls s :
  Linked.initialize s0 tj0 → run Linked.next s0 ls s → Linked.tj_decodable (Linked.truncated_journal s).
Proof.
  intros Hi Hr. destruct (linked_init_sim _ _ Hi) as (Hinv&p0&ptj&Htr&Hpi&Hrel).
  destruct (linked_run _ _ _ _ Hinv Hrel Hr) as ([[Hw _] Hac]&_). by split.
Qed.
Lemma linked_structure tj0 s0 ls s :
  Linked.initialize s0 tj0 → run Linked.next s0 ls s →
  links_resolve (Linked.truncated_journal s) ∧ lsns_located (Linked.truncated_journal s).
Proof.
  intros Hi Hr. pose proof (linked_reach_decodable _ _ _ _ Hi Hr).
  split; [by apply decodable_links|by apply decodable_located].
Qed.

Lemma valid_discard_keeps tj lsn new a r :
  Linked.tj_wf tj → Linked.acyclic (disk_view tj) → Linked.tj_can_discard_to tj lsn →
  Linked.valid_discard_old tj lsn new → lsn < Linked.tj_seq_end tj →
  reaches (mkDV lsn (entries (disk_view tj))) (freshest_rec tj) a →
  entries (disk_view tj) !! a = Some r → entries (disk_view new) !! a = Some r.
Proof.
  intros Hw Hac Hcd Hvd Hlt Hre He. destruct (ltj_rel_exists tj) as [p Hrel]; [by split|].
  destruct Hrel as (l&Hp&->). destruct (path_discard _ _ _ lsn Hp) as (l'&Hp'&Hpre&Heq); [apply Hcd|].
  destruct Hvd as (_&_&_&[_ Ht]). simpl in Ht.
  unfold Linked.tj_discard_old in Ht. simpl in Ht. rewrite decide_False in Ht by lia.
  eapply lookup_weaken; [|exact Ht].
  pose proof (build_tight_entries _ _ _ Hp') as Hbt. simpl in Hbt. rewrite Hbt.
  apply (path_in_map _ _ _ Hp'). apply (path_reaches _ _ _ Hp') in Hre as [r' Hin].
  pose proof (path_entries _ _ _ Hp' _ _ Hin) as E. simpl in E. by simplify_eq.
Qed.
Lemma linked_truncation_keeps tj0 s0 ls s lsn e s' a r :
  Linked.initialize s0 tj0 → run Linked.next s0 ls s →
  Linked.next s s' (Linked.DiscardOld lsn e) →
  lsn < seq_start (Linked.unmarshalled_tail s) →
  reaches (mkDV lsn (entries (disk_view (Linked.truncated_journal s))))
    (freshest_rec (Linked.truncated_journal s)) a →
  entries (disk_view (Linked.truncated_journal s)) !! a = Some r →
  entries (disk_view (Linked.truncated_journal s')) !! a = Some r.
Proof.
  intros Hi Hr Hn Hlt Hre He. pose proof (linked_reach_decodable _ _ _ _ Hi Hr) as [Hw Hac].
  destruct Hn as [[d Hn]|[[d Hn]|[Hn|[Hn|[[new Hn]|[(cut&b&Hn)|Hn]]]]]].
  - by destruct Hn as (_&?&?&_).
  - by destruct Hn as (_&?&?&_).
  - by destruct Hn as (_&?&_).
  - by destruct Hn as (_&?&?&_).
  - destruct Hn as ((_&_&_&Hee)&?&?&[= -> ->]&_&Hcd&Hvd&->). simpl.
    eapply valid_discard_keeps; [done|done|done|done| |done|done]. lia.
  - by destruct Hn as (_&_&?&_).
  - by destruct Hn as (_&?&_).
Qed.
