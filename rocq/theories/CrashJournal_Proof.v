(** Proofs: images of a journal on one shared disk (C41). *)
From Verif Require Import Abs_Model Abs_Spec Abs_Proof Spec_Proof Journal_Model Journal_Spec Paged_Proof
  Linked_Proof AllocJournal_Model AllocJournal_Spec Likes_Proof AllocJournal_Proof AllocJournal_Facts
  CachedFacts_Proof CrashJournal_Model CrashJournal_Spec.
Open Scope nat_scope.

(** ** One journal step, seen as a step of the message log *)
Lemma linked_holds_det tj h h' : linked_holds tj h → linked_holds tj h' → h = h'.
Proof.
  intros (Hs&He&H1) (Hs'&He'&H2). apply mh_eq; [congruence| |].
  - destruct (freshest_rec tj); [|congruence]. destruct He as (r&Hr&->), He' as (r'&Hr'&->). congruence.
  - intros lsn. destruct (msgs h !! lsn) as [x|] eqn:E.
    + apply H1, H2 in E. by rewrite E.
    + destruct (msgs h' !! lsn) as [x|] eqn:E'; [|done]. apply H2, H1 in E'. congruence.
Qed.
Lemma linked_holds_end tj h : Linked.tj_wf tj → linked_holds tj h →
  seq_start h = Linked.tj_seq_start tj ∧ seq_end h = Linked.tj_seq_end tj.
Proof.
  intros _ (Hs&He&_). split; [done|]. unfold Linked.tj_seq_end.
  destruct (freshest_rec tj) as [a|]; [|done]. destruct He as (r&Hr&->). simpl. by rewrite Hr.
Qed.
Lemma linked_abs_step pre post l a : linked_inv pre → linked_journal_is pre (AbstractJournal.journal a) →
  Linked.next pre post l →
  ∃ a' al, linked_journal_is post (AbstractJournal.journal a') ∧ AbstractJournal.next a a' al ∧ linked_event l al.
Proof.
  intros Hi (p0&Hp0&Ha) Hn. pose proof Hi as [Hwf Hac].
  destruct (ltj_rel_exists (Linked.truncated_journal pre)) as [ptj Hrel]; [split; [apply Hwf|done]|].
  pose proof Hwf as (Htw&Hmw&Hse&Hee).
  pose proof (ltj_rel_facts _ _ Htw Hrel) as (Hpw&Hpe&Hpb).
  set (p := Paged.mkState ptj (Linked.unmarshalled_tail pre)).
  assert (linked_rel pre p) as Hr by done.
  assert (Paged.wf p) as Hw by (split_and!; [done|done|simpl; congruence]).
  destruct (linked_next_sim _ _ _ _ Hi Hr Hn) as (Hi'&p'&pl&Hr'&Hpn&Hl).
  destruct (paged_next_refines _ _ _ Hw Hpn) as [Hw' Hstep].
  assert (a = paged_i p) as ->.
  { destruct a as [h]. simpl in Ha. unfold paged_i. subst h. f_equal. f_equal.
    eapply linked_holds_det; [exact Hp0|]. eapply paged_linked_holds; [done|done|]. by apply ptj_i_holds. }
  exists (paged_i p'), (paged_lbl pl). split_and!; [|done|].
  - destruct Hr' as [Hr1 Hr2]. eexists. split; [|simpl; by rewrite Hr2].
    eapply paged_linked_holds; [apply Hi'|done|]. apply ptj_i_holds. apply Hw'.
  - exact (linked_event_compose _ _ _ Hl (paged_event_lbl _ _ _ Hw Hpn)).
Qed.
Lemma linked_start tj h : Linked.tj_decodable tj → linked_holds tj h →
  linked_inv (Linked.mkState tj (empty_history_at (Linked.tj_seq_end tj))) ∧
  linked_journal_is (Linked.mkState tj (empty_history_at (Linked.tj_seq_end tj))) h.
Proof.
  intros Hd Hh. split; [by apply (linked_init_sim _ tj)|]. exists h. split; [done|]. simpl.
  destruct (linked_holds_end _ _ (proj1 Hd) Hh) as [_ <-]. symmetry. destruct h. unfold mh_concat, empty_history_at. simpl.
  f_equal. by rewrite (left_id_L ∅ (∪)).
Qed.

Section Img.
Context `{Geometry}.

(** ** A newer boundary on the same pages *)
Lemma dv_wf_newer b b' E : b ≤ b' → Linked.dv_wf (mkDV b E) → Linked.dv_wf (mkDV b' E).
Proof.
  intros Hle (Hew&Hnd&Hcc&Hlk).
  assert (∀ r p, Linked.cropped_prior r b' = Some p → Linked.cropped_prior r b = Some p) as Hcp.
  { intros r p. unfold Linked.cropped_prior. case_decide; [|done]. rewrite decide_True by lia. done. }
  split_and!.
  - exact Hew.
  - intros a r He p Hp. exact (Hnd a r He p (Hcp _ _ Hp)).
  - intros a r He p q Hp Hq. exact (Hcc a r He p q (Hcp _ _ Hp) Hq).
  - intros a r He Hlt. simpl in Hlt. pose proof (Hlk a r He) as Hl. unfold Linked.has_link in Hl.
    simpl in Hl. specialize (Hl ltac:(lia)). unfold Linked.cropped_prior in *.
    simpl. rewrite decide_True in Hl by lia. by rewrite decide_True.
Qed.
Lemma acyclic_newer b b' E E' : b ≤ b' → E' ⊆ E → Linked.acyclic (mkDV b E) → Linked.acyclic (mkDV b' E').
Proof.
  intros Hle Hs Hac. apply (acyclic_sub (mkTJ None (mkDV b E)) b' (mkTJ None (mkDV b' E'))); [done|done|by split].
Qed.

(** What the running journal must keep for an image: its root, and the unit it
    starts in. *)
Definition supp (aj : AllocJournal.State) (i : ImageState) : Prop :=
  boundary_lsn (disk_view (AllocJournal.tj aj)) ≤ is_boundary i ∧
  ∀ f, is_freshest i = Some f →
    AllocJournal.lsn_au_index aj !! is_boundary i = Some (is_first i) ∧
    ∃ rf, reaches (disk_view (AllocJournal.tj aj)) (freshest_rec (AllocJournal.tj aj)) f ∧
      entries (disk_view (AllocJournal.tj aj)) !! f = Some rf ∧ is_boundary i < seq_end (message_seq rf).

Lemma path_newer dv ptr l k f rf : Linked.dv_wf dv → path dv ptr l → l !! k = Some (f, rf) →
  ∀ a r, (a, r) ∈ take k l → seq_end (message_seq rf) ≤ seq_start (message_seq r).
Proof.
  intros Hw Hp Hk a r Hin. apply elem_of_list_lookup in Hin as [j Hj].
  apply lookup_take_Some in Hj as [Hj Hjk].
  pose proof (path_suffix _ _ _ _ Hp _ _ Hj) as Hs. rewrite (drop_S _ _ _ Hj) in Hs.
  destruct (path_older _ _ _ _ Hw Hs f rf) as [? _]; [|done].
  apply elem_of_list_lookup. exists (k - S j). rewrite lookup_drop. by replace (S j + (k - S j)) with k by lia.
Qed.
(** The chain of an image is a stretch of the running journal's chain. *)
Lemma image_path b E ptr pl b' f rf : Linked.dv_wf (mkDV b E) → path (mkDV b E) ptr pl →
  Linked.block_in_bounds (mkDV b E) ptr →
  b ≤ b' → (f, rf) ∈ pl → b' < seq_end (message_seq rf) →
  ∃ nw l rest, pl = nw ++ l ++ rest ∧ path (mkDV b' E) (Some f) l ∧
    (∃ lt, l = (f, rf) :: lt) ∧
    (∀ a r, (a, r) ∈ nw → seq_end (message_seq rf) ≤ seq_start (message_seq r)) ∧
    (∀ a r, (a, r) ∈ rest → seq_end (message_seq r) ≤ b') ∧
    (∀ a r, (a, r) ∈ l → b' < seq_end (message_seq r) ≤ seq_end (message_seq rf) ∧
       seq_start (message_seq r) ≤ seq_start (message_seq rf)).
Proof.
  intros Hw Hp Hb Hle Hin Hlt. pose proof (path_entries _ _ _ Hp _ _ Hin) as He.
  apply elem_of_list_lookup in Hin as [k Hk].
  pose proof (path_suffix _ _ _ _ Hp _ _ Hk) as Hs.
  assert (Linked.block_in_bounds (mkDV b E) (Some f)) as Hbf.
  { split; [intros ? [= <-]; by eexists|]. intros ? ? [= <-] He'. simplify_eq. simpl. lia. }
  destruct (path_discard_split (mkDV b E) (Some f) (drop k pl) b' Hw Hs Hbf) as (l&rest&Hl&Hdr&Hrest&Hll).
  { done. } { simpl. simpl in He. by rewrite He. }
  exists (take k pl), l, rest. split_and!.
  - by rewrite <- Hdr, take_drop.
  - done.
  - inversion Hl as [|? r' lt' Hr' Hlt' E1 E2]; subst. simpl in Hr', He. simplify_eq. by exists lt'.
  - by eapply path_newer.
  - done.
  - intros a r Ha. split; [split; [by apply Hll with a|]|].
    + assert ((a, r) ∈ drop k pl) as Hd by (rewrite Hdr; apply elem_of_app; by left).
      pose proof (path_chain _ _ _ Hw Hs Hbf _ _ Hd) as [Hc _]. simpl in Hc, He. rewrite He in Hc. lia.
    + assert ((a, r) ∈ drop k pl) as Hd by (rewrite Hdr; apply elem_of_app; by left).
      rewrite (drop_S _ _ _ Hk) in Hs, Hd. apply elem_of_cons in Hd as [Hd|Hd]; [by simplify_eq|].
      pose proof (path_older _ _ _ _ Hw Hs _ _ Hd) as [Ho _].
      assert ((a, r) ∈ (f, rf) :: drop (S k) pl) as Hd' by (by right).
      pose proof (path_chain _ _ _ Hw Hs Hbf _ _ Hd') as [_ Hc]. lia.
Qed.

Lemma alloc_unique tj idx l : Linked.dv_wf (disk_view tj) → struct_inv tj idx l → has_unique_lsns (disk_view tj).
Proof.
  intros Hw (Hp&Hok&Hwa&Htight&Hback&Hord&Hlive) lsn a b (r&Hr&Hc) (q&Hq&Hc').
  assert ((a, r) ∈ l) by (apply Hlive; [done|destruct Hc; lia]).
  assert ((b, q) ∈ l) by (apply Hlive; [done|destruct Hc'; lia]).
  by destruct (path_unique_lsn _ _ _ Hw Hp a r b q lsn).
Qed.

(** ** An image the running journal supports can be recovered from *)
Lemma supp_valid aj i E : alloc_inv aj → entries (disk_view (AllocJournal.tj aj)) = E → supp aj i → is_valid i E.
Proof.
  intros (Hi&(pl&Hst)&_) HE [Hle Hs]. subst E. pose proof Hi as [(Htw&_) Hac].
  change (Linked.truncated_journal (AllocJournal.journal aj)) with (AllocJournal.tj aj) in *.
  destruct (AllocJournal.tj aj) as [root [b E]] eqn:Etj. simpl in *.
  pose proof Htw as [Hw Hb]. simpl in Hw, Hb.
  pose proof (alloc_unique _ _ _ (proj1 Htw) Hst) as Huniq.
  destruct Hst as (Hp&Hok&Hwa&Htight&Hback&Hord&Hlive). unfold tj_path in Hp. simpl in *.
  pose proof (dv_wf_newer _ _ _ Hle Hw) as Hw'.
  pose proof (acyclic_newer _ _ _ _ Hle (reflexivity E) Hac) as Hac'.
  assert (has_unique_lsns (mkDV (is_boundary i) E)) as Huniq'.
  { intros lsn a c (r&Hr&Hc) (q&Hq&Hc'). apply (Huniq lsn).
    - exists r. split; [done|]. destruct Hc. simpl in *. split; simpl; lia.
    - exists q. split; [done|]. destruct Hc'. simpl in *. split; simpl; lia. }
  destruct (is_freshest i) as [f|] eqn:Ef.
  - destruct (Hs f eq_refl) as (Hidx&rf&Hre&Hrf&Hlt).
    destruct (proj1 (path_reaches _ _ _ Hp f) Hre) as [rf' Hin].
    pose proof (path_entries _ _ _ Hp _ _ Hin) as Hrf'. simpl in Hrf'. simplify_eq.
    destruct (image_path _ _ _ _ _ _ _ Hw Hp Hb Hle Hin Hlt) as (nw&l&rest&Hpl&Hl&[lt Hlt']&Hnw&Hrest&Hll).
    assert (valid_first_au (mkDV (is_boundary i) E) (is_first i)) as Hvf.
    { apply Hok in Hidx as (a&r&Hain&[Hc1 Hc2]&Hau). exists a. split; [done|]. exists r.
      split; [exact (path_entries _ _ _ Hp _ _ Hain)|]. split; simpl; lia. }
    assert (Linked.block_in_bounds (mkDV (is_boundary i) E) (Some f)) as Hbf.
    { split; [intros ? [= <-]; by eexists|]. intros ? ? [= <-] He'. simpl in *. by simplify_eq. }
    assert (idx_ok au (build_lsn_au_index (to_tj i E) (is_first i)) (is_boundary i) l) as Hok'.
    { unfold build_lsn_au_index, to_tj. simpl. rewrite Ef. apply (au_walk_ok (mkDV (is_boundary i) E)); try done.
      by eapply path_length in Hl. }
    unfold is_valid. rewrite Ef. split_and!.
    + exact Hwa.
    + split; [split; [done|by apply Hbf]|]. split; [done|]. split; [exact Hback|]. split; [exact Hord|].
      split; [exact Huniq'|]. intros ? [= <-]. split; [done|]. exists rf. by split.
    + intros a r lsn He [Hlo Hhi] Hv Hnone Haf. simpl.
      destruct (decide (lsn < is_boundary i)) as [|Hge]; [done|exfalso].
      assert ((a, r) ∈ pl) as Hain by (apply Hlive; [done|lia]).
      rewrite Hpl in Hain. apply elem_of_app in Hain as [Hain|[Hain|Hain]%elem_of_app].
      * apply elem_of_values in Hv as [k (c&q&Hcin&_&Hau)%Hok'].
        pose proof (Hll _ _ Hcin) as [_ Hcs].
        specialize (Hnw _ _ Hain).
        simpl in Hrf, He. pose proof (entry_nonempty _ _ _ Hw Hrf) as Hnef.
        pose proof (entry_nonempty _ _ _ Hw He) as Hnea.
        assert (au f = au a) as Hauf.
        { apply (path_contiguous _ _ _ Hw Hback Hord Hp a r c q f rf); try done.
          - rewrite Hpl. apply elem_of_app. by left.
          - rewrite Hpl, !elem_of_app. right; by left.
          - lia. }
        assert (¬ page f < page a) as Hnp.
        { intros Hlt2. apply (Haf f eq_refl). split_and!; [apply Hwa; by eexists|done|done]. }
        destruct (decide (page a = page f)) as [Epg|Npg].
        -- assert (a = f) as -> by (destruct a, f; simpl in *; by subst). simplify_eq. lia.
        -- pose proof (Hord a f r rf ltac:(done) ltac:(lia) He Hrf). lia.
      * assert (build_lsn_au_index (to_tj i E) (is_first i) !! lsn = Some (au a)) as Hx; [|congruence].
        apply Hok'. exists a, r. split_and!; [done|split; lia|done].
      * specialize (Hrest _ _ Hain). lia.
  - unfold is_valid. rewrite Ef. split_and!.
    + exact Hwa.
    + split; [split; [done|done]|]. split; [done|]. split; [exact Hback|]. split; [exact Hord|]. by split.
    + intros a r lsn He Hc Hv. exfalso. unfold build_lsn_au_index, to_tj in Hv. simpl in Hv. rewrite Ef in Hv.
      destruct (Linked.fuel_of _) in Hv; simpl in Hv; by apply elem_of_values in Hv as [k Hk].
Qed.

Lemma is_valid_decodable i E : is_valid i E → Linked.tj_decodable (to_tj i E).
Proof.
  intros (Hwa&([Hw Hnd]&Hac&Hback&Hord&Huniq&Hup)&Hbi). split; [|done]. split; [done|]. split; [done|].
  intros a r Hf Hr. destruct (Hup a Hf) as [_ (r'&Hr'&?)]. unfold to_tj in Hr. simpl in *. by simplify_eq.
Qed.

(** ** Tightening the disk at load keeps the image *)
Lemma tight_struct i E : is_valid i E →
  let T := tight_dv i E in let idx := build_lsn_au_index (to_tj i E) (is_first i) in
  Linked.tj_decodable (to_tj i T) ∧
  (∃ l, tj_path (to_tj i E) l ∧ struct_inv (to_tj i T) idx l) ∧
  (is_Some (is_freshest i) → idx !! is_boundary i = Some (is_first i)).
Proof.
  intros Hv T idx. pose proof (is_valid_decodable _ _ Hv) as Hd. pose proof Hd as [[Hw Hb] Hac].
  destruct Hv as (Hwa&(_&_&Hback&Hord&Huniq&Hup)&Hbi).
  destruct (tj_path_exists _ Hd) as [l Hp].
  unfold to_tj in Hw, Hb, Hac. simpl in Hw, Hb, Hac. unfold tj_path, to_tj in Hp. simpl in Hp.
  assert (idx_ok au idx (is_boundary i) l) as Hok.
  { apply (au_walk_ok (mkDV (is_boundary i) E)); try done.
    - intros a Ha. by apply (Hup a).
    - by eapply path_length in Hp. }
  assert (∀ a r, T !! a = Some r ↔ E !! a = Some r ∧ au a ∈ values idx ∧ ¬ past_pointer (is_freshest i) a) as HT.
  { intros a r. unfold T, tight_dv. rewrite map_filter_lookup_Some. done. }
  assert (T ⊆ E) as Hsub by apply map_filter_subseteq.
  assert (∀ a r, (a, r) ∈ l → T !! a = Some r) as Hin.
  { intros a r Ha. pose proof (path_entries _ _ _ Hp _ _ Ha) as He. simpl in He.
    pose proof (path_chain _ _ _ Hw Hp Hb _ _ Ha) as Hc. simpl in Hc.
    apply HT. split_and!; [done| |].
    - apply elem_of_values. exists (seq_end (message_seq r) - 1). apply Hok. exists a, r. split_and!; [done|split; lia|done].
    - destruct (is_freshest i) as [f|] eqn:Ef; simpl; [|tauto]. intros (_&Hau&Hpg).
      inversion Hp as [|? rf lt Hrf Hpt]; subst. simpl in Hrf.
      pose proof (Hord f a rf r ltac:(done) Hpg Hrf He) as Hlo.
      pose proof (entry_nonempty _ _ _ Hw Hrf) as Hnef. simpl in Hc. rewrite Hrf in Hc. lia. }
  assert (path (mkDV (is_boundary i) T) (is_freshest i) l) as HpT by (by eapply path_transfer).
  assert (∀ a r, T !! a = Some r → is_boundary i < seq_end (message_seq r) → (a, r) ∈ l) as Hlive.
  { intros a r Ha Hlt. apply HT in Ha as (He&Hva&Hnp).
    pose proof (entry_nonempty (mkDV (is_boundary i) E) _ _ Hw He) as Hne.
    destruct (idx !! (seq_end (message_seq r) - 1)) as [v|] eqn:Ei.
    - apply Hok in Ei as (c&q&Hcin&Hc&_). pose proof (path_entries _ _ _ Hp _ _ Hcin) as He'. simpl in He'.
      assert (a = c) as ->; [|by simplify_eq].
      apply (Huniq (seq_end (message_seq r) - 1)).
      + exists r. split; [done|split; simpl; lia].
      + exists q. split; [done|]. done.
    - assert (seq_end (message_seq r) - 1 < is_boundary i); [|lia].
      eapply (Hbi a r); [done| |done|done|].
      + unfold mh_contains. lia.
      + intros f Hf. rewrite Hf in Hnp. exact Hnp. }
  assert (Linked.dv_wf (mkDV (is_boundary i) T)) as HwT.
  { destruct Hw as (Hew&Hnd&Hcc&Hlk). split_and!.
    - intros a r Ha. apply (Hew a). simpl. by eapply lookup_weaken.
    - intros a r Ha p Hcp. simpl in *.
      assert (is_boundary i < seq_start (message_seq r)) as Hst.
      { unfold Linked.cropped_prior in Hcp. by case_decide. }
      destruct (Hew a r) as [[Hrw _] _]; [simpl; by eapply lookup_weaken|].
      assert ((a, r) ∈ l) as Hal by (apply Hlive; [done|lia]).
      apply elem_of_list_lookup in Hal as [k Hk]. pose proof (path_suffix _ _ _ _ HpT _ _ Hk) as Hs.
      rewrite (drop_S _ _ _ Hk) in Hs. inversion Hs as [|? r' l' Hr' Hl']; subst. simpl in Hl'.
      rewrite Hcp in Hl'. inversion Hl' as [|? q l'' Hq]; subst. by eexists.
    - intros a r Ha p q Hcp Hq. simpl in *. eapply (Hcc a r); [|done|]; simpl; by eapply lookup_weaken.
    - intros a r Ha. apply (Hlk a). simpl in *. by eapply lookup_weaken. }
  split; [|split].
  - split; [|by apply (acyclic_newer (is_boundary i) _ E)]. split; [done|]. split.
    + intros a Hf. simpl in Hf |- *. rewrite Hf in HpT. inversion HpT as [|? q l'' Hq]; subst. by eexists.
    + intros a r Hf Hr. simpl in *. eapply (proj2 Hb a r); [done|]. simpl. by eapply lookup_weaken.
  - exists l. split; [done|]. unfold struct_inv. simpl. split_and!; try done.
    + intros a [r Ha]. apply Hwa. exists r. simpl in *. by eapply lookup_weaken.
    + intros a [r Ha]. simpl in Ha. apply HT in Ha as (_&Hva&Hnp). split; [done|]. intros f Hf. simpl in Hf. by rewrite Hf in Hnp.
    + intros a r Hpg Ha. eapply Hback; [done|]. simpl in *. by eapply lookup_weaken.
    + intros alo ahi rlo rhi ?? H1 H2. simpl in *. eapply Hord; [done|done| |]; simpl; by eapply lookup_weaken.
  - intros [f Hf]. destruct (Hup f Hf) as [(c&Hcf&rc&Hrc&Hcc') (rf&Hrf&Hlt)]. simpl in *.
    destruct (path_located _ _ _ Hw Hp Hb) as [_ Hloc]. simpl in Hloc. rewrite Hf in Hloc. simpl in Hloc. rewrite Hrf in Hloc.
    destruct (Hloc (is_boundary i)) as (a&r&Hain&Hc&_); [lia|].
    apply Hok. exists a, r. split_and!; [done|split; lia|]. rewrite <- Hcf. f_equal.
    apply (Huniq (is_boundary i)).
    + exists r. split; [exact (path_entries _ _ _ Hp _ _ Hain)|split; simpl; lia].
    + exists rc. split; [done|]. done.
Qed.
End Img.
