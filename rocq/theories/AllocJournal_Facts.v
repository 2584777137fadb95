(** Client-level consequences for the journal with allocation units (C14). *)
From Verif Require Import Abs_Model Abs_Spec Abs_Proof Spec_Proof Journal_Model Journal_Spec Paged_Proof
  Linked_Proof AllocJournal_Model AllocJournal_Spec Likes_Proof AllocJournal_Proof.

Section Facts.
Context `{Geometry}.

Lemma alloc_faithful s0 j img ls s : AllocJournal.initialize s0 j img → run AllocJournal.next s0 ls s →
  ∃ h0 a0 als a, linked_holds (img_tj img) h0 ∧ AbstractJournal.initialize a0 h0 ∧
    run AbstractJournal.next a0 als a ∧ Forall2 alloc_event ls als ∧
    linked_journal_is (AllocJournal.journal s) (AbstractJournal.journal a).
Proof.
  intros Hi Hr. destruct (alloc_run _ _ _ _ _ Hi Hr) as (Hli&Hlr&_).
  destruct (linked_faithful _ _ _ _ Hli Hlr) as (h0&a0&als&a&H1&H2&H3&H4&H5).
  exists h0, a0, als, a. split_and!; try done. apply (Forall2_fmap_l AllocJournal.linked_lbl) in H4.
  eapply Forall2_impl; [exact H4|]. intros [] ?; done.
Qed.

(** What one step does to the pages. *)
Lemma put_pages j nj m : Linked.next j nj (Linked.Put m) →
  Linked.truncated_journal nj = Linked.truncated_journal j.
Proof.
  intros [[d' Hn]|[[d' Hn]|[Hn|[Hn|[[new Hn]|[(cut&b&Hn)|Hn]]]]]].
  + by destruct Hn as (_&?&?&_).
  + by destruct Hn as (_&?&?&_).
  + by destruct Hn as (_&?&_).
  + by destruct Hn as (_&m'&_&_&_&->).
  + by destruct Hn as (_&?&?&?&_).
  + by destruct Hn as (_&_&?&_).
  + by destruct Hn as (_&?&_).
Qed.
Lemma alloc_step_pages pre post l : alloc_inv pre → AllocJournal.next pre post l →
  (∀ a r, on_disk pre a r → on_disk post a r ∨
     ((∀ r', ¬ on_disk post a r') ∧ au a ∈ given_back l ∧
       ∃ lsn e d, l = AllocJournal.DiscardOld lsn e d ∧ seq_end (message_seq r) ≤ lsn)) ∧
  (∀ a r, on_disk post a r → on_disk pre a r ∨
     ((∀ r', ¬ on_disk pre a r') ∧ addr_wf a ∧
       ∃ p, allocs (AllocJournal.mini_allocator pre) !! au a = Some p ∧ a ∉ reserved p ∧ a ∉ observed p)).
Proof.
  intros Hinv Hn. pose proof Hinv as (Hi&(pl&Hst)&Hfirst&Hma). pose proof Hi as [Hwf Hac].
  pose proof Hwf as (Htw&Hmw&Hse&Hee).
  assert (∀ s, AllocJournal.tj s = AllocJournal.tj pre →
   (∀ a r, on_disk pre a r → on_disk s a r ∨
     ((∀ r', ¬ on_disk s a r') ∧ au a ∈ given_back l ∧
       ∃ lsn e d, l = AllocJournal.DiscardOld lsn e d ∧ seq_end (message_seq r) ≤ lsn)) ∧
   (∀ a r, on_disk s a r → on_disk pre a r ∨
     ((∀ r', ¬ on_disk pre a r') ∧ addr_wf a ∧
       ∃ p, allocs (AllocJournal.mini_allocator pre) !! au a = Some p ∧ a ∉ reserved p ∧ a ∉ observed p))) as Hsame.
  { intros s Hs. unfold on_disk. unfold AllocJournal.tj in Hs. rewrite Hs. split; intros; by left. }
  destruct Hn as [Hn|[[d Hn]|[Hn|[[nj Hn]|[[nj Hn]|[(cut&a&Hn)|[Hn|[Hn|Hn]]]]]]]].
  - destruct Hn as (_&Hn&->). by apply Hsame.
  - destruct Hn as (img&frozen&->&Hcc&Hcd&Hfr&Hdt&Hnf&->). by apply Hsame.
  - destruct Hn as (_&Hn&->). by apply Hsame.
  - destruct Hn as ([m ->]&Hn&->). apply Hsame. simpl in Hn. by apply put_pages in Hn.
  - destruct Hn as (lsn&re&deallocs&keep&nfirst&->&->&Hcd&Hnf&Hkeep&->&Hdt&Hut&->).
    destruct (struct_discard _ _ _ _ _ _ Htw Hac Hst Hcd Hkeep Hdt) as (Hvd&l'&rest&->&Hst'&Hrest&Hl').
    pose proof Hdt as [(_&_&Hsub&_) Hkd]. destruct Hst as (Hp&Hok&Hwa&Htight&Hback&Hord&Hlive).
    unfold on_disk. simpl. split.
    + intros a r Ha. destruct (entries (disk_view (Linked.truncated_journal nj)) !! a) as [r'|] eqn:E.
      * left. pose proof (lookup_weaken _ _ _ _ E Hsub) as E'. unfold AllocJournal.tj in E'. by simplify_eq.
      * right. split_and!; [done| |].
        -- apply elem_of_difference. split; [apply (Htight a); by eexists|]. intros Hv.
           assert (a ∈ keep) as Hk by (apply Hkeep; split; [by eexists|done]).
           rewrite Hkd in Hk. apply elem_of_dom in Hk as [? ?]. congruence.
        -- eexists _, _, _. split; [done|].
           destruct (decide (seq_end (message_seq r) ≤ lsn)) as [|Hgt]; [done|]. exfalso.
           assert ((a, r) ∈ l' ++ rest) as Hin.
           { apply Hlive; [done|]. destruct Hcd as [Hc _]. unfold Linked.tj_seq_start in Hc. lia. }
           apply elem_of_app in Hin as [Hin|Hin]; [|specialize (Hrest _ _ Hin); lia].
           destruct Hst' as (Hp'&_). pose proof (path_entries _ _ _ Hp' _ _ Hin). congruence.
    + intros a r Ha. left. by eapply lookup_weaken.
  - destruct Hn as (->&Htn&Hcut&Hcan&->).
    destruct (tight_next_facts _ _ _ _ _ Hst Hma Htn) as (Hun&Haw&Hafter&Hprev).
    unfold on_disk, AllocJournal.tj in *. simpl in *. split.
    + intros b r Hb. left. rewrite lookup_insert_ne; [done|]. intros <-. congruence.
    + intros b r Hb. destruct (decide (b = a)) as [->|Hne].
      * right. split_and!; [by rewrite Hun|done|]. destruct Htn as [(p&Hp&_&_&Hnin) _]. exists p. set_solver.
      * left. by rewrite lookup_insert_ne in Hb.
  - destruct Hn as (alls&->&Hd1&Hd2&->). by apply Hsame.
  - destruct Hn as (deallocs&->&Hrm&->). by apply Hsame.
  - destruct Hn as (->&->). by apply Hsame.
Qed.
(** Space accounting. *)
Lemma alloc_step_space pre post l : alloc_inv pre → AllocJournal.next pre post l →
  taken l ## AllocJournal.accessible_aus pre ∧ given_back l ⊆ AllocJournal.accessible_aus pre ∧
  AllocJournal.accessible_aus post = (AllocJournal.accessible_aus pre ∪ taken l) ∖ given_back l.
Proof.
  intros Hinv Hn. pose proof Hinv as (Hi&(pl&Hst)&Hfirst&Hma). pose proof Hi as [Hwf Hac].
  pose proof Hwf as (Htw&Hmw&Hse&Hee).
  destruct Hn as [Hn|[[d Hn]|[Hn|[[nj Hn]|[[nj Hn]|[(cut&a&Hn)|[Hn|[Hn|Hn]]]]]]]].
  - destruct Hn as ([m ->]&Hn&->). simpl. set_solver.
  - destruct Hn as (img&frozen&->&Hcc&Hcd&Hfr&Hdt&Hnf&->). simpl. set_solver.
  - destruct Hn as ([m ->]&Hn&->). simpl. set_solver.
  - destruct Hn as ([m ->]&Hn&->). unfold AllocJournal.accessible_aus. simpl. set_solver.
  - destruct Hn as (lsn&re&deallocs&keep&nfirst&->&->&Hcd&Hnf&Hkeep&->&Hdt&Hut&->).
    unfold AllocJournal.accessible_aus. cbn [taken given_back AllocJournal.lsn_au_index AllocJournal.mini_allocator].
    rewrite dom_prune.
    assert (values (index_discard_up_to (AllocJournal.lsn_au_index pre) lsn) ⊆ values (AllocJournal.lsn_au_index pre)) as Hsub.
    { intros v [k Hk]%elem_of_values. apply elem_of_values. exists k. by apply lookup_discard_up_to in Hk as [_ ?]. }
    revert Hsub. generalize (values (index_discard_up_to (AllocJournal.lsn_au_index pre) lsn)) as nv.
    generalize (values (AllocJournal.lsn_au_index pre)) as ov. generalize (dom (allocs (AllocJournal.mini_allocator pre))) as al.
    clear. intros al ov nv Hsub. split_and!; [set_solver|set_solver|]. apply set_eq. intros u. specialize (Hsub u).
    rewrite !elem_of_union, !elem_of_difference, !elem_of_union.
    destruct (decide (u ∈ nv)); destruct (decide (u ∈ ov)); set_solver.
  - destruct Hn as (->&Htn&Hcut&Hcan&->). unfold AllocJournal.accessible_aus. simpl.
    destruct Htn as [(p&Hp&_) _]. rewrite (dom_alloc_observe _ _ _ Hp).
    destruct Hst as (Hpth&Hok&_). pose proof Htw as [Hw Hb].
    rewrite (idx_values_append _ _ _ _ _ _ Hw Hpth Hb Hok); [|done|simpl; lia].
    assert (au a ∈ dom (allocs (AllocJournal.mini_allocator pre))) by (apply elem_of_dom; by eexists). set_solver.
  - destruct Hn as (alls&->&Hd1&Hd2&->). unfold AllocJournal.accessible_aus. cbn [taken given_back AllocJournal.lsn_au_index AllocJournal.mini_allocator]. rewrite dom_add_aus. set_solver.
  - destruct Hn as (deallocs&->&Hrm&->). unfold AllocJournal.accessible_aus.
    cbn [taken given_back AllocJournal.lsn_au_index AllocJournal.mini_allocator]. rewrite dom_prune.
    assert (deallocs ⊆ dom (allocs (AllocJournal.mini_allocator pre))) as Hs1.
    { intros u Hu. destruct (Hrm u Hu) as (p&Hp&_). apply elem_of_dom. by eexists. }
    assert (deallocs ## values (AllocJournal.lsn_au_index pre)) as Hs2.
    { intros u Hu [k Hk]%elem_of_values. destruct (Hrm u Hu) as (p&Hp&Hnr).
      destruct Hst as (Hpth&Hok&_). apply Hok in Hk as (b&r&Hin&_&<-).
      destruct Hma as (_&Hres&_). unfold has_no_outstanding_refs in Hnr.
      assert (b ∈ reserved p) by (eapply Hres; [exists r; by eapply path_entries|done]). set_solver. }
    split_and!; [set_solver|set_solver|]. set_solver.
  - destruct Hn as (->&->). simpl. set_solver.
Qed.
Lemma alloc_pages_accessible s : alloc_inv s → ∀ a r, on_disk s a r → au a ∈ AllocJournal.accessible_aus s.
Proof.
  intros (Hi&(pl&Hst)&_) a r Ha. destruct Hst as (_&_&_&Ht&_). destruct (Ht a) as [Hv _]; [by eexists|].
  unfold AllocJournal.accessible_aus. set_solver.
Qed.
Lemma alloc_index s : alloc_inv s → au_index_locates (AllocJournal.lsn_au_index s) (Linked.truncated_journal (AllocJournal.journal s)).
Proof.
  intros (Hinv&(l&Hst)&_). destruct Hst as (Hp&Hok&_).
  pose proof (linked_wf_inv _ Hinv) as [[Hw Hb] Hac]. unfold AllocJournal.tj in *. split.
  - intros lsn u. rewrite (Hok lsn u). split.
    + intros (a&r&Hin&[H1 H2]&<-). split; [lia|]. exists a, r. split; [done|].
      split; [apply (path_reaches _ _ _ Hp); by eexists|]. split; [by eapply path_entries|lia].
    + intros (Hle&a&r&<-&Hre&He&Hrr). destruct (proj1 (path_reaches _ _ _ Hp a) Hre) as [r' Hin].
      pose proof (path_entries _ _ _ Hp _ _ Hin) as He'. simplify_eq.
      exists a, r. split_and!; [done|split; lia|done].
  - intros lsn. rewrite (idx_ok_dom au _ _ _ _ Hw Hp Hb Hok lsn). split.
    + intros Hlt. split; [lia|]. intros e He. unfold chain_ends_at in He. unfold Linked.dv_seq_end in Hlt.
      destruct (freshest_rec (Linked.truncated_journal (AllocJournal.journal s))) as [f|].
      * destruct He as (r&Hr'&->). rewrite Hr' in Hlt. lia.
      * lia.
    + intros [Hle He]. split; [done|]. apply He. unfold chain_ends_at, Linked.dv_seq_end.
      destruct (freshest_rec (Linked.truncated_journal (AllocJournal.journal s))) as [f|] eqn:Ef; [|done].
      destruct Hb as [Hb1 _]. destruct (Hb1 f eq_refl) as [r Hr']. exists r. by rewrite Hr'.
Qed.
Lemma freeze_only pre post img : AllocJournal.next pre post (AllocJournal.FreezeForCommit img) →
  ∃ d, AllocJournal.freeze_for_commit pre post (AllocJournal.FreezeForCommit img) d.
Proof.
  intros [Hn|[[d Hn]|[Hn|[[nj Hn]|[[nj Hn]|[(cut&a&Hn)|[Hn|[Hn|Hn]]]]]]]].
  - by destruct Hn as ([? ?]&_).
  - by exists d.
  - by destruct Hn as ([? ?]&_).
  - by destruct Hn as ([? ?]&_).
  - by destruct Hn as (?&?&?&?&?&?&_).
  - by destruct Hn as (?&_).
  - by destruct Hn as (?&?&_).
  - by destruct Hn as (?&?&_).
  - by destruct Hn as (?&_).
Qed.
(** A frozen image can be recovered from: it is valid, a journal started from
    it holds exactly the frozen history, and it uses only units and pages the
    running journal had. *)
Lemma alloc_freeze pre post img : alloc_inv pre → AllocJournal.next pre post (AllocJournal.FreezeForCommit img) →
  valid_image img ∧
  (∃ s j, AllocJournal.initialize s j img) ∧
  (∀ a r, entries (disk_view (img_tj img)) !! a = Some r → on_disk pre a r).
Proof.
  intros (Hi&(pl&Hst)&Hfirst&Hma) [d Hn]%freeze_only. pose proof Hi as [(Htw&_) Hac].
  destruct Hn as (img'&frozen&[= <-]&Hcc&Hcd&Hfr&Hdt&Hnf&->).
  destruct (struct_freeze _ _ _ _ _ _ Htw Hac Hst Hcc Hcd Hfr Hdt) as (Hvd&Hdec&l'&Hst').
  destruct (struct_valid_image _ (img_first img) _ _ Hdec Hst') as [Hvi Hidx].
  { intros [f Hf]. apply lookup_index_range.
    destruct (crop_facts _ _ _ Htw (proj1 Hst) Hcc) as [Hcw _].
    pose proof Hdt as [(_&Hnb&_&_&Hnfr) _]. rewrite Hnfr in Hf. case_decide as Hde; [done|].
    change (boundary_lsn (disk_view (img_tj img))) with (Linked.tj_seq_start (img_tj img)) in *.
    change (Linked.truncated_journal (AllocJournal.journal pre)) with (AllocJournal.tj pre) in *.
    split.
    { split; [done|]. rewrite discard_seq_end by done. destruct Hcd as [_ Hcd]. lia. }
    destruct Hst as (Hp&Hok&_). pose proof Htw as [Hw Hb].
    assert (is_Some (AllocJournal.lsn_au_index pre !! Linked.tj_seq_start (img_tj img))) as [v Hv].
    { apply (idx_ok_dom au _ _ _ _ Hw Hp Hb Hok). destruct Hcd as [Hc1 Hc2].
      unfold Linked.tj_seq_start in Hc1 |- *. simpl in Hc1. split; [exact Hc1|].
      (* the cropped end is at most the end *)
      destruct (can_crop_path _ _ _ _ Hw Hp Hb Hcc) as (Hcp&Hcb&_).
      assert (Linked.tj_seq_end (Linked.tj_crop (AllocJournal.tj pre) d) ≤ Linked.dv_seq_end (disk_view (AllocJournal.tj pre)) (freshest_rec (AllocJournal.tj pre))) as Hle.
      { simpl in Hf. unfold Linked.tj_seq_end. simpl. rewrite Hf in Hcp |- *.
        inversion Hcp as [|? rf lt Hrf Hpt Heq1 Heq2]; subst. simpl. rewrite Hrf.
        assert ((f, rf) ∈ pl) as Hin.
        { rewrite <- (take_drop d pl). apply elem_of_app. right. rewrite <- Heq2. by left. }
        pose proof (path_chain _ _ _ Hw Hp Hb _ _ Hin). lia. }
      unfold Linked.tj_seq_start in *. simpl in *. lia. }
    rewrite Hv. f_equal. symmetry. apply (Hnf f v); [|done].
    assert (Linked.tj_seq_end (img_tj img) ≠ Linked.tj_seq_start (img_tj img)) as Hne.
    { destruct Hdec as [[Hdw [Hb1 Hb2]] _]. unfold Linked.tj_seq_end. rewrite Hnfr, Hf.
      destruct (Hb1 f) as [rf Hrf]; [by rewrite Hnfr|]. simpl. rewrite Hrf.
      specialize (Hb2 f rf). rewrite Hnfr in Hb2. specialize (Hb2 Hf Hrf). unfold Linked.tj_seq_start. lia. }
    rewrite decide_False by done. by rewrite Hnfr. }
  destruct img as [itj ifirst]. simpl in *. split; [done|]. split.
  - eexists _, (Linked.mkState itj (empty_history_at (Linked.tj_seq_end itj))). split; [done|]. split; [by split|done].
  - intros a r Ha. destruct Hdt as [(_&_&Hsub&_) _]. by eapply lookup_weaken in Ha.
Qed.

(** ** At every point of every run *)
Lemma C14_run_inv s0 j img ls s : AllocJournal.initialize s0 j img → run AllocJournal.next s0 ls s → alloc_inv s.
Proof. intros Hi Hr. by destruct (alloc_run _ _ _ _ _ Hi Hr) as (_&_&?). Qed.
Lemma alloc_given_back s0 j img ls s l s' u : AllocJournal.initialize s0 j img → run AllocJournal.next s0 ls s →
  AllocJournal.next s s' l → u ∈ given_back l →
  u ∈ AllocJournal.accessible_aus s ∧ u ∉ AllocJournal.accessible_aus s' ∧ ∀ a r, on_disk s' a r → au a ≠ u.
Proof.
  intros Hi Hr Hn Hu. pose proof (C14_run_inv _ _ _ _ _ Hi Hr) as Hinv.
  destruct (alloc_step_space _ _ _ Hinv Hn) as (H1&H2&H3). split; [by apply H2|].
  assert (u ∉ AllocJournal.accessible_aus s') as Hnot by (rewrite H3; set_solver).
  split; [done|]. intros a r Ha <-. apply Hnot. eapply alloc_pages_accessible; [|done].
  by destruct (alloc_next_sim _ _ _ Hinv Hn).
Qed.
End Facts.
