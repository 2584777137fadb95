(** Proofs: the journal can always make its records durable (C49). *)
From Verif Require Import Abs_Model Abs_Spec Abs_Proof Spec_Proof Journal_Model Journal_Spec Paged_Proof
  Linked_Proof AllocJournal_Model AllocJournal_Spec Likes_Proof AllocJournal_Proof AllocJournal_Facts
  CachedFacts_Proof CrashJournal_Model CrashJournal_Spec CrashJournal_Proof CrashJournal_Facts CrashJournal_Durable
  JournalLive_Spec.
Open Scope nat_scope.

Section Live.
Context `{Geometry}.

(** ** The unit being filled has a page left *)
Definition curr_ok (s : AllocJournal.State) : Prop :=
  ∀ u, curr (AllocJournal.mini_allocator s) = Some u →
    ∃ f p, freshest_rec (AllocJournal.tj s) = Some f ∧ au f = u ∧
      allocs (AllocJournal.mini_allocator s) !! u = Some p ∧ all_pages_allocated p = false ∧
      ∀ a, au a = u → a ∈ observed p ∪ reserved p ↔ page a ≤ page f.
Lemma curr_ok_step pre post l : alloc_inv pre → curr_ok pre → AllocJournal.next pre post l → curr_ok post.
Proof.
  intros Hinv Hc Hn. destruct (alloc_next_sim _ _ _ Hinv Hn) as [_ Hinv'].
  destruct Hinv' as (_&_&_&_&_&_&Hcurr').
  destruct Hn as [Hn|[[d Hn]|[Hn|[[nj Hn]|[[nj Hn]|[(cut&a&Hn)|[Hn|[Hn|Hn]]]]]]]].
  - destruct Hn as (_&Hn&->). done.
  - destruct Hn as (img&frozen&->&Hcc&Hcd&Hfr&Hdt&Hnf&->). done.
  - destruct Hn as (_&Hn&->). done.
  - destruct Hn as ([m ->]&Hn&->). simpl in Hn. apply put_pages in Hn. unfold curr_ok, AllocJournal.tj in *. simpl in *.
    by rewrite Hn.
  - destruct Hn as (lsn&re&deallocs&keep&nfirst&->&->&Hcd&Hnf&Hkeep&->&Hdt&Hut&->).
    intros u Hu. destruct (Hcurr' u Hu) as (f&Hf&Hfu). revert Hu. simpl.
    destruct (curr (AllocJournal.mini_allocator pre)) as [u'|] eqn:Ec; [|done]. case_decide as Hd; [done|]. intros [= ->].
    destruct (Hc u Ec) as (f'&p&Hf'&Hfu'&Hp&Hall&Hpg).
    assert (f' = f) as ->.
    { unfold AllocJournal.tj in Hf. simpl in Hf. destruct Hdt as [(_&_&_&_&Hnfr) _]. rewrite Hnfr in Hf.
      case_decide; [done|]. congruence. }
    exists f, p. split_and!; try done. by apply lookup_prune.
  - destruct Hn as (->&Htn&Hcut&Hcan&->). destruct Htn as ((p0&Hp0&Hfr)&Hnone&Hsome).
    intros u. cbn [AllocJournal.mini_allocator]. rewrite (curr_alloc_observe _ _ _ Hp0).
    destruct (all_pages_allocated (reserve p0 {[a]})) eqn:Eall; [done|]. intros [= <-].
    exists a. eexists. split; [done|]. split; [done|]. split; [apply (lookup_alloc_observe _ _ _ Hp0); by left|].
    split.
    + revert Eall. unfold all_pages_allocated, reserve. simpl. rewrite !bool_decide_eq_false. intros Hno [?|Hfa]; apply Hno; [by left|].
      right. revert Hfa. apply Forall_impl. intros g. set_solver.
    + intros b Hb. simpl. destruct (curr (AllocJournal.mini_allocator pre)) as [u'|] eqn:Ec.
      * destruct (Hc u' Ec) as (f&p&Hf&Hfu&Hp&Hall&Hpg). pose proof (Hsome ltac:(by eexists) f Hf) as ->.
        simpl in *. rewrite Hfu in Hp0. simplify_eq.
        assert (b ∈ observed p0 ∪ reserved p0 ↔ page b ≤ page f) as Hbb by (by apply Hpg).
        rewrite !elem_of_union, !elem_of_singleton. rewrite elem_of_union in Hbb. split.
        -- intros [[?| ->]|[?| ->]]; simpl; try lia; assert (page b ≤ page f) by tauto; lia.
        -- intros Hle. destruct (decide (page b = page f + 1)) as [He|Hne].
           ++ left; right. destruct b, f. unfold addr_next. simpl in *. f_equal; [congruence|lia].
           ++ assert (page b ≤ page f) as Hlt by (unfold addr_next in Hle; simpl in Hle; lia). tauto.
      * destruct (Hnone eq_refl) as [Hfree Hpa]. destruct (Hfree _ Hp0) as [Ho Hr].
        unfold has_no_observed_pages in Ho. unfold has_no_outstanding_refs in Hr. rewrite Ho, Hr, Hpa.
        rewrite !elem_of_union, !elem_of_singleton, elem_of_empty. split.
        -- intros [[?| ->]|[?| ->]]; try done; lia.
        -- intros ?. left; right. destruct a, b; simpl in *. f_equal; [congruence|lia].
  - destruct Hn as (alls&->&Hd1&Hd2&->). intros u Hu. destruct (Hc u Hu) as (f&p&?&?&Hp&?&?). exists f, p.
    split_and!; try done. apply lookup_add_aus. by left.
  - destruct Hn as (deallocs&->&Hrm&->). intros u. simpl.
    destruct (curr (AllocJournal.mini_allocator pre)) as [u'|] eqn:Ec; [|done]. case_decide as Hd; [done|]. intros [= ->].
    destruct (Hc u Ec) as (f&p&?&?&Hp&?&?). exists f, p. split_and!; try done. by apply lookup_prune.
  - destruct Hn as (->&->). done.
Qed.
Lemma curr_ok_next v : curr_ok v → is_Some (curr (AllocJournal.mini_allocator v)) → ma_wf (AllocJournal.mini_allocator v) →
  ∃ a, tight_next_addr (AllocJournal.mini_allocator v) (freshest_rec (AllocJournal.tj v)) a.
Proof.
  intros Hc [u Hu] [Hmw _]. destruct (Hc u Hu) as (f&p&Hf&Hfu&Hp&Hall&Hpg). exists (addr_next f).
  destruct (Hmw _ _ Hp) as [_ Hpa].
  unfold all_pages_allocated in Hall. rewrite bool_decide_eq_false in Hall.
  assert (u < au_count ∧ page f + 1 < page_count) as [Hau Hpc].
  { destruct (decide (u < au_count)); [|exfalso; apply Hall; left; lia]. split; [done|].
    destruct (decide (page f + 1 < page_count)); [done|]. exfalso. apply Hall. right. apply Forall_forall.
    intros g Hg%elem_of_list_In%elem_of_seq. apply Hpg; [simpl; congruence|simpl; lia]. }
  split_and!.
  - exists p. simpl. rewrite Hfu. split; [done|]. split_and!; [split; simpl; rewrite ?Hfu; lia|simpl; congruence|].
    intros Hin. apply Hpg in Hin; [|simpl; congruence]. unfold addr_next in Hin. simpl in Hin. lia.
  - congruence.
  - intros _ g Hg. congruence.
Qed.

(** ** Writing the tail *)
Lemma marshal v a : alloc_inv v → tight_next_addr (AllocJournal.mini_allocator v) (freshest_rec (AllocJournal.tj v)) a →
  seq_start (Linked.unmarshalled_tail (AllocJournal.journal v)) < Linked.st_end (AllocJournal.journal v) →
  ∃ v', AllocJournal.next v v' (AllocJournal.InternalAllocations ∅ ∅) ∧
    Linked.tj_seq_end (AllocJournal.tj v') = Linked.st_end (AllocJournal.journal v) ∧
    Linked.st_end (AllocJournal.journal v') = Linked.st_end (AllocJournal.journal v).
Proof.
  intros Hi Ha Hlt. eexists. split.
  - do 5 right; left. exists (Linked.st_end (AllocJournal.journal v)), a. split; [done|]. split; [done|]. split; [done|].
    split; [|reflexivity]. unfold can_discard_to, Linked.st_end in *. lia.
  - unfold AllocJournal.tj, Linked.tj_seq_end. simpl. rewrite lookup_insert. done.
Qed.
Lemma no_tail v : alloc_inv v →
  ¬ seq_start (Linked.unmarshalled_tail (AllocJournal.journal v)) < Linked.st_end (AllocJournal.journal v) →
  Linked.tj_seq_end (AllocJournal.tj v) = Linked.st_end (AllocJournal.journal v).
Proof.
  intros [[(_&[Hmw _]&Hs&He) _] _]. unfold Linked.st_end, AllocJournal.tj in *. lia.
Qed.

(** ** Cutting a tight journal at a new boundary *)
Lemma cut_image v b : alloc_inv v → Linked.tj_can_discard_to (AllocJournal.tj v) b →
  let E := entries (disk_view (AllocJournal.tj v)) in
  let idx := index_discard_up_to (AllocJournal.lsn_au_index v) b in
  ∃ i, is_boundary i = b ∧
    is_freshest i = (if decide (Linked.tj_seq_end (AllocJournal.tj v) = b) then None else freshest_rec (AllocJournal.tj v)) ∧
    (is_Some (is_freshest i) → AllocJournal.lsn_au_index v !! b = Some (is_first i)) ∧
    Linked.tj_decodable (to_tj i (tight_dv i E)) ∧
    Linked.tj_seq_end (to_tj i (tight_dv i E)) = Linked.tj_seq_end (AllocJournal.tj v) ∧
    Linked.tj_seq_end (to_tj i E) = Linked.tj_seq_end (AllocJournal.tj v) ∧
    index_range (AllocJournal.lsn_au_index v) b (Linked.tj_seq_end (AllocJournal.tj v)) = idx ∧
    tight_dv i E ⊆ E ∧
    ∀ a, a ∈ dom (tight_dv i E) ↔ is_Some (E !! a) ∧ au a ∈ values idx.
Proof.
  intros Hinv Hcd E idx.
  pose proof Hinv as (Hi&(pl&Hst)&_). pose proof Hi as [Hwf Hac]. pose proof Hwf as (Htw&_).
  change (Linked.truncated_journal (AllocJournal.journal v)) with (AllocJournal.tj v) in Htw, Hac.
  pose proof Hst as (Hp&Hok&Hwa&Htight&Hback&Hord&Hlive).
  pose proof Htw as [Hw Hb].
  set (root := if decide (Linked.tj_seq_end (AllocJournal.tj v) = b) then None else freshest_rec (AllocJournal.tj v)).
  assert (∃ u, is_Some root → AllocJournal.lsn_au_index v !! b = Some u) as [u Hu].
  { unfold root. case_decide as Hd; [exists 0; by intros []|].
    destruct (AllocJournal.lsn_au_index v !! b) as [u|] eqn:Eu; [by exists u|]. exists 0. intros [f Hf]. exfalso.
    assert (is_Some (AllocJournal.lsn_au_index v !! b)) as [? ?]; [|congruence].
    apply (idx_ok_dom au _ _ _ _ Hw Hp Hb Hok). destruct Hcd. unfold Linked.tj_seq_end, Linked.tj_seq_start in *. lia. }
  set (i := mkIS root b u). exists i.
  destruct (tj_discard_split _ _ _ Htw Hp Hcd) as (l'&rest&Hp'&Hpl&Hrest&Hl').
  assert (supp v i) as Hs.
  { split; [apply Hcd|]. intros f Hf. simpl in Hf. split; [apply Hu; by eexists|]. revert Hf. unfold root.
    case_decide as Hd; [done|]. intros Hf. destruct Hb as [Hb1 Hb2]. destruct (Hb1 f Hf) as [rf Hrf].
    exists rf. split_and!; [|done|].
    - apply (path_reaches _ _ _ Hp). exists rf. unfold tj_path in Hp. rewrite Hf in Hp. inversion Hp; subst. simplify_eq. by left.
    - simpl. destruct Hcd as [_ Hcd]. unfold Linked.tj_seq_end in Hcd, Hd. rewrite Hf in Hcd, Hd. simpl in Hcd, Hd. rewrite Hrf in Hcd, Hd. lia. }
  assert (is_valid i E) as Hv by (by eapply supp_valid).
  destruct (tight_struct i E Hv) as (Hdec&(l&Hl&Hst')&_).
  assert (l = l') as ->.
  { eapply path_det; [exact Hl|]. exact Hp'. }
  assert (build_lsn_au_index (to_tj i E) (is_first i) = idx) as Eidx.
  { eapply (idx_ok_eq au); [apply Hst'|]. simpl. unfold idx. eapply idx_discard_ok; [by rewrite <- Hpl|apply Hcd|done]. }
  assert (Linked.tj_seq_end (to_tj i E) = Linked.tj_seq_end (AllocJournal.tj v)) as Eend.
  { exact (discard_seq_end _ _ Htw Hcd). }
  split; [done|]. split; [done|]. split; [exact Hu|]. split; [done|].
  split; [|split; [done|]].
  { rewrite <- Eend. unfold Linked.tj_seq_end, to_tj. simpl. destruct root as [f|] eqn:Er; [|done]. simpl.
    destruct Hdec as [[_ [Hd1 _]] _]. destruct (Hd1 f eq_refl) as [rf Hrf]. simpl in Hrf. rewrite Hrf.
    assert (E !! f = Some rf) as ->; [|done]. eapply lookup_weaken; [exact Hrf|]. apply map_filter_subseteq. }
  split.
  { apply map_eq. intros k. apply option_eq. intros w. rewrite lookup_index_range. unfold idx. rewrite lookup_discard_up_to.
    split; [by intros [[??]?]|]. intros [Hle Hk]. split; [|done]. split; [done|].
    assert (is_Some (AllocJournal.lsn_au_index v !! k)) as Hk' by (by eexists).
    apply (idx_ok_dom au _ _ _ _ Hw Hp Hb Hok) in Hk'. unfold Linked.tj_seq_end. lia. }
  split; [apply map_filter_subseteq|].
  intros a. rewrite elem_of_dom. unfold tight_dv. split.
  - intros [r [Ha [Hva _]]%map_filter_lookup_Some]. split; [by eexists|]. rewrite <- Eidx. exact Hva.
  - intros [[r Ha] Hva]. exists r. apply map_filter_lookup_Some. split; [done|]. split; [rewrite Eidx; exact Hva|]. simpl.
    unfold root. case_decide; simpl; [tauto|]. destruct (freshest_rec (AllocJournal.tj v)) as [f|] eqn:Ef; simpl; [|tauto].
    apply (Htight a); [by eexists|done].
Qed.

Lemma can_freeze v b : alloc_inv v → Linked.tj_can_discard_to (AllocJournal.tj v) b →
  ∃ img, AllocJournal.next v v (AllocJournal.FreezeForCommit img) ∧
    Linked.tj_seq_start (img_tj img) = b ∧ Linked.tj_seq_end (img_tj img) = Linked.tj_seq_end (AllocJournal.tj v).
Proof.
  intros Hi Hcd. destruct (cut_image v b Hi Hcd) as (i&Hib&Hif&Hidx&Hdec&He1&He2&Eidx&Hsub&Hdom).
  set (E := entries (disk_view (AllocJournal.tj v))) in *.
  set (img := mkImage (to_tj i (tight_dv i E)) (is_first i)).
  exists img. split; [|split; [done|done]].
  pose proof Hi as ([(Htw&_) Hac]&(pl&Hp&_&_&Ht&_)&_).
  change (Linked.truncated_journal (AllocJournal.journal v)) with (AllocJournal.tj v) in Htw.
  right; left. exists 0, img, (dom (tight_dv i E)). cbv zeta.
  assert (Linked.tj_crop (AllocJournal.tj v) 0 = AllocJournal.tj v) as ->.
  { unfold Linked.tj_crop. simpl. by destruct (AllocJournal.tj v). }
  assert (Linked.tj_seq_start (img_tj img) = b) as -> by done.
  split; [done|]. split; [done|]. split; [done|].
  rewrite (discard_seq_end _ _ Htw Hcd), Eidx.
  split.
  { intros a. rewrite Hdom. unfold in_tight_domain. split; [|naive_solver]. intros [Ha Hva]. split_and!; [done|done|].
    intros f Hf. simpl in Hf. rewrite Hif in Hf. case_decide; [done|]. by apply (Ht a Ha). }
  split; [|split; [|done]].
  - split; [|done]. split_and!; [apply Hdec|done|done|done|done].
  - intros a w Hs Hw. simpl in Hs. symmetry.
    assert (is_Some (is_freshest i)) as Hsi by (case_decide; [done|by eexists]). specialize (Hidx Hsi). rewrite Hw in Hidx. by injection Hidx.
Qed.
Lemma can_truncate v b : alloc_inv v → Linked.tj_can_discard_to (AllocJournal.tj v) b →
  ∃ v' dl, AllocJournal.next v v' (AllocJournal.DiscardOld b (Linked.st_end (AllocJournal.journal v)) dl) ∧
    Linked.tj_seq_start (AllocJournal.tj v') = b ∧
    Linked.tj_seq_end (AllocJournal.tj v') = Linked.tj_seq_end (AllocJournal.tj v).
Proof.
  intros Hi Hcd. destruct (cut_image v b Hi Hcd) as (i&Hib&Hif&Hidx&Hdec&He1&He2&Eidx&Hsub&Hdom).
  set (E := entries (disk_view (AllocJournal.tj v))) in *.
  set (nj := Linked.mkState (to_tj i (tight_dv i E))
       (Linked.bounded_discard (Linked.unmarshalled_tail (AllocJournal.journal v)) b)).
  set (nidx := index_discard_up_to (AllocJournal.lsn_au_index v) b) in *.
  set (dl := values (AllocJournal.lsn_au_index v) ∖ values nidx).
  exists (AllocJournal.mkState nj nidx (is_first i) (prune (AllocJournal.mini_allocator v) dl)), dl.
  split; [|by split].
  do 4 right; left. exists nj, b, (Linked.st_end (AllocJournal.journal v)), dl, (dom (tight_dv i E)), (is_first i).
  split; [done|]. split; [done|]. split; [done|]. split.
  { intros a w Hs Hw. rewrite <- Hif in Hs.
    assert (is_Some (is_freshest i)) as Hsi by (by eexists). specialize (Hidx Hsi). congruence. }
  split; [done|]. split; [done|]. split; [|by split]. split; [|done]. split_and!; [apply Hdec|done|done|done|done].
Qed.

(** Everything is on pages. *)
Definition written (v : AllocJournal.State) : Prop :=
  Linked.tj_seq_end (AllocJournal.tj v) = Linked.st_end (AllocJournal.journal v).
Lemma free_next m root u p : allocs m !! u = Some p → pa_au p = u → all_pages_free p → addr_wf (mkAddr u 0) → curr m = None →
  tight_next_addr m root (mkAddr u 0).
Proof.
  intros Hp Hpa Hf Hw Hn. split_and!.
  - exists p. split; [done|]. split_and!; [done|done|]. destruct Hf as [Ho Hr].
    unfold has_no_observed_pages in Ho. unfold has_no_outstanding_refs in Hr. rewrite Ho, Hr. set_solver.
  - intros _. split; [|done]. intros p' Hp'. simpl in Hp'. by simplify_eq.
  - rewrite Hn. by intros [].
Qed.
Lemma write_tail v (U : AU → Prop) : alloc_inv v → curr_ok v →
  (holds_room (AllocJournal.mini_allocator v) ∨
   ∃ u, addr_wf (mkAddr u 0) ∧ u ∉ AllocJournal.accessible_aus v ∧ U u) →
  ∃ alls v1 v2, AllocJournal.next v v1 (AllocJournal.InternalAllocations alls ∅) ∧
    AllocJournal.next v1 v2 (AllocJournal.InternalAllocations ∅ ∅) ∧
    (∀ u, u ∈ alls → U u ∧ u ∉ AllocJournal.accessible_aus v) ∧ written v2.
Proof.
  intros Hi Hc Hroom. pose proof Hi as (_&_&_&Hmw&_).
  destruct (decide (seq_start (Linked.unmarshalled_tail (AllocJournal.journal v)) < Linked.st_end (AllocJournal.journal v))) as [Hlt|Hge].
  2: { exists ∅, v, v. split; [by do 8 right|]. split; [by do 8 right|]. split; [set_solver|]. by apply no_tail. }
  assert (∀ a, tight_next_addr (AllocJournal.mini_allocator v) (freshest_rec (AllocJournal.tj v)) a →
    ∃ alls v1 v2, AllocJournal.next v v1 (AllocJournal.InternalAllocations alls ∅) ∧
    AllocJournal.next v1 v2 (AllocJournal.InternalAllocations ∅ ∅) ∧
    (∀ u, u ∈ alls → U u ∧ u ∉ AllocJournal.accessible_aus v) ∧ written v2) as Hgo.
  { intros a Ha. destruct (marshal v a Hi Ha Hlt) as (v'&Hn&H1&H2). exists ∅, v, v'.
    split; [by do 8 right|]. split; [done|]. split; [set_solver|]. unfold written. congruence. }
  destruct (curr (AllocJournal.mini_allocator v)) as [c|] eqn:Ec.
  { destruct (curr_ok_next v Hc) as [a Ha]; [by eexists|done|]. by eapply Hgo. }
  destruct Hroom as [[[? ?]|(u&p&Hp&Hf&Hw)]|(u&Hw&Hu&HU)]; [congruence| |].
  { apply (Hgo (mkAddr u 0)), (free_next _ _ u p); try done. by apply (proj1 Hmw). }
  set (v1 := AllocJournal.mkState (AllocJournal.journal v) (AllocJournal.lsn_au_index v) (AllocJournal.first v)
    (add_aus (AllocJournal.mini_allocator v) {[u]})).
  assert (AllocJournal.next v v1 (AllocJournal.InternalAllocations {[u]} ∅)) as Hn1.
  { do 6 right; left. exists {[u]}. unfold AllocJournal.accessible_aus in Hu. split; [done|]. split; [set_solver|]. split; [set_solver|done]. }
  destruct (alloc_next_sim _ _ _ Hi Hn1) as [_ Hi1].
  destruct (marshal v1 (mkAddr u 0) Hi1) as (v2&Hn2&H1&H2).
  { apply (free_next _ _ u (pa_new u)); try done. simpl. apply lookup_add_aus. right. split_and!; [|set_solver|done].
    apply not_elem_of_dom. unfold AllocJournal.accessible_aus in Hu. set_solver. }
  { done. }
  exists {[u]}, v1, v2. split; [done|]. split; [done|]. split; [|unfold written; congruence].
  intros x Hx%elem_of_singleton. by subst.
Qed.
Lemma written_start v : written v → alloc_inv v → seq_start (Linked.unmarshalled_tail (AllocJournal.journal v)) = Linked.st_end (AllocJournal.journal v).
Proof. intros Hw [[(_&_&_&He) _] _]. unfold written, AllocJournal.tj in *. congruence. Qed.
Lemma truncate_written v b : alloc_inv v → written v → Linked.tj_can_discard_to (AllocJournal.tj v) b →
  ∃ v' dl, AllocJournal.next v v' (AllocJournal.DiscardOld b (Linked.st_end (AllocJournal.journal v)) dl) ∧ written v'.
Proof.
  intros Hi Hw Hcd. destruct (can_truncate v b Hi Hcd) as (v'&dl&Hn&H1&H2). exists v', dl. split; [done|].
  pose proof Hn as [Hn'|[[d Hn']|[Hn'|[[nj Hn']|[[nj Hn']|[(cut&a&Hn')|[Hn'|[Hn'|Hn']]]]]]]].
  1: by destruct Hn' as ([? ?]&_). 1: by destruct Hn' as (?&?&?&_). 1: by destruct Hn' as ([? ?]&_).
  1: by destruct Hn' as ([? ?]&_).
  2: by destruct Hn' as (?&_). 2: by destruct Hn' as (?&?&_). 2: by destruct Hn' as (?&?&_). 2: by destruct Hn' as (?&_).
  destruct Hn' as (lsn&re&dl'&keep&nf&[= <- <- <-]&_&_&_&_&_&_&Hut&->). unfold written. rewrite H2, Hw.
  unfold AllocJournal.tj, Linked.st_end. simpl. rewrite Hut. unfold Linked.bounded_discard. by case_decide.
Qed.

(** What the machine's journal means as a history. *)
Lemma journal_is_bounds v h : alloc_inv v → linked_journal_is (AllocJournal.journal v) h →
  seq_start h = Linked.tj_seq_start (AllocJournal.tj v) ∧ seq_end h = Linked.st_end (AllocJournal.journal v).
Proof.
  intros [[(Htw&_) _] _] (p&Hp&->). destruct (linked_holds_end _ _ Htw Hp) as [H1 _]. done.
Qed.

(** ** Images with pages of their own *)
Definition ac_live (s : AllocCrash.State) : Prop := ∀ v, AllocCrash.ephemeral s = Some v → curr_ok v.
Definition ac_written (s : AllocCrash.State) : Prop := ∃ v, AllocCrash.ephemeral s = Some v ∧ written v.
Lemma init_curr_ok img nj : AllocCrash.init_by img nj → curr_ok nj.
Proof. intros [_ ->] u Hu. done. Qed.
Lemma ac_live_step s s' l : ac_inv s → ac_live s → AllocCrash.next s s' l → ac_live s'.
Proof.
  intros (_&Hi&_) Hl Hn.
  destruct Hn as [[nj Hn]|[Hn|[Hn|[[nj Hn]|[[nj Hn]|[Hn|[[fz Hn]|[[nj Hn]|Hn]]]]]]]].
  - destruct Hn as (->&_&Hb&->). intros v [= <-]. by eapply init_curr_ok.
  - by destruct Hn as (m&v&->&_&_&->).
  - by destruct Hn as (m&v&->&_&_&->).
  - destruct Hn as (m&v&->&Hv&Hs&->). intros v' [= <-]. eapply curr_ok_step; [by apply Hi|by apply Hl|done].
  - destruct Hn as (x&y&v&->&Hv&_&Hs&->). intros v' [= <-]. eapply curr_ok_step; [by apply Hi|by apply Hl|done].
  - by destruct Hn as (n&->&_&->).
  - destruct Hn as (b&m&v&->&Hv&_&_&_&_&_&->). done.
  - destruct Hn as (e&d&v&f&->&Hv&_&Hs&->). intros v' [= <-]. eapply curr_ok_step; [by apply Hi|by apply Hl|done].
  - destruct Hn as (k&->&->). done.
Qed.
Lemma ac_write s : ac_inv s → ac_live s → alloc_room s →
  ∃ alls s1 s2, AllocCrash.next s s1 (AllocCrash.Internal alls ∅) ∧ AllocCrash.next s1 s2 (AllocCrash.Internal ∅ ∅) ∧
    ac_written s2.
Proof.
  intros Hi Hl (v&Hv&Hroom). destruct s as [P E F]. simpl in *. subst E.
  destruct (write_tail v (λ u, u ∉ img_accessible_aus P ∧ ∀ f, F = Some f → u ∉ img_accessible_aus f))
    as (alls&v1&v2&H1&H2&HU&Hw).
  - by apply Hi.
  - by apply Hl.
  - destruct Hroom as [?|(u&?&?&?&?)]; [by left|right]. by exists u.
  - exists alls, (AllocCrash.mkState P (Some v1) F), (AllocCrash.mkState P (Some v2) F). split_and!.
    + do 4 right; left. exists v1, alls, ∅, v. split_and!; try done. split_and!; simpl.
      * intros u Hu. by apply HU in Hu as [[? _] _].
      * intros u Hu. by apply HU in Hu as [_ ?].
      * intros f Hf u Hu. apply HU in Hu as [[_ Hff] _]. by apply Hff.
    + do 4 right; left. exists v2, ∅, ∅, v1. split_and!; try done.
    + by exists v2.
Qed.
Lemma ac_can_start s c a b mx : ac_inv s → alloc_crash_is s c → CTJournal.ephemeral c = Some a → CTJournal.in_flight c = None →
  ac_written s → seq_start (AbstractJournal.journal a) ≤ b ≤ seq_end (AbstractJournal.journal a) → b ≤ mx →
  seq_end (CTJournal.persistent c) ≤ seq_end (AbstractJournal.journal a) →
  ∃ s', AllocCrash.next s s' (AllocCrash.CommitStart b mx) ∧ ac_written s' ∧
    ∀ c' h, alloc_crash_is s' c' → CTJournal.in_flight c' = Some h →
      seq_start h = b ∧ seq_end h = seq_end (AbstractJournal.journal a).
Proof.
  intros (Hp&Hi&_) (Rp&Re&Rf) Ea Ef (v&Ev&Hw) Hb Hmx Hend. destruct s as [P E F]. destruct c as [cp ce cf]. simpl in *. subst E ce cf.
  destruct F; [done|]. specialize (Hi _ eq_refl). simpl in Re. destruct (journal_is_bounds _ _ Hi Re) as [Hs He].
  assert (Linked.tj_decodable (img_tj P)) as Hpd by (by apply valid_image_struct).
  destruct (linked_holds_end _ _ (proj1 Hpd) Rp) as [_ Hpe].
  destruct (can_freeze v b Hi) as (img&Hn&H1&H2). { unfold written in Hw. split; lia. }
  destruct (alloc_freeze _ _ _ Hi Hn) as (Hvi&_).
  exists (AllocCrash.mkState P (Some v) (Some img)). unfold written in Hw. split; [|split].
  - do 6 right; left. exists img, b, mx, v. split_and!; simpl; try done; lia.
  - by exists v.
  - intros c' h (_&_&Rf') Eh. rewrite Eh in Rf'. simpl in Rf'.
    assert (Linked.tj_decodable (img_tj img)) as Hfd by (by apply valid_image_struct).
    destruct (linked_holds_end _ _ (proj1 Hfd) Rf') as [Hhs Hhe]. split; congruence.
Qed.
Lemma ac_can_complete s c a h : ac_inv s → alloc_crash_is s c → CTJournal.ephemeral c = Some a → CTJournal.in_flight c = Some h →
  ac_written s → seq_start (AbstractJournal.journal a) ≤ seq_start h ≤ seq_end (AbstractJournal.journal a) →
  ∃ s' dl, AllocCrash.next s s' (AllocCrash.CommitComplete (seq_end (AbstractJournal.journal a)) dl) ∧ ac_written s'.
Proof.
  intros (Hp&Hi&Hf) (Rp&Re&Rf) Ea Ef (v&Ev&Hw) Hb. destruct s as [P E F]. destruct c as [cp ce cf]. simpl in *. subst E ce cf.
  destruct F as [f|]; [|done]. specialize (Hi _ eq_refl). simpl in Re, Rf. destruct (journal_is_bounds _ _ Hi Re) as [Hs He].
  assert (Linked.tj_decodable (img_tj f)) as Hfd by (by apply valid_image_struct, Hf).
  destruct (linked_holds_end _ _ (proj1 Hfd) Rf) as [Hhs Hhe]. unfold written in Hw.
  destruct (truncate_written v (Linked.tj_seq_start (img_tj f)) Hi Hw) as (v'&dl&Hn&Hw').
  { split; lia. }
  exists (AllocCrash.mkState f (Some v') None), dl. split; [|by exists v'].
  do 7 right; left. exists v', (seq_end (AbstractJournal.journal a)), dl, v, f. rewrite He. split_and!; try done.
Qed.
Lemma ac_can_ack s c n : ac_inv s → alloc_crash_is s c → n ≤ seq_end (CTJournal.persistent c) →
  AllocCrash.next s s (AllocCrash.QueryLsnPersistence n).
Proof.
  intros (Hp&_) (Rp&_) Hn. assert (Linked.tj_decodable (img_tj (AllocCrash.persistent s))) as Hpd by (by apply valid_image_struct).
  destruct (linked_holds_end _ _ (proj1 Hpd) Rp) as [_ Hpe]. do 5 right; left. exists n. split_and!; [done|lia|done].
Qed.

(** ** Images on one disk *)
Definition es_of (v : AllocJournal.State) : EphemeralState :=
  mkES (mkIS (freshest_rec (AllocJournal.tj v)) (boundary_lsn (disk_view (AllocJournal.tj v))) (AllocJournal.first v))
    (Linked.unmarshalled_tail (AllocJournal.journal v)) (AllocJournal.lsn_au_index v) (AllocJournal.mini_allocator v).
Definition dv_of (v : AllocJournal.State) : gmap Address JournalRecord := entries (disk_view (AllocJournal.tj v)).
Lemma to_aj_of v : to_aj (es_of v) (dv_of v) = v.
Proof. destruct v as [[[fr [b E]] t] idx f m]. done. Qed.
Definition uni_live (s : Unified.State) : Prop := ∀ v, Unified.ephemeral s = Some v → curr_ok (to_aj v (Unified.dv s)).
Definition uni_written (s : Unified.State) : Prop := ∃ v, Unified.ephemeral s = Some v ∧ written (to_aj v (Unified.dv s)).
Lemma uni_live_step s s' l : uni_inv s → uni_live s → Unified.next s s' l → uni_live s'.
Proof.
  intros Hi Hl Hn.
  assert (∀ v, Unified.ephemeral s = Some v → alloc_inv (to_aj v (Unified.dv s))) as Hi'.
  { intros v Hv. unfold uni_inv in Hi. rewrite Hv in Hi. by destruct Hi. }
  destruct Hn as [[ne Hn]|[Hn|[Hn|[[ne Hn]|[(ne&ndv&Hn)|[Hn|[(f&d&Hn)|[(ne&ndv&Hn)|Hn]]]]]]]].
  - destruct Hn as (->&_&_&[_ ->]&->). intros v [= <-] u Hu. done.
  - by destruct Hn as (m&v&->&_&_&->).
  - by destruct Hn as (m&v&->&_&_&->).
  - destruct Hn as (m&v&->&Hv&Hs&->). intros v' [= <-]. eapply curr_ok_step; [by apply Hi'|by apply Hl|done].
  - destruct Hn as (x&y&v&->&Hv&Hs&->). intros v' [= <-]. eapply curr_ok_step; [by apply Hi'|by apply Hl|done].
  - by destruct Hn as (n&->&_&->).
  - destruct Hn as (b&m&v&->&Hv&_&_&_&_&_&_&_&_&->). done.
  - destruct Hn as (e&d&v&f&->&Hv&_&Hs&->). intros v' [= <-]. eapply curr_ok_step; [by apply Hi'|by apply Hl|done].
  - destruct Hn as (k&->&->). done.
Qed.
Lemma uni_write s : uni_inv s → uni_live s → unified_room s →
  ∃ alls s1 s2, Unified.next s s1 (AllocCrash.Internal alls ∅) ∧ Unified.next s1 s2 (AllocCrash.Internal ∅ ∅) ∧
    uni_written s2.
Proof.
  intros Hi Hl (v&Hv&Hroom). destruct s as [E F P D]. unfold uni_inv in Hi. simpl in *. subst E. destruct Hi as [Hi _].
  destruct (write_tail (to_aj v D) (λ _, True)) as (alls&v1&v2&H1&H2&HU&Hw).
  - done.
  - by apply Hl.
  - destruct Hroom as [?|(u&?&?)]; [by left|right]. by exists u.
  - exists alls, (Unified.mkState (Some (es_of v1)) F P (dv_of v1)), (Unified.mkState (Some (es_of v2)) F P (dv_of v2)). split_and!.
    + do 4 right; left. exists (es_of v1), (dv_of v1), alls, ∅, v. split_and!; try done. simpl. by rewrite to_aj_of.
    + do 4 right; left. exists (es_of v2), (dv_of v2), ∅, ∅, (es_of v1). split_and!; try done. simpl. by rewrite !to_aj_of.
    + exists (es_of v2). simpl. by rewrite to_aj_of.
Qed.
Lemma uni_can_start s c a b mx : uni_inv s → unified_is s c → CTJournal.ephemeral c = Some a → CTJournal.in_flight c = None →
  uni_written s → seq_start (AbstractJournal.journal a) ≤ b ≤ seq_end (AbstractJournal.journal a) → b ≤ mx →
  seq_end (CTJournal.persistent c) ≤ seq_end (AbstractJournal.journal a) →
  ∃ s', Unified.next s s' (AllocCrash.CommitStart b mx) ∧ uni_written s' ∧
    ∀ c' h, unified_is s' c' → CTJournal.in_flight c' = Some h →
      seq_start h = b ∧ seq_end h = seq_end (AbstractJournal.journal a).
Proof.
  intros Hinv (Rp&Re&Rf) Ea Ef (v&Ev&Hw) Hb Hmx Hend.
  pose proof (uni_valid _ _ Hinv (or_introl eq_refl)) as Hpv.
  destruct s as [E F P D]. destruct c as [cp ce cf]. unfold uni_inv in Hinv. simpl in *. subst E ce cf.
  destruct F; [done|]. destruct Hinv as [Hi Hsup]. simpl in Re.
  change (linked_journal_is (AllocJournal.journal (to_aj v D)) (AbstractJournal.journal a)) in Re.
  destruct (journal_is_bounds _ _ Hi Re) as [Hs He].
  destruct (image_end _ _ _ (is_valid_decodable _ _ Hpv) Rp) as [_ Hpe].
  assert (Linked.tj_can_discard_to (AllocJournal.tj (to_aj v D)) b) as Hcd by (unfold written in Hw; split; lia).
  destruct (cut_image (to_aj v D) b Hi Hcd) as (i&Hib&Hif&Hidx&_&_&He2&_). unfold written in Hw.
  change (entries (disk_view (AllocJournal.tj (to_aj v D)))) with D in He2.
  exists (Unified.mkState (Some v) (Some i) P D). split; [|split].
  - do 6 right; left. exists i, 0, b, mx, v. split; [done|]. split; [done|]. split; [done|].
    split. { simpl. unfold is_seq_end in *. rewrite He2. lia. }
    split; [lia|]. split; [done|]. split; [done|]. simpl.
    assert (Linked.tj_crop (to_tj (es_image v) D) 0 = to_tj (es_image v) D) as -> by done.
    rewrite Hib. split; [done|]. split; [done|]. split; [exact Hif|done].
  - by exists v.
  - intros c' h (_&_&Rf') Eh. rewrite Eh in Rf'. simpl in Rf'. destruct Rf' as (Hhs&Hhe&_). simpl in Hhs. split; [congruence|].
    rewrite He, <-Hw, <-He2. unfold Linked.tj_seq_end. simpl in *. destruct (is_freshest i) as [f|]; simpl.
    + by destruct Hhe as (r&->&->).
    + done.
Qed.
Lemma uni_can_complete s c a h : uni_inv s → unified_is s c → CTJournal.ephemeral c = Some a → CTJournal.in_flight c = Some h →
  uni_written s → seq_start (AbstractJournal.journal a) ≤ seq_start h ≤ seq_end (AbstractJournal.journal a) →
  ∃ s' dl, Unified.next s s' (AllocCrash.CommitComplete (seq_end (AbstractJournal.journal a)) dl) ∧ uni_written s'.
Proof.
  intros Hinv (Rp&Re&Rf) Ea Ef (v&Ev&Hw) Hb. destruct s as [E F P D]. destruct c as [cp ce cf]. unfold uni_inv in Hinv. simpl in *. subst E ce cf.
  destruct F as [f|]; [|done]. destruct Hinv as [Hi Hsup]. simpl in Re, Rf.
  change (linked_journal_is (AllocJournal.journal (to_aj v D)) (AbstractJournal.journal a)) in Re.
  destruct (journal_is_bounds _ _ Hi Re) as [Hs He]. destruct Rf as (Hhs&_). simpl in Hhs. unfold written in Hw.
  destruct (truncate_written (to_aj v D) (is_boundary f) Hi Hw) as (v'&dl&Hn&Hw').
  { split; lia. }
  exists (Unified.mkState (Some (es_of v')) None f (dv_of v')), dl. split; [|exists (es_of v'); split; [done|]; simpl; by rewrite to_aj_of].
  do 7 right; left. exists (es_of v'), (dv_of v'), (seq_end (AbstractJournal.journal a)), dl, v, f. rewrite He. split_and!; try done.
  simpl. by rewrite to_aj_of.
Qed.
Lemma uni_can_ack s c n : uni_inv s → unified_is s c → n ≤ seq_end (CTJournal.persistent c) →
  Unified.next s s (AllocCrash.QueryLsnPersistence n).
Proof.
  intros Hinv (Rp&_) Hn. pose proof (uni_valid _ _ Hinv (or_introl eq_refl)) as Hpv.
  destruct (image_end _ _ _ (is_valid_decodable _ _ Hpv) Rp) as [_ Hpe].
  do 5 right; left. exists n. split_and!; [done|lia|done].
Qed.
End Live.
