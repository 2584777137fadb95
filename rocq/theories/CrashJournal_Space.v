(** Proofs: the pages of separate images are pages of the running journal (C41). *)
From Verif Require Import Abs_Model Abs_Spec Abs_Proof Spec_Proof Journal_Model Journal_Spec Paged_Proof
  Linked_Proof AllocJournal_Model AllocJournal_Spec Likes_Proof AllocJournal_Proof AllocJournal_Facts
  CachedFacts_Proof CrashJournal_Model CrashJournal_Spec CrashJournal_Proof CrashJournal_Facts.
Open Scope nat_scope.

Section Space.
Context `{Geometry}.

(** The pages [E] are on the journal's disk, in units that hold records from [b] on. *)
Definition kept (v : AllocJournal.State) (b : LSN) (E : gmap Address JournalRecord) : Prop :=
  ∀ a r, E !! a = Some r → on_disk v a r ∧ ∃ lsn, b ≤ lsn ∧ AllocJournal.lsn_au_index v !! lsn = Some (au a).

Lemma in_values {V} `{Countable V} (m : gmap nat V) k x : m !! k = Some x → x ∈ values m.
Proof. intros Hk. apply elem_of_values. by exists k. Qed.
Lemma index_step v nj L b lsn u : alloc_inv v → AllocJournal.next v nj L →
  (∀ x e d, L = AllocJournal.DiscardOld x e d → x ≤ b) → b ≤ lsn →
  AllocJournal.lsn_au_index v !! lsn = Some u → AllocJournal.lsn_au_index nj !! lsn = Some u.
Proof.
  intros Hinv Hn Hdis Hle Hidx. pose proof Hinv as (Hi&(pl&Hst)&Hfirst&Hma). pose proof Hi as [Hwf Hac].
  pose proof Hwf as (Htw&Hmw&Hse&Hee).
  destruct Hn as [Hn|[[d Hn]|[Hn|[[nj' Hn]|[[nj' Hn]|[(cut&a&Hn)|[Hn|[Hn|Hn]]]]]]]].
  - by destruct Hn as (_&Hn&->).
  - by destruct Hn as (img&frozen&->&Hcc&Hcd&Hfr&Hdt&Hnf&->).
  - by destruct Hn as (_&Hn&->).
  - by destruct Hn as ([m ->]&Hn&->).
  - destruct Hn as (x&re&deallocs&keep&nfirst&->&->&Hcd&Hnf&Hkeep&->&Hdt&Hut&->).
    specialize (Hdis _ _ _ eq_refl). simpl. apply lookup_discard_up_to. split; [lia|done].
  - destruct Hn as (->&Htn&Hcut&Hcan&->). simpl.
    destruct Hst as (Hp&Hok&_). destruct (proj1 (Hok lsn u) Hidx) as (c&q&Hin&[Hc1 Hc2]&Hau).
    pose proof Htw as [Hw Hb]. pose proof (path_chain _ _ _ Hw Hp Hb _ _ Hin) as [Hc _].
    unfold index_append_record. apply lookup_union_singleton. right. split; [|done]. simpl.
    unfold AllocJournal.tj, Linked.tj_seq_end in *. lia.
  - by destruct Hn as (alls&->&Hd1&Hd2&->).
  - by destruct Hn as (deallocs&->&Hrm&->).
  - by destruct Hn as (->&->).
Qed.
Lemma kept_step v nj L b E : alloc_inv v → AllocJournal.next v nj L →
  (∀ x e d, L = AllocJournal.DiscardOld x e d → x ≤ b) → kept v b E → kept nj b E.
Proof.
  intros Hi Hn Hdis Hk a r Ha. destruct (Hk a r Ha) as [Hd (lsn&Hle&Hidx)].
  pose proof (index_step _ _ _ _ _ _ Hi Hn Hdis Hle Hidx) as Hidx'.
  split; [|by exists lsn]. destruct (alloc_step_pages _ _ _ Hi Hn) as [Hp _].
  destruct (Hp a r Hd) as [?|(_&Hg&_)]; [done|exfalso].
  destruct (alloc_step_space _ _ _ Hi Hn) as (_&_&H3).
  assert (au a ∈ AllocJournal.accessible_aus nj) as Hacc.
  { unfold AllocJournal.accessible_aus. apply elem_of_union. left. by eapply in_values. }
  rewrite H3 in Hacc. set_solver.
Qed.
Lemma kept_weaken v b E : kept v b E → kept v 0 E.
Proof. intros Hk a r Ha. destruct (Hk a r Ha) as [? (lsn&_&?)]. split; [done|]. exists lsn. split; [lia|done]. Qed.
Lemma kept_freeze v f : AllocJournal.next v v (AllocJournal.FreezeForCommit f) →
  kept v (Linked.tj_seq_start (img_tj f)) (entries (disk_view (img_tj f))).
Proof.
  intros Hn. destruct Hn as [Hn|[[d Hn]|[Hn|[[nj' Hn]|[[nj' Hn]|[(cut&a&Hn)|[Hn|[Hn|Hn]]]]]]]].
  - by destruct Hn as ([m ?]&_).
  - destruct Hn as (img&frozen&[= <-]&Hcc&Hcd&Hfr&[(_&_&Hsub&_) Hdom]&Hnf&_). intros a r Ha.
    split; [exact (lookup_weaken _ _ _ _ Ha Hsub)|].
    assert (a ∈ frozen) as Hin by (rewrite Hdom; apply elem_of_dom; by eexists).
    apply Hfr in Hin as (_&Hv&_). apply elem_of_values in Hv as [lsn Hl].
    unfold index_range in Hl. apply map_filter_lookup_Some in Hl as [Hl [Hlo _]]. simpl in Hlo. by exists lsn.
  - by destruct Hn as ([m ?]&_).
  - by destruct Hn as ([m ?]&_).
  - by destruct Hn as (x&re&deallocs&keep&nfirst&?&_).
  - by destruct Hn as (?&_).
  - by destruct Hn as (alls&?&_).
  - by destruct Hn as (deallocs&?&_).
  - by destruct Hn as (?&_).
Qed.
Lemma kept_own v : alloc_inv v → kept v 0 (entries (disk_view (AllocJournal.tj v))).
Proof.
  intros (_&(pl&Hst)&_) a r Ha. split; [done|]. destruct Hst as (_&_&_&Ht&_).
  destruct (Ht a) as [Hv _]; [by eexists|]. apply elem_of_values in Hv as [lsn Hl]. exists lsn. split; [lia|done].
Qed.

Definition space_inv (s : AllocCrash.State) : Prop :=
  match AllocCrash.ephemeral s with
  | None => AllocCrash.inflight s = None
  | Some v => kept v 0 (entries (disk_view (img_tj (AllocCrash.persistent s)))) ∧
      ∀ f, AllocCrash.inflight s = Some f →
        kept v (Linked.tj_seq_start (img_tj f)) (entries (disk_view (img_tj f)))
  end.
Lemma space_step s l s' : ac_inv s → space_inv s → AllocCrash.next s s' l → space_inv s'.
Proof.
  intros (Hp&He&Hf) Hs Hn. destruct s as [P Eo F]. unfold space_inv in *. simpl in *.
  destruct Hn as [[nj Hn]|[Hn|[Hn|[[nj Hn]|[[nj Hn]|[Hn|[[f Hn]|[[nj Hn]|Hn]]]]]]]].
  - destruct Hn as (->&Hu&Hi&->). simpl in *. subst Eo F. destruct (init_by_inv _ _ Hi) as (Hinv&Hj&_).
    split; [|done]. pose proof (kept_own _ Hinv) as Hk. unfold AllocJournal.tj in Hk. by rewrite Hj in Hk.
  - by destruct Hn as (m&v&->&Hv&Hst&->).
  - by destruct Hn as (m&v&->&Hv&Hst&->).
  - destruct Hn as (m&v&->&Hv&Hst&->). simpl in *. subst Eo. destruct Hs as [H1 H2]. pose proof (He _ eq_refl) as Hi.
    split; [|intros f Hff; specialize (H2 f Hff)]; by eapply kept_step.
  - destruct Hn as (x&y&v&->&Hv&_&Hst&->). simpl in *. subst Eo. destruct Hs as [H1 H2]. pose proof (He _ eq_refl) as Hi.
    split; [|intros f Hff; specialize (H2 f Hff)]; by eapply kept_step.
  - by destruct Hn as (m&->&Hle&->).
  - destruct Hn as (nb&mx&v&->&Hv&Hno&_&Hend&Hmx&Hst&->). simpl in *. subst Eo. destruct Hs as [H1 _].
    split; [done|]. intros ? [= <-]. by apply kept_freeze.
  - destruct Hn as (re&dd&v&f&->&Hv&Hff&Hst&->). simpl in *. subst Eo. destruct Hs as [_ H2]. pose proof (He _ eq_refl) as Hi.
    split; [|done]. eapply kept_weaken, kept_step; [exact Hi|exact Hst| |by apply H2]. by intros x e d [= <- _ _].
  - by destruct Hn as (k&->&->).
Qed.
Lemma space_run s0 ls s : AllocCrash.init s0 → run AllocCrash.next s0 ls s → space_inv s.
Proof.
  intros H0 Hr. induction Hr as [s|s ls s1 l s2 Hr IH Hn]; [by rewrite H0|].
  eapply space_step; [exact (proj1 (ac_run _ _ _ H0 Hr))|by apply IH|exact Hn].
Qed.

(** The images hold no page that the running journal does not hold as well. *)
Lemma page_running s v a r : space_inv s → AllocCrash.ephemeral s = Some v → alloc_page s a r → on_disk v a r.
Proof.
  unfold space_inv. intros Hs Hv Ha. rewrite Hv in Hs. destruct Hs as [H1 H2].
  destruct Ha as [Ha|[(f&Hf&Ha)|(v'&Hv'&Ha)]].
  - by apply H1.
  - by apply (H2 f Hf).
  - rewrite Hv in Hv'. by injection Hv' as <-.
Qed.
Lemma page_at_rest s a r : space_inv s → AllocCrash.ephemeral s = None → alloc_page s a r →
  entries (disk_view (img_tj (AllocCrash.persistent s))) !! a = Some r.
Proof.
  unfold space_inv. intros Hs Hv Ha. rewrite Hv in Hs.
  destruct Ha as [Ha|[(f&Hf&Ha)|(v'&Hv'&Ha)]]; [done|congruence|congruence].
Qed.
Lemma page_det s a r r' : space_inv s → alloc_page s a r → alloc_page s a r' → r' = r.
Proof.
  intros Hs Ha Ha'. destruct (AllocCrash.ephemeral s) as [v|] eqn:Hv.
  - pose proof (page_running _ _ _ _ Hs Hv Ha) as H1. pose proof (page_running _ _ _ _ Hs Hv Ha') as H2.
    unfold on_disk in *. congruence.
  - pose proof (page_at_rest _ _ _ Hs Hv Ha). pose proof (page_at_rest _ _ _ Hs Hv Ha'). congruence.
Qed.
Lemma ac_space s0 ls s l s' : AllocCrash.init s0 → run AllocCrash.next s0 ls s → AllocCrash.next s s' l →
  (∀ a r, alloc_page s a r → au a ∉ crash_taken l) ∧
  (∀ a r, alloc_page s' a r → au a ∉ crash_given_back l) ∧
  (∀ a r r', alloc_page s a r → alloc_page s' a r' → r' = r).
Proof.
  intros H0 Hr Hn. pose proof (space_run _ _ _ H0 Hr) as Hs. pose proof (proj1 (ac_run _ _ _ H0 Hr)) as Hi.
  pose proof (space_step _ _ _ Hi Hs Hn) as Hs'. destruct Hi as (_&He&_).
  assert (crash_taken l = ∅ → crash_given_back l = ∅ → (∀ a r, alloc_page s' a r → alloc_page s a r) →
    (∀ a r, alloc_page s a r → au a ∉ crash_taken l) ∧
    (∀ a r, alloc_page s' a r → au a ∉ crash_given_back l) ∧
    (∀ a r r', alloc_page s a r → alloc_page s' a r' → r' = r)) as Hsame.
  { intros -> -> Hsub. split_and!; [intros; apply not_elem_of_empty|intros; apply not_elem_of_empty|].
    intros a r r' Ha Ha'. by eapply page_det, Hsub. }
  assert (∀ v nj L, AllocCrash.ephemeral s = Some v → AllocCrash.ephemeral s' = Some nj → AllocJournal.next v nj L →
    (∀ a r, alloc_page s a r → au a ∉ taken L) ∧
    (∀ a r, alloc_page s' a r → au a ∉ given_back L) ∧
    (∀ a r r', alloc_page s a r → alloc_page s' a r' → r' = r)) as Hstep.
  { intros v nj L Hv Hv' Hst. pose proof (He _ Hv) as Hiv. destruct (alloc_next_sim _ _ _ Hiv Hst) as [_ Hiv'].
    destruct (alloc_step_space _ _ _ Hiv Hst) as (H1&_&H3). destruct (alloc_step_pages _ _ _ Hiv Hst) as [Hpg _].
    split_and!.
    - intros a r Ha Hin. pose proof (alloc_pages_accessible _ Hiv a r (page_running _ _ _ _ Hs Hv Ha)). set_solver.
    - intros a r Ha Hin. pose proof (alloc_pages_accessible _ Hiv' a r (page_running _ _ _ _ Hs' Hv' Ha)) as Hacc.
      rewrite H3 in Hacc. set_solver.
    - intros a r r' Ha Ha'. pose proof (page_running _ _ _ _ Hs' Hv' Ha') as Hd'.
      destruct (Hpg a r (page_running _ _ _ _ Hs Hv Ha)) as [Hx|[Hx _]].
      + unfold on_disk in *. congruence.
      + exfalso. by apply (Hx r'). }
  destruct Hn as [[nj Hn]|[Hn|[Hn|[[nj Hn]|[[nj Hn]|[Hn|[[f Hn]|[[nj Hn]|Hn]]]]]]]].
  - destruct Hn as (->&Hu&Hi&->). apply Hsame; [done|done|]. intros a r Ha. destruct (init_by_inv _ _ Hi) as (_&Hj&_).
    destruct Ha as [Ha|[(f&Hf&Ha)|(v'&[= <-]&Ha)]]; [by left|right; left; by exists f|].
    left. unfold AllocJournal.tj in Ha. by rewrite Hj in Ha.
  - destruct Hn as (m&v&->&Hv'&Hst&->). by apply Hsame.
  - destruct Hn as (m&v&->&Hv'&Hst&->). by apply Hsame.
  - destruct Hn as (m&v&->&Hv'&Hst&->). exact (Hstep v nj _ Hv' eq_refl Hst).
  - destruct Hn as (x&y&v&->&Hv'&_&Hst&->). exact (Hstep v nj _ Hv' eq_refl Hst).
  - destruct Hn as (m&->&Hle&->). by apply Hsame.
  - destruct Hn as (nb&mx&v&->&Hv'&Hno&_&Hend&Hmx&Hst&->). apply Hsame; [done|done|]. intros a r Ha.
    destruct Ha as [Ha|[(f'&[= <-]&Ha)|Ha]]; [by left| |by (right; right)].
    right; right. exists v. split; [done|]. by apply (kept_freeze _ _ Hst).
  - destruct Hn as (re&dd&v&f&->&Hv'&Hff&Hst&->). exact (Hstep v nj _ Hv' eq_refl Hst).
  - destruct Hn as (k&->&->). apply Hsame; [done|done|]. intros a r Ha.
    destruct Ha as [Ha|[(f'&?&Ha)|(v'&?&Ha)]]; [|done|done]. simpl in Ha.
    destruct (AllocCrash.inflight s) as [f|] eqn:Ef; [|by left]. destruct k; [right; left; by exists f|by left].
Qed.
End Space.
