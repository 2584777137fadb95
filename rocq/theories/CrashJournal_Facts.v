(** Proofs: runs of the crash-aware journals (C41). *)
From Verif Require Import Abs_Model Abs_Spec Abs_Proof Spec_Proof Journal_Model Journal_Spec Paged_Proof
  Linked_Proof AllocJournal_Model AllocJournal_Spec Likes_Proof AllocJournal_Proof AllocJournal_Facts
  CachedFacts_Proof CrashJournal_Model CrashJournal_Spec CrashJournal_Proof.
Open Scope nat_scope.

Section Sim.
Context `{Geometry}.

Lemma journal_is_det s a a' : linked_journal_is s (AbstractJournal.journal a) →
  linked_journal_is s (AbstractJournal.journal a') → a = a'.
Proof.
  intros (p&Hp&E) (p'&Hp'&E'). rewrite (linked_holds_det _ _ _ Hp Hp') in E. destruct a, a'. simpl in *. congruence.
Qed.
(** One step of the journal in memory. *)
Lemma aj_step v nj L a : alloc_inv v → linked_journal_is (AllocJournal.journal v) (AbstractJournal.journal a) →
  AllocJournal.next v nj L →
  alloc_inv nj ∧ ∃ a' al, linked_journal_is (AllocJournal.journal nj) (AbstractJournal.journal a') ∧
    AbstractJournal.next a a' al ∧ alloc_event L al.
Proof.
  intros Hi Ha Hn. destruct (alloc_next_sim _ _ _ Hi Hn) as [Hl Hi']. split; [done|].
  destruct (linked_abs_step _ _ _ _ (proj1 Hi) Ha Hl) as (a'&al&H1&H2&H3). exists a', al. split_and!; [done|done|].
  by destruct L.
Qed.
Lemma aj_step_self v L a : alloc_inv v → linked_journal_is (AllocJournal.journal v) (AbstractJournal.journal a) →
  AllocJournal.next v v L → ∃ al, AbstractJournal.next a a al ∧ alloc_event L al.
Proof.
  intros Hi Ha Hn. destruct (aj_step _ _ _ _ Hi Ha Hn) as (_&a'&al&H1&H2&H3).
  rewrite (journal_is_det _ _ _ H1 Ha) in H2. by exists al.
Qed.
Lemma init_by_inv img nj : AllocCrash.init_by img nj → alloc_inv nj ∧ AllocJournal.journal nj =
  Linked.mkState (img_tj img) (empty_history_at (Linked.tj_seq_end (img_tj img))) ∧ Linked.tj_decodable (img_tj img).
Proof.
  intros [Hv ->]. pose proof (valid_image_struct _ Hv) as (Hd&_). split_and!; [|done|done].
  eapply (alloc_init _ _ img). split; [done|]. split; [|reflexivity]. by split.
Qed.

(** ** Separate images *)
Definition ac_inv (s : AllocCrash.State) : Prop :=
  valid_image (AllocCrash.persistent s) ∧ (∀ v, AllocCrash.ephemeral s = Some v → alloc_inv v) ∧
  (∀ f, AllocCrash.inflight s = Some f → valid_image f).
Lemma ac_sim s s' l c : ac_inv s → alloc_crash_is s c → AllocCrash.next s s' l →
  ac_inv s' ∧ ∃ c', CTJournal.next c c' (crash_event l) ∧ alloc_crash_is s' c'.
Proof.
  intros (Hp&He&Hf) (Rp&Re&Rf) Hn. destruct s as [P Eo F]. destruct c as [cp ce cf]. simpl in *.
  assert (Linked.tj_decodable (img_tj P)) as Hpd by (by apply valid_image_struct).
  pose proof (linked_holds_wf _ _ Hpd Rp) as Hcw.
  destruct (linked_holds_end _ _ (proj1 Hpd) Rp) as [_ Hpe].
  destruct Hn as [[nj Hn]|[Hn|[Hn|[[nj Hn]|[[nj Hn]|[Hn|[[f Hn]|[[nj Hn]|Hn]]]]]]]].
  - destruct Hn as (->&Hu&Hi&->). simpl in *. subst Eo. destruct ce as [|]; [done|].
    destruct (init_by_inv _ _ Hi) as (Hinv&Hj&_). destruct (linked_start _ _ Hpd Rp) as [_ Hjs].
    split; [split_and!; simpl; [done|by intros ? [= <-]|done]|].
    exists (CTJournal.mkState cp (Some (AbstractJournal.mkState cp)) cf). split.
    + left. eexists. split_and!; [done|done|by split|done].
    + split_and!; [done| |done]. simpl. by rewrite Hj.
  - destruct Hn as (m&v&->&Hv&Hs&->). simpl in *. subst Eo. destruct ce as [a|]; [|done].
    destruct (aj_step_self _ _ _ (He _ eq_refl) Re Hs) as (al&Ha&Hev). simpl in Hev. subst al.
    split; [by split_and!|]. exists (CTJournal.mkState cp (Some a) cf). split; [|by split_and!]. right; left. exists m, a. split_and!; first [done|reflexivity].
  - destruct Hn as (m&v&->&Hv&Hs&->). simpl in *. subst Eo. destruct ce as [a|]; [|done].
    destruct (aj_step_self _ _ _ (He _ eq_refl) Re Hs) as (al&Ha&Hev). simpl in Hev. subst al.
    split; [by split_and!|]. exists (CTJournal.mkState cp (Some a) cf). split; [|by split_and!]. do 2 right; left. exists m, a. split_and!; first [done|reflexivity].
  - destruct Hn as (m&v&->&Hv&Hs&->). simpl in *. subst Eo. destruct ce as [a|]; [|done].
    destruct (aj_step _ _ _ _ (He _ eq_refl) Re Hs) as (Hi'&a'&al&Hj&Ha&Hev). simpl in Hev. subst al.
    split; [split_and!; simpl; [done|by intros ? [= <-]|done]|].
    exists (CTJournal.mkState cp (Some a') cf). split; [|by split_and!]. do 3 right; left. exists a'. exists m, a. by split_and!.
  - destruct Hn as (x&y&v&->&Hv&Hfr&Hs&->). simpl in *. subst Eo. destruct ce as [a|]; [|done].
    destruct (aj_step _ _ _ _ (He _ eq_refl) Re Hs) as (Hi'&a'&al&Hj&Ha&Hev). simpl in Hev. subst al.
    split; [split_and!; simpl; [done|by intros ? [= <-]|done]|].
    exists (CTJournal.mkState cp (Some a') cf). split; [|by split_and!]. do 4 right; left. exists a'. exists a. by split_and!.
  - destruct Hn as (m&->&Hle&->). simpl in *. split; [by split_and!|]. exists (CTJournal.mkState cp ce cf). split; [|by split_and!].
    do 5 right; left. exists m. split_and!; [done|simpl; lia|done].
  - destruct Hn as (nb&mx&v&->&Hv&Hno&Hst&Hend&Hmx&Hs&->). simpl in *. subst Eo F. destruct ce as [a|]; [|done].
    destruct cf; [done|]. pose proof (He _ eq_refl) as Hi.
    destruct (aj_step_self _ _ _ Hi Re Hs) as (al&Ha&(h&->&Hh)).
    destruct (alloc_freeze _ _ _ Hi Hs) as (Hvi&_).
    assert (Linked.tj_decodable (img_tj f)) as Hfd by (by apply valid_image_struct).
    destruct (linked_holds_end _ _ (proj1 Hfd) Hh) as [Hhs Hhe].
    split; [split_and!; simpl; [done|done|by intros ? [= <-]]|].
    exists (CTJournal.mkState cp (Some a) (Some h)). split; [|by split_and!].
    do 6 right; left. exists h. exists nb, mx, a. split_and!; try done; simpl; try lia. by eapply linked_holds_wf.
  - destruct Hn as (re&dd&v&f&->&Hv&Hff&Hs&->). simpl in *. subst Eo F. destruct ce as [a|]; [|done].
    destruct cf as [h|]; [|done].
    assert (Linked.tj_decodable (img_tj f)) as Hfd by (by apply valid_image_struct, Hf).
    destruct (linked_holds_end _ _ (proj1 Hfd) Rf) as [Hhs Hhe].
    destruct (aj_step _ _ _ _ (He _ eq_refl) Re Hs) as (Hi'&a'&al&Hj&Ha&Hev). simpl in Hev. subst al.
    split; [split_and!; simpl; [by apply Hf|by intros ? [= <-]|done]|].
    exists (CTJournal.mkState h (Some a') None). split; [|by split_and!].
    do 7 right; left. exists a'. exists re, a, h. split_and!; try done. simpl. by rewrite Hhs.
  - destruct Hn as (k&->&->). simpl in *. split.
    + split_and!; simpl; [|done|done]. destruct F as [f|]; [|done]. destruct k; [by apply Hf|done].
    + eexists. split; [do 8 right; by exists k|]. split_and!; simpl; [|done|done].
      destruct F as [f|], cf as [h|]; try done. by destruct k.
Qed.
Lemma ac_run s0 ls s : AllocCrash.init s0 → run AllocCrash.next s0 ls s →
  ac_inv s ∧ ∃ c0 c, CTJournal.init c0 ∧ run CTJournal.next c0 (crash_event <$> ls) c ∧ alloc_crash_is s c.
Proof.
  intros -> Hr. remember (AllocCrash.mkState img_empty None None) as s0 eqn:E.
  induction Hr as [s|s ls s1 l s2 Hr IH Hn].
  - subst s. split.
    + split_and!; simpl; [|done|done]. split_and!.
      * by intros a [r ?].
      * split; [split; [|by intros a]|].
        { split_and!; intros ???; done. }
        split; [exists ∅; by split|]. split; [by intros a r _|].
        split; [by intros a b ra rb _ _|]. split; [by intros lsn a b (r&?&_)|done].
      * by intros a [r ?].
      * by intros a r lsn ?.
    + eexists _, _. split; [reflexivity|]. split; [constructor|]. split_and!; [|done|done].
      simpl. split_and!; [done|done|]. intros lsn km. simpl. rewrite lookup_empty. split; [done|].
      intros (_&a&r&_&Hr&_). done.
  - destruct (IH E) as (Hi&c0&c&H0&Hc&Hs). destruct (ac_sim _ _ _ _ Hi Hs Hn) as (Hi'&c'&Hn'&Hs').
    split; [done|]. exists c0, c'. split_and!; [done| |done]. rewrite fmap_app. by eapply run_snoc.
Qed.

(** ** One shared disk *)
Lemma memory_is disk e h : memory_holds disk e h ↔ linked_journal_is (AllocJournal.journal (to_aj e disk)) h.
Proof. done. Qed.
Lemma holds_transfer b E E' f l h : path (mkDV b E) f l → path (mkDV b E') f l →
  linked_holds (mkTJ f (mkDV b E)) h → linked_holds (mkTJ f (mkDV b E')) h.
Proof.
  intros Hp Hp' (Hs&He&Hm). split_and!; [done| |].
  - simpl in *. destruct f as [f|]; [|done]. destruct He as (r&Hr&->). exists r. split; [|done].
    inversion Hp as [|? r1 ? Hr1]; subst. inversion Hp' as [|? r2 ? Hr2]; subst. simpl in *. congruence.
  - intros lsn km. rewrite Hm. simpl. f_equiv. split; intros (a&r&Hre&He'&Hk).
    + apply (path_reaches _ _ _ Hp) in Hre as [r' Hin]. pose proof (path_entries _ _ _ Hp _ _ Hin) as E1. simpl in E1.
      simplify_eq. exists a, r. split_and!; [apply (path_reaches _ _ _ Hp'); by eexists| |done].
      exact (path_entries _ _ _ Hp' _ _ Hin).
    + apply (path_reaches _ _ _ Hp') in Hre as [r' Hin]. pose proof (path_entries _ _ _ Hp' _ _ Hin) as E1. simpl in E1.
      simplify_eq. exists a, r. split_and!; [apply (path_reaches _ _ _ Hp); by eexists| |done].
      exact (path_entries _ _ _ Hp _ _ Hin).
Qed.
(** The pages an image needs end after its boundary; keeping those keeps the image. *)
Lemma image_pages i E : is_valid i E → ∃ l, path (mkDV (is_boundary i) E) (is_freshest i) l ∧
  ∀ a r, (a, r) ∈ l → E !! a = Some r ∧ is_boundary i < seq_end (message_seq r).
Proof.
  intros Hv. pose proof (is_valid_decodable _ _ Hv) as Hd. destruct (tj_path_exists _ Hd) as [l Hp].
  exists l. split; [done|]. intros a r Hin. split; [exact (path_entries _ _ _ Hp _ _ Hin)|].
  destruct Hd as [[Hw Hb] _]. pose proof (path_chain _ _ _ Hw Hp Hb _ _ Hin) as Hc. simpl in Hc. lia.
Qed.
Lemma image_kept i E E' h : is_valid i E →
  (∀ a r, E !! a = Some r → is_boundary i < seq_end (message_seq r) → E' !! a = Some r) →
  image_holds E i h → image_holds E' i h.
Proof.
  intros Hv Hk Hh. destruct (image_pages _ _ Hv) as (l&Hp&Hl). eapply holds_transfer; [exact Hp| |exact Hh].
  eapply path_transfer; [exact Hp|done|]. intros a r Hin. simpl. destruct (Hl _ _ Hin). by apply Hk.
Qed.

(** A step keeps what an image needs, unless it truncates past the image. *)
Lemma supp_step v nj L i : alloc_inv v → AllocJournal.next v nj L → supp v i →
  (∀ lsn e d, L = AllocJournal.DiscardOld lsn e d → lsn ≤ is_boundary i) → supp nj i.
Proof.
  intros Hinv Hn Hsupp Hdis. pose proof Hinv as (Hi&(pl&Hst)&Hfirst&Hma). pose proof Hi as [Hwf Hac].
  pose proof Hwf as (Htw&Hmw&Hse&Hee).
  assert (∀ w, AllocJournal.tj w = AllocJournal.tj v → AllocJournal.lsn_au_index w = AllocJournal.lsn_au_index v →
    supp w i) as Hsame.
  { intros w E1 E2. unfold supp. by rewrite E1, E2. }
  destruct Hsupp as [Hle Hs].
  destruct Hn as [Hn|[[d Hn]|[Hn|[[nj' Hn]|[[nj' Hn]|[(cut&a&Hn)|[Hn|[Hn|Hn]]]]]]]].
  - destruct Hn as (_&Hn&->). by apply Hsame.
  - destruct Hn as (img&frozen&->&Hcc&Hcd&Hfr&Hdt&Hnf&->). by apply Hsame.
  - destruct Hn as (_&Hn&->). by apply Hsame.
  - destruct Hn as ([m ->]&Hn&->). apply Hsame; [|done]. simpl in Hn. by apply put_pages in Hn.
  - destruct Hn as (lsn&re&deallocs&keep&nfirst&->&->&Hcd&Hnf&Hkeep&->&Hdt&Hut&->).
    destruct (struct_discard _ _ _ _ _ _ Htw Hac Hst Hcd Hkeep Hdt) as (Hvd&l'&rest&->&Hst'&Hrest&Hl').
    specialize (Hdis _ _ _ eq_refl). destruct Hst as (Hp&_). destruct Hst' as (Hp'&_).
    pose proof Hdt as [(_&Hnb&_) _]. split; unfold AllocJournal.tj; simpl; [by rewrite Hnb|].
    intros f Hf. destruct (Hs f Hf) as (Hidx&rf&Hre&Hrf&Hlt). split; [by apply lookup_discard_up_to|].
    destruct (proj1 (path_reaches _ _ _ Hp f) Hre) as [rf' Hin].
    pose proof (path_entries _ _ _ Hp _ _ Hin) as Hrf'. simplify_eq.
    apply elem_of_app in Hin as [Hin|Hin]; [|specialize (Hrest _ _ Hin); lia].
    exists rf. split_and!; [apply (path_reaches _ _ _ Hp'); by eexists| |done].
    exact (path_entries _ _ _ Hp' _ _ Hin).
  - destruct Hn as (->&Htn&Hcut&Hcan&->).
    destruct (tight_next_facts _ _ _ _ _ Hst Hma Htn) as (Hun&Haw&Hafter&Hprev).
    destruct Hst as (Hp&_). pose proof (path_append _ _ _ _ Hwf Hun Hcut Hp) as Hp'.
    split; unfold AllocJournal.tj; simpl; [done|].
    intros f Hf. destruct (Hs f Hf) as (Hidx&rf&Hre&Hrf&Hlt).
    destruct (proj1 (path_reaches _ _ _ Hp f) Hre) as [rf' Hin].
    pose proof (path_entries _ _ _ Hp _ _ Hin) as Hrf'. simplify_eq.
    pose proof Htw as [Hw Hb]. pose proof (path_chain _ _ _ Hw Hp Hb _ _ Hin) as [Hc _].
    split.
    + unfold index_append_record. apply lookup_union_singleton. right. split; [|done]. simpl.
      unfold AllocJournal.tj, Linked.tj_seq_end in *. lia.
    + exists rf. split_and!.
      * apply (path_reaches _ _ _ Hp'). exists rf. by right.
      * rewrite lookup_insert_ne; [exact Hrf|]. intros ->. congruence.
      * done.
  - destruct Hn as (alls&->&Hd1&Hd2&->). by apply Hsame.
  - destruct Hn as (deallocs&->&Hrm&->). by apply Hsame.
  - destruct Hn as (->&->). by apply Hsame.
Qed.

(** Freezing an image of the running journal. *)
Lemma unified_freeze v E i d a : alloc_inv (to_aj v E) →
  linked_journal_is (AllocJournal.journal (to_aj v E)) (AbstractJournal.journal a) →
  Linked.dv_can_crop (mkDV (is_boundary (es_image v)) E) (is_freshest (es_image v)) d →
  Linked.tj_can_discard_to (Linked.tj_crop (to_tj (es_image v) E) d) (is_boundary i) →
  (is_Some (is_freshest i) → es_index v !! is_boundary i = Some (is_first i)) →
  is_freshest i = (if decide (Linked.tj_seq_end (Linked.tj_crop (to_tj (es_image v) E) d) = is_boundary i)
    then None else freshest_rec (Linked.tj_crop (to_tj (es_image v) E) d)) →
  supp (to_aj v E) i ∧
  ∃ h, image_holds E i h ∧ AbstractJournal.next a a (AbstractJournal.FreezeForCommitLabel h).
Proof.
  intros Hinv Ha Hcc Hcd Hidx Hf. pose proof Hinv as (Hi&(pl&Hst)&_). pose proof Hi as [Hwf Hac].
  pose proof Hwf as (Htw&Hmw&Hse&Hee). pose proof (proj1 Hst) as Hp. unfold AllocJournal.tj in Hp. simpl in *.
  destruct (crop_facts _ _ _ Htw Hp Hcc) as [Hcw Hcp].
  assert (supp (to_aj v E) i) as Hsupp.
  { split; [apply Hcd|]. intros f Hff. split; [apply Hidx; by eexists|].
    rewrite Hff in Hf. case_decide as Hde; [done|].
    unfold tj_path in Hcp. cbn [Linked.tj_crop to_tj freshest_rec disk_view] in Hcp, Hf. rewrite <- Hf in Hcp. inversion Hcp as [|? rf lt Hrf Hlt E1 E2]; subst. simpl in Hrf.
    exists rf. split_and!; [|done|].
    - apply (path_reaches _ _ _ Hp). exists rf. rewrite <- (take_drop d pl). apply elem_of_app. right. rewrite <- E2. by left.
    - destruct Hcd as [_ Hcd]. unfold Linked.tj_seq_end in Hcd, Hde. cbn [Linked.tj_crop to_tj freshest_rec disk_view] in Hcd, Hde. rewrite <- Hf in Hcd, Hde. simpl in Hcd, Hde. rewrite Hrf in Hcd, Hde. lia. }
  split; [done|].
  assert (Linked.tj_decodable (to_tj i E)) as Hd.
  { apply is_valid_decodable. by eapply supp_valid. }
  assert (Linked.next (AllocJournal.journal (to_aj v E)) (AllocJournal.journal (to_aj v E))
    (Linked.FreezeForCommit (to_tj i E))) as Hn.
  { right; left. exists d. split; [done|]. exists (to_tj i E).
    split; [done|]. split; [done|]. split; [by split|]. split; [done|]. split; [apply Hcd|]. split; [done|].
    split; [|done]. split; [apply Hd|]. split; [done|]. split; [by split|]. split; [done|].
    destruct (tj_path_exists _ Hd) as [l Hl].
    assert (Linked.tj_discard_old (Linked.tj_crop (to_tj (es_image v) E) d) (Linked.tj_seq_start (to_tj i E)) = to_tj i E) as Eq.
    { transitivity (mkTJ (is_freshest i) (mkDV (is_boundary i) E)); [|done]. rewrite Hf. reflexivity. }
    change (Linked.truncated_journal (AllocJournal.journal (to_aj v E))) with (to_tj (es_image v) E). rewrite Eq.
    unfold Linked.tj_build_tight. cbn [disk_view]. rewrite (build_tight_entries _ _ _ Hl).
    apply map_subseteq_spec. intros a0 r0 Hin. apply (path_in_map _ _ _ Hl) in Hin. exact (path_entries _ _ _ Hl _ _ Hin). }
  destruct (linked_abs_step _ _ _ _ Hi Ha Hn) as (a'&al&H1&H2&(h&->&Hh)).
  rewrite (journal_is_det _ _ _ H1 Ha) in H2. by exists h.
Qed.

Definition uni_inv (s : Unified.State) : Prop :=
  match Unified.ephemeral s with
  | None => Unified.inflight s = None ∧ is_valid (Unified.persistent s) (Unified.dv s)
  | Some e => alloc_inv (to_aj e (Unified.dv s)) ∧ ∀ i, durable_image s i → supp (to_aj e (Unified.dv s)) i
  end.
Lemma uni_valid s i : uni_inv s → durable_image s i → is_valid i (Unified.dv s).
Proof.
  unfold uni_inv. destruct (Unified.ephemeral s) as [e|].
  - intros [Hi Hs] Hd. exact (supp_valid _ _ _ Hi eq_refl (Hs _ Hd)).
  - intros [Hn Hv] [->|Hd]; [done|congruence].
Qed.
Lemma uni_aj_step v E ne E' L i : alloc_inv (to_aj v E) → AllocJournal.next (to_aj v E) (to_aj ne E') L →
  supp (to_aj v E) i → (∀ lsn e d, L = AllocJournal.DiscardOld lsn e d → lsn ≤ is_boundary i) →
  supp (to_aj ne E') i ∧
  (∀ a r, E !! a = Some r → is_boundary i < seq_end (message_seq r) → E' !! a = Some r) ∧
  (∀ h, image_holds E i h → image_holds E' i h).
Proof.
  intros Hi Hn Hs Hd. split; [by eapply supp_step|].
  assert (∀ a r, E !! a = Some r → is_boundary i < seq_end (message_seq r) → E' !! a = Some r) as Hk.
  { intros a r Ha Hlt. destruct (alloc_step_pages _ _ _ Hi Hn) as [Hp _].
    destruct (Hp a r Ha) as [?|(_&_&lsn&e&d&HL&Hle)]; [done|]. specialize (Hd _ _ _ HL). lia. }
  split; [done|]. intros h Hh. eapply image_kept; [|exact Hk|done]. by eapply supp_valid.
Qed.
Lemma image_end i E h : Linked.tj_decodable (to_tj i E) → image_holds E i h →
  seq_start h = is_boundary i ∧ seq_end h = is_seq_end i E.
Proof. intros [Hw _] Hh. exact (linked_holds_end _ _ Hw Hh). Qed.

Lemma uni_sim s s' l c : uni_inv s → unified_is s c → Unified.next s s' l →
  uni_inv s' ∧ ∃ c', CTJournal.next c c' (crash_event l) ∧ unified_is s' c'.
Proof.
  intros Hinv (Rp&Re&Rf) Hn.
  pose proof (uni_valid _ _ Hinv (or_introl eq_refl)) as Hpv.
  pose proof (is_valid_decodable _ _ Hpv) as Hpd.
  pose proof (linked_holds_wf _ _ Hpd Rp) as Hcw.
  destruct (image_end _ _ _ Hpd Rp) as [_ Hpe].
  destruct s as [Eo F P D]. destruct c as [cp ce cf]. unfold uni_inv in Hinv. simpl in *.
  destruct Hn as [[ne Hn]|[Hn|[Hn|[[ne Hn]|[(ne&nd&Hn)|[Hn|[(f&d&Hn)|[(ne&nd&Hn)|Hn]]]]]]]].
  - destruct Hn as (->&Hu&_&[_ ->]&->). simpl in *. subst Eo. destruct ce as [|]; [done|].
    destruct Hinv as [-> _]. destruct cf; [done|].
    destruct (tight_struct _ _ Hpv) as (Hdt&(l&Hl&Hst)&Hfst).
    assert (path (mkDV (is_boundary P) (tight_dv P D)) (is_freshest P) l) as HlT by apply Hst.
    assert (image_holds (tight_dv P D) P cp) as RpT by (eapply holds_transfer; [exact Hl|exact HlT|exact Rp]).
    assert (Linked.tj_seq_end (to_tj P (tight_dv P D)) = Linked.tj_seq_end (to_tj P D)) as Hend.
    { destruct (image_end _ _ _ Hdt RpT) as [_ HeT]. unfold is_seq_end in *. congruence. }
    destruct (linked_start _ _ Hdt RpT) as [Hli Hjs]. rewrite Hend in Hli, Hjs.
    assert (alloc_inv (to_aj (mkES P (empty_history_at (Linked.tj_seq_end (to_tj P D)))
      (build_lsn_au_index (to_tj P D) (is_first P)) ma_empty) (tight_dv P D))) as Hai.
    { split; [done|]. split; [by exists l|]. split; [done|]. by split_and!. }
    split.
    + split; [done|]. intros i [->|?]; [|done]. simpl. split; [done|]. intros f Hf. split; [apply Hfst; by eexists|].
      simpl. destruct Hdt as [[_ Hb] _]. destruct (proj1 Hb f Hf) as [rf Hrf]. exists rf. rewrite Hf.
      split_and!; [by constructor; eexists|done|]. exact (proj2 Hb _ _ Hf Hrf).
    + exists (CTJournal.mkState cp (Some (AbstractJournal.mkState cp)) None). split.
      * left. eexists. split_and!; [done|done|by split|done].
      * by split_and!.
  - destruct Hn as (m&v&->&Hv&Hs&->). simpl in *. subst Eo. destruct ce as [a|]; [|done].
    destruct (aj_step_self _ _ _ (proj1 Hinv) Re Hs) as (al&Ha&Hev). simpl in Hev. subst al.
    split; [done|]. exists (CTJournal.mkState cp (Some a) cf). split; [|by split_and!]. right; left. by exists m, a.
  - destruct Hn as (m&v&->&Hv&Hs&->). simpl in *. subst Eo. destruct ce as [a|]; [|done].
    destruct (aj_step_self _ _ _ (proj1 Hinv) Re Hs) as (al&Ha&Hev). simpl in Hev. subst al.
    split; [done|]. exists (CTJournal.mkState cp (Some a) cf). split; [|by split_and!]. do 2 right; left. by exists m, a.
  - destruct Hn as (m&v&->&Hv&Hs&->). simpl in *. subst Eo. destruct ce as [a|]; [|done].
    destruct Hinv as [Hi Hsup].
    destruct (aj_step _ _ _ _ Hi Re Hs) as (Hi'&a'&al&Hj&Ha&Hev). simpl in Hev. subst al.
    split.
    { split; [done|]. intros i Hd. eapply supp_step; [exact Hi|exact Hs|by apply Hsup|done]. }
    exists (CTJournal.mkState cp (Some a') cf). split; [|by split_and!].
    do 3 right; left. exists a'. exists m, a. by split_and!.
  - destruct Hn as (x&y&v&->&Hv&Hs&->). simpl in *. subst Eo. destruct ce as [a|]; [|done].
    destruct Hinv as [Hi Hsup].
    destruct (aj_step _ _ _ _ Hi Re Hs) as (Hi'&a'&al&Hj&Ha&Hev). simpl in Hev. subst al.
    assert (∀ i, durable_image (Unified.mkState (Some v) F P D) i → supp (to_aj ne nd) i ∧
      ∀ h, image_holds D i h → image_holds nd i h) as Hst.
    { intros i Hd. destruct (uni_aj_step _ _ _ _ _ i Hi Hs (Hsup _ Hd)) as (H1&_&H3); [done|by split]. }
    split.
    { split; [done|]. intros i Hd. by apply Hst. }
    exists (CTJournal.mkState cp (Some a') cf). split.
    + do 4 right; left. exists a'. exists a. by split_and!.
    + split_and!; [apply Hst; [by left|done]|done|]. simpl. destruct F as [f|], cf as [h|]; try done.
      simpl in *. apply Hst; [by right|done].
  - destruct Hn as (m&->&Hle&->). simpl in *. split; [done|]. exists (CTJournal.mkState cp ce cf). split; [|by split_and!].
    do 5 right; left. exists m. split_and!; [done|simpl; lia|done].
  - destruct Hn as (nb&mx&v&->&Hv&Hno&Hend&Hmx&Hst&Hcc&Hcd&Hfst&Hfr&->). simpl in *. subst Eo F.
    destruct ce as [a|]; [|done]. destruct cf; [done|]. destruct Hinv as [Hi Hsup].
    destruct (unified_freeze _ _ _ _ _ Hi Re Hcc Hcd Hfst Hfr) as (Hsf&h&Hh&Ha).
    pose proof (is_valid_decodable _ _ (supp_valid _ _ D Hi eq_refl Hsf)) as Hfd.
    destruct (image_end _ _ _ Hfd Hh) as [Hhs Hhe].
    split.
    { split; [done|]. intros i [->|Hd]; [apply Hsup; by left|]. simpl in Hd. by simplify_eq. }
    exists (CTJournal.mkState cp (Some a) (Some h)). split; [|by split_and!].
    do 6 right; left. exists h. exists nb, mx, a. split_and!; try done; simpl; try lia. by eapply linked_holds_wf.
  - destruct Hn as (re&dd&v&f&->&Hv&Hff&Hs&->). simpl in *. subst Eo F. destruct ce as [a|]; [|done].
    destruct cf as [h|]; [|done]. simpl in Rf. destruct Hinv as [Hi Hsup].
    assert (supp (to_aj v D) f) as Hsf by (apply Hsup; by right).
    pose proof (is_valid_decodable _ _ (supp_valid _ _ D Hi eq_refl Hsf)) as Hfd.
    destruct (image_end _ _ _ Hfd Rf) as [Hhs Hhe].
    destruct (aj_step _ _ _ _ Hi Re Hs) as (Hi'&a'&al&Hj&Ha&Hev). simpl in Hev. subst al.
    destruct (uni_aj_step _ _ _ _ _ f Hi Hs Hsf) as (H1&_&H3).
    { intros ??? [= -> _ _]. done. }
    split.
    { split; [done|]. intros i [->|Hd]; [done|done]. }
    exists (CTJournal.mkState h (Some a') None). split; [|split_and!; [by apply H3|done|done]].
    do 7 right; left. exists a'. exists re, a, h. split_and!; try done. simpl. by rewrite Hhs.
  - destruct Hn as (k&->&->). simpl in *. split.
    + unfold uni_inv. simpl. split; [done|]. destruct F as [f|]; [|done]. destruct k; [|done].
      destruct Eo as [v|]; [|by destruct Hinv]. destruct Hinv as [Hi Hsup].
      eapply supp_valid; [exact Hi|done|]. apply Hsup. by right.
    + eexists. split; [do 8 right; by exists k|]. split_and!; simpl; [|done|done].
      destruct F as [f|], cf as [h|]; try done. by destruct k.
Qed.
Lemma empty_valid : is_valid is_empty_image ∅.
Proof.
  split_and!.
  - by intros a [r ?].
  - split; [split; [|by intros a]|].
    { split_and!; intros ???; done. }
    split; [exists ∅; by split|]. split; [by intros a r _|].
    split; [by intros a b ra rb _ _|]. split; [by intros lsn a b (r&?&_)|done].
  - by intros a r lsn ?.
Qed.
Lemma uni_run_from s c ls s' : uni_inv s → unified_is s c → run Unified.next s ls s' →
  uni_inv s' ∧ ∃ c', run CTJournal.next c (crash_event <$> ls) c' ∧ unified_is s' c'.
Proof.
  intros Hi Hs Hr. induction Hr as [s|s ls s1 l s2 Hr IH Hn].
  - split; [done|]. exists c. split; [constructor|done].
  - destruct (IH Hi Hs) as (Hi1&c1&Hc1&Hs1). destruct (uni_sim _ _ _ _ Hi1 Hs1 Hn) as (Hi2&c2&Hn2&Hs2).
    split; [done|]. exists c2. split; [|done]. rewrite fmap_app. by eapply run_snoc.
Qed.
Lemma uni_start s0 : Unified.init s0 → uni_inv s0 ∧ ∃ c0, CTJournal.init c0 ∧ unified_is s0 c0.
Proof.
  intros ->. split; [split; [done|apply empty_valid]|]. eexists. split; [reflexivity|]. split_and!; [|done|done].
  split_and!; [done|done|]. intros lsn km. simpl. rewrite lookup_empty. split; [done|].
  intros (_&a&r&_&Hr&_). done.
Qed.
Lemma uni_run s0 ls s : Unified.init s0 → run Unified.next s0 ls s →
  uni_inv s ∧ ∃ c0 c, CTJournal.init c0 ∧ run CTJournal.next c0 (crash_event <$> ls) c ∧ unified_is s c.
Proof.
  intros H0 Hr. destruct (uni_start _ H0) as (Hi&c0&Hc0&Hs). destruct (uni_run_from _ _ _ _ Hi Hs Hr) as (Hi'&c&Hc&Hs').
  split; [done|]. by exists c0, c.
Qed.

(** ** Recovery *)
Lemma uni_recover s0 ls s k : Unified.init s0 → run Unified.next s0 ls s →
  ∃ s1 s2 e h, Unified.next s s1 (AllocCrash.Crash k) ∧
    Unified.next s1 s2 AllocCrash.LoadEphemeralFromPersistent ∧
    durable_image s (Unified.persistent s2) ∧ Unified.ephemeral s2 = Some e ∧
    image_holds (Unified.dv s) (Unified.persistent s2) h ∧ memory_holds (Unified.dv s2) e h.
Proof.
  intros H0 Hr. destruct (uni_run _ _ _ H0 Hr) as (Hi&c0&c&_&_&Hs).
  set (P := match Unified.inflight s with Some f => if k : bool then f else Unified.persistent s | None => Unified.persistent s end).
  assert (Unified.next s (Unified.mkState None None P (Unified.dv s)) (AllocCrash.Crash k)) as Hc by (do 8 right; by exists k).
  destruct (uni_sim _ _ _ _ Hi Hs Hc) as (Hi1&c1&_&Hs1).
  assert (durable_image s P) as HP.
  { unfold P. destruct (Unified.inflight s) eqn:E; [|by left]. destruct k; [by right|by left]. }
  pose proof (uni_valid _ _ Hi HP) as Hv.
  set (e := mkES P (empty_history_at (Linked.tj_seq_end (to_tj P (Unified.dv s))))
    (build_lsn_au_index (to_tj P (Unified.dv s)) (is_first P)) ma_empty).
  assert (Unified.next (Unified.mkState None None P (Unified.dv s))
    (Unified.mkState (Some e) None P (tight_dv P (Unified.dv s))) AllocCrash.LoadEphemeralFromPersistent) as Hl.
  { left. exists e. split; [done|]. split; [done|]. split; [done|]. split; [by split|done]. }
  destruct (uni_sim _ _ _ _ Hi1 Hs1 Hl) as (Hi2&c2&Hn2&Hs2).
  destruct Hs1 as (Rp1&Re1&_). destruct Hs2 as (Rp2&Re2&_). simpl in *.
  destruct (CTJournal.ephemeral c2) as [a|] eqn:Ea; [|done].
  eexists _, _, e, (CTJournal.persistent c1). split; [exact Hc|]. split; [exact Hl|]. split_and!; [done|done|done|].
  destruct Hn2 as [[j Hn2]|[Hn2|[Hn2|[[j Hn2]|[[j Hn2]|[Hn2|[[f Hn2]|[[j Hn2]|Hn2]]]]]]]].
  - destruct Hn2 as (_&_&[_ ->]&->). simpl in Ea. injection Ea as <-. exact Re2.
  - by destruct Hn2 as (?&?&?&_).
  - by destruct Hn2 as (?&?&?&_).
  - by destruct Hn2 as (?&?&?&_).
  - by destruct Hn2 as (?&?&_).
  - by destruct Hn2 as (?&?&_).
  - by destruct Hn2 as (?&?&?&?&_).
  - by destruct Hn2 as (?&?&?&?&_).
  - by destruct Hn2 as (?&?&_).
Qed.
Lemma ac_recover s0 ls s k : AllocCrash.init s0 → run AllocCrash.next s0 ls s →
  ∃ s1 s2 v h, AllocCrash.next s s1 (AllocCrash.Crash k) ∧
    AllocCrash.next s1 s2 AllocCrash.LoadEphemeralFromPersistent ∧
    (AllocCrash.persistent s2 = AllocCrash.persistent s ∨ AllocCrash.inflight s = Some (AllocCrash.persistent s2)) ∧
    AllocCrash.ephemeral s2 = Some v ∧
    linked_holds (img_tj (AllocCrash.persistent s2)) h ∧ linked_journal_is (AllocJournal.journal v) h.
Proof.
  intros H0 Hr. destruct (ac_run _ _ _ H0 Hr) as ((Hp&He&Hf)&c0&c&_&_&Hs).
  set (P := match AllocCrash.inflight s with Some f => if k : bool then f else AllocCrash.persistent s | None => AllocCrash.persistent s end).
  assert (AllocCrash.next s (AllocCrash.mkState P None None) (AllocCrash.Crash k)) as Hc by (do 8 right; by exists k).
  assert (P = AllocCrash.persistent s ∨ AllocCrash.inflight s = Some P) as HP.
  { unfold P. destruct (AllocCrash.inflight s) eqn:E; [|by left]. destruct k; [by right|by left]. }
  assert (valid_image P) as Hv by (destruct HP as [->|?]; [done|by apply Hf]).
  pose proof (valid_image_struct _ Hv) as (Hd&_). destruct (linked_history _ Hd) as (h&_&Hh).
  destruct (linked_start _ _ Hd Hh) as [_ Hjs].
  set (v := AllocJournal.mkState (Linked.mkState (img_tj P) (empty_history_at (Linked.tj_seq_end (img_tj P))))
    (build_lsn_au_index (img_tj P) (img_first P)) (img_first P) ma_empty).
  eexists _, (AllocCrash.mkState P (Some v) None), v, h. split; [exact Hc|].
  split; [|split_and!; [done|reflexivity|done|exact Hjs]].
  left. exists v. split; [done|]. split; [done|]. split; [|reflexivity]. split; [done|reflexivity].
Qed.

(** ** Pages and space on the shared disk *)
Lemma uni_pages s l s' i a r : uni_inv s → Unified.next s s' l → durable_image s i → durable_image s' i →
  reaches (mkDV (is_boundary i) (Unified.dv s)) (is_freshest i) a → Unified.dv s !! a = Some r →
  Unified.dv s' !! a = Some r.
Proof.
  intros Hinv Hn Hd Hd' Hre Ha. pose proof (uni_valid _ _ Hinv Hd) as Hv.
  destruct (image_pages _ _ Hv) as (pl&Hp&Hl).
  destruct (proj1 (path_reaches _ _ _ Hp a) Hre) as [r' Hin]. destruct (Hl _ _ Hin) as [Ha' Hlt]. simplify_eq.
  destruct Hn as [[ne Hn]|[Hn|[Hn|[[ne Hn]|[(ne&nd&Hn)|[Hn|[(f&d&Hn)|[(ne&nd&Hn)|Hn]]]]]]]].
  - destruct Hn as (->&Hu&_&_&->). simpl in *. unfold uni_inv in Hinv. rewrite Hu in Hinv. destruct Hinv as [Hno _].
    destruct Hd' as [->|Hd']; [|simpl in Hd'; congruence]. simpl in *.
    destruct (tight_struct _ _ Hv) as (_&(pl'&Hp'&Hst)&_). destruct Hst as (HpT&_).
    assert (pl' = pl) as -> by (exact (path_det _ _ _ _ Hp' Hp)). exact (path_entries _ _ _ HpT _ _ Hin).
  - by destruct Hn as (m&v&->&Hv'&Hs&->).
  - by destruct Hn as (m&v&->&Hv'&Hs&->).
  - by destruct Hn as (m&v&->&Hv'&Hs&->).
  - destruct Hn as (x&y&v&->&Hv'&Hs&->). simpl. unfold uni_inv in Hinv. rewrite Hv' in Hinv. destruct Hinv as [Hi Hsup].
    destruct (uni_aj_step _ _ _ _ _ i Hi Hs (Hsup _ Hd)) as (_&Hk&_); [done|]. by apply Hk.
  - by destruct Hn as (m&->&Hle&->).
  - by destruct Hn as (nb&mx&v&->&Hv'&Hno&Hend&Hmx&Hst&Hcc&Hcd&Hfst&Hfr&->).
  - destruct Hn as (re&dd&v&f&->&Hv'&Hff&Hs&->). simpl. unfold uni_inv in Hinv. rewrite Hv' in Hinv. destruct Hinv as [Hi Hsup].
    assert (i = f) as -> by (by destruct Hd' as [->|?]).
    destruct (uni_aj_step _ _ _ _ _ f Hi Hs (Hsup _ Hd)) as (_&Hk&_); [by intros ??? [= -> _ _]|]. by apply Hk.
  - by destruct Hn as (k&->&->).
Qed.
Lemma uni_space s l s' : uni_inv s → Unified.next s s' l →
  (∀ a r, Unified.dv s !! a = Some r → au a ∉ crash_taken l) ∧
  (∀ a r, Unified.dv s' !! a = Some r → au a ∉ crash_given_back l) ∧
  (∀ a r r', Unified.dv s !! a = Some r → Unified.dv s' !! a = Some r' → r' = r).
Proof.
  intros Hinv Hn.
  assert (crash_taken l = ∅ → crash_given_back l = ∅ → Unified.dv s' ⊆ Unified.dv s →
    (∀ a r, Unified.dv s !! a = Some r → au a ∉ crash_taken l) ∧
    (∀ a r, Unified.dv s' !! a = Some r → au a ∉ crash_given_back l) ∧
    (∀ a r r', Unified.dv s !! a = Some r → Unified.dv s' !! a = Some r' → r' = r)) as Hsame.
  { intros -> -> Hsub. split_and!; [intros; apply not_elem_of_empty|intros; apply not_elem_of_empty|].
    intros a r r' Ha Ha'. pose proof (lookup_weaken _ _ _ _ Ha' Hsub). congruence. }
  assert (∀ v ne E' L, Unified.ephemeral s = Some v → Unified.dv s' = E' →
    AllocJournal.next (to_aj v (Unified.dv s)) (to_aj ne E') L →
    (∀ a r, Unified.dv s !! a = Some r → au a ∉ taken L) ∧
    (∀ a r, Unified.dv s' !! a = Some r → au a ∉ given_back L) ∧
    (∀ a r r', Unified.dv s !! a = Some r → Unified.dv s' !! a = Some r' → r' = r)) as Hstep.
  { intros v ne E' L Hv HE' Hs. subst E'. unfold uni_inv in Hinv. rewrite Hv in Hinv. destruct Hinv as [Hi _].
    destruct (alloc_step_space _ _ _ Hi Hs) as (H1&H2&H3). destruct (alloc_next_sim _ _ _ Hi Hs) as [_ Hi'].
    destruct (alloc_step_pages _ _ _ Hi Hs) as [Hp _]. split_and!.
    - intros a r Ha Hin. pose proof (alloc_pages_accessible _ Hi a r Ha). set_solver.
    - intros a r Ha Hin. pose proof (alloc_pages_accessible _ Hi' a r Ha) as Hacc. rewrite H3 in Hacc. set_solver.
    - intros a r r' Ha Ha'. destruct (Hp a r Ha) as [Hx|[Hx _]].
      + unfold on_disk in Hx. simpl in Hx. congruence.
      + exfalso. by apply (Hx r'). }
  destruct Hn as [[ne Hn]|[Hn|[Hn|[[ne Hn]|[(ne&nd&Hn)|[Hn|[(f&d&Hn)|[(ne&nd&Hn)|Hn]]]]]]]].
  - destruct Hn as (->&Hu&_&_&->). apply Hsame; [done|done|]. simpl. apply map_filter_subseteq.
  - destruct Hn as (m&v&->&Hv'&Hs&->). by apply Hsame.
  - destruct Hn as (m&v&->&Hv'&Hs&->). by apply Hsame.
  - destruct Hn as (m&v&->&Hv'&Hs&->). by apply Hsame.
  - destruct Hn as (x&y&v&->&Hv'&Hs&->). exact (Hstep v ne nd _ Hv' eq_refl Hs).
  - destruct Hn as (m&->&Hle&->). by apply Hsame.
  - destruct Hn as (nb&mx&v&->&Hv'&Hno&Hend&Hmx&Hst&Hcc&Hcd&Hfst&Hfr&->). by apply Hsame.
  - destruct Hn as (re&dd&v&f&->&Hv'&Hff&Hs&->).
    destruct (Hstep v ne nd _ Hv' eq_refl Hs) as (_&H2&H3). split_and!; [intros; apply not_elem_of_empty|done|done].
  - destruct Hn as (k&->&->). by apply Hsame.
Qed.
End Sim.
