(** Proofs: the journal whose pages live in the page cache can always make its
    records durable, and can be restarted (C53). *)
From Verif Require Import Abs_Model Abs_Spec Abs_Proof Spec_Model Spec_Proof Journal_Model Journal_Spec Paged_Proof
  Linked_Proof AllocJournal_Model Likes_Proof Disk_Model Cache_Model Cache_Spec Cache_Proof Cache_Live
  CachedJournal_Model CachedJournal_Spec CachedJournal_Proof CachedSys_Proof CachedFacts_Proof.
Open Scope nat_scope.

(** ** Cleaning pages, and keeping clean ones *)
Definition clean_in (s : CacheSys.State) (a : Address) : Prop :=
  check_ok s a ∧ is_Some (Cache.lookup_map (CacheSys.cache s) !! a).
Lemma clean_one `{Geometry} n s b : calm_inv s → addr_wf b → not_reserved (CacheSys.cache s) b →
  ∃ s', calmly true n s s' ∧ check_ok s' b ∧ (∀ c, check_ok s c → check_ok s' c) ∧ (∀ c, clean_in s c → clean_in s' c) ∧
    tame {[b]} s s'.
Proof.
  intros Hi Hwf Hnr. assert (Hi' := Hi). destruct Hi' as [sg I]. assert (W := i_wf _ _ I).
  destruct (Cache.lookup_map (CacheSys.cache s) !! b) as [k|] eqn:Hl; cycle 1.
  { exists s. split; [apply calmly_refl|]. split; [intros k Hk; congruence|]. split; [done|]. split; [done|]. apply tame_refl. }
  destruct (clean_slot n s sg b k I Hwf Hl (Hnr k)) as (s' & C & Hok & Hl' & O).
  destruct (calmly_inv _ _ _ Hi C) as [sg' I']. assert (W' := i_wf _ _ I').
  assert (Hk : ∀ c, check_ok s c → check_ok s' c).
  { intros c Hc k' Hk'. destruct (decide (k' = k)) as [->|Hne].
    - apply (w_lookup _ W') in Hk' as (e & He & Ha), Hl' as Hb. destruct Hb as (e' & He' & Ha').
      assert (c = b) as -> by congruence. by apply Hok.
    - destruct (O k' Hne) as [E1 E2]. rewrite E1, E2. apply Hc, (w_lookup _ W).
      apply (w_lookup _ W') in Hk' as (e & He & Ha). exists e. by rewrite <- E1. }
  exists s'. split; [done|]. split; [done|]. split; [done|]. split.
  - intros c [Hc [k' Hk']]. split; [by apply Hk|]. destruct (decide (k' = k)) as [->|Hne].
    + apply (w_lookup _ W) in Hk' as (e & He & Ha), Hl as (e' & He' & Ha').
      assert (c = b) as -> by congruence. by eexists.
    + exists k'. apply (w_lookup _ W'). apply (w_lookup _ W) in Hk' as (e & He & Ha). exists e. destruct (O k' Hne) as [E1 _]. by rewrite E1.
  - intros k'. destruct (decide (k' = k)) as [->|Hne]; [|left; by apply O]. right. right.
    destruct (Hok k Hl') as [(a' & d & He) _]. apply (w_lookup _ W') in Hl' as (e & He' & Ha).
    rewrite He in He'. injection He' as <-. injection Ha as ->. exists b, d. split; [set_solver|done].
Qed.

Lemma tame_trans X Y s1 s2 s3 : tame X s1 s2 → tame Y s2 s3 → tame (X ∪ Y) s1 s3.
Proof.
  intros H1 H2 k. destruct (H2 k) as [E|[E|(a & d & Ha & E)]].
  - destruct (H1 k) as [E1|[E1|(a & d & Ha & E1)]].
    + left. by rewrite E.
    + right. left. unfold slot_empty in *. by rewrite E.
    + right. right. exists a, d. split; [set_solver|]. unfold slot_holds in *. by rewrite E.
  - by right; left.
  - right. right. exists a, d. split; [set_solver|done].
Qed.
Lemma clean_all `{Geometry} n (B : list Address) : ∀ s, calm_inv s →
  (∀ b, b ∈ B → addr_wf b ∧ not_reserved (CacheSys.cache s) b) →
  ∃ s', calmly true n s s' ∧ (∀ b, b ∈ B → check_ok s' b) ∧ (∀ c, check_ok s c → check_ok s' c) ∧
    (∀ c, clean_in s c → clean_in s' c).
Proof.
  induction B as [|b B IH]; intros s Hi HB.
  { exists s. split; [apply calmly_refl|]. split; [set_solver|]. done. }
  destruct (HB b) as [Hwf Hnr]; [set_solver|].
  destruct (clean_one n s b Hi Hwf Hnr) as (s1 & C1 & Hb & Hk & Hc & Ht).
  destruct (IH s1) as (s2 & C2 & HB2 & Hk2 & Hc2).
  { by eapply calmly_inv. }
  { intros c Hin. destruct (HB c) as [? ?]; [set_solver|]. split; [done|]. by eapply tame_reserved. }
  exists s2. split; [by eapply calmly_trans|]. split; [|split; eauto].
  intros c [->|Hin]%elem_of_cons; [by apply Hk2|by apply HB2].
Qed.

(** ** A background step keeps the history *)
Lemma linked_internal_keeps pre post : linked_inv pre → Linked.next pre post Linked.Internal →
  ∃ h, linked_journal_is pre h ∧ linked_journal_is post h.
Proof.
  intros Hi Hn. assert (Hd := linked_wf_inv _ Hi). destruct (ltj_rel_exists _ Hd) as [p Hp].
  set (ps := Paged.mkState p (Linked.unmarshalled_tail pre)).
  assert (Hr : linked_rel pre ps) by (split; [exact Hp|done]).
  destruct (linked_next_sim _ _ _ _ Hi Hr Hn) as (Hi' & ps' & pl & Hr' & Hpn & Hl).
  assert (Hpw : Paged.wf ps).
  { destruct Hi as [(Htw&Hmw&Hse&Hee) _]. destruct (ltj_rel_facts _ _ Htw Hp) as (Hpw&Hpe&Hpb).
    split_and!; [done|done|]. cbn. by rewrite Hpe. }
  destruct (paged_next_refines _ _ _ Hpw Hpn) as [Hpw' Ha].
  assert (pl = Paged.Internal) as -> by (destruct pl; done).
  assert (E : paged_i ps' = paged_i ps).
  { destruct Ha as [Ha|[Ha|[Ha|[Ha|[Ha|Ha]]]]].
    - by destruct Ha as (_&?&?&_).
    - by destruct Ha as (_&?&?&_).
    - by destruct Ha as (_&?&?&_).
    - by destruct Ha as (_&?&?&_).
    - by destruct Ha as (_&?&?&?&_).
    - by destruct Ha as (_&_&->). }
  exists (AbstractJournal.journal (paged_i ps)). split.
  - exists (ptj_i p). split; [|done]. eapply paged_linked_holds; [apply Hd|exact Hp|]. apply ptj_i_holds, Hpw.
  - rewrite <- E. destruct Hr' as [Hr1 Hr2]. exists (ptj_i (Paged.truncated_journal ps')). split.
    + eapply paged_linked_holds; [apply Hi'|exact Hr1|]. apply ptj_i_holds, Hpw'.
    + cbn. by rewrite Hr2.
Qed.

(** ** One page is written *)
Lemma ready_slot `{Geometry} n s a k : calm_inv s → addr_wf a → usable (CacheSys.cache s) k →
  ∃ s' k', calmly true n s s' ∧ tame {[a]} s s' ∧ Cache.lookup_map (CacheSys.cache s') !! a = Some k' ∧
    (Cache.entries (CacheSys.cache s') !! k' = Some (Reserved a) ∨
     (∃ d, Cache.entries (CacheSys.cache s') !! k' = Some (Filled a d)) ∧
     Cache.status_map (CacheSys.cache s') !! k' = Some Clean).
Proof.
  intros Hi Hwf Hu. assert (Hi' := Hi). destruct Hi' as [sg I]. assert (W := i_wf _ _ I).
  assert (D : (∃ k', Cache.entries (CacheSys.cache s) !! k' = Some (Reserved a)) ∨ not_reserved (CacheSys.cache s) a).
  { destruct (Cache.lookup_map (CacheSys.cache s) !! a) as [k'|] eqn:Hl.
    - destruct (Cache.entries (CacheSys.cache s) !! k') as [e|] eqn:He.
      + assert (e = Reserved a ∨ e ≠ Reserved a) as [->|Hne]; [destruct e as [|b|b|b d]; auto; destruct (decide (b = a)) as [->|]; auto; right; congruence|by left; exists k'|]. right. intros k2 Hk2.
        assert (Cache.lookup_map (CacheSys.cache s) !! a = Some k2) by (apply (w_lookup _ W); by exists (Reserved a)).
        congruence.
      + apply (w_lookup _ W) in Hl as (e & He' & _). congruence.
    - right. intros k2 Hk2.
      assert (Cache.lookup_map (CacheSys.cache s) !! a = Some k2) by (apply (w_lookup _ W); by exists (Reserved a)).
      congruence. }
  destruct D as [[k' Hk']|Hnr].
  { exists s, k'. split; [apply calmly_refl|]. split; [apply tame_refl|]. split; [|by left].
    apply (w_lookup _ W). by exists (Reserved a). }
  destruct (cache_pages n s {[a]} {[k]} Hi) as (s' & C & T & Hs').
  - by intros b ->%elem_of_singleton.
  - by intros k' ->%elem_of_singleton.
  - by rewrite !size_singleton.
  - destruct (Hs' a) as (k' & d & Hd & Hst); [set_solver|]. destruct (calmly_inv _ _ _ Hi C) as [sg' I'].
    exists s', k'. split; [done|]. split; [done|]. split; [|right; eauto].
    apply (w_lookup _ (i_wf _ _ I')). by eapply slot_for_filled.
Qed.
Lemma write_page `{Geometry} s a k d : calm_inv s → Cache.lookup_map (CacheSys.cache s) !! a = Some k →
  (Cache.entries (CacheSys.cache s) !! k = Some (Reserved a) ∨
   (∃ d, Cache.entries (CacheSys.cache s) !! k = Some (Filled a d)) ∧
   Cache.status_map (CacheSys.cache s) !! k = Some Clean) →
  ∃ s', CacheSys.access true s s' (CacheSys.Access ∅ {[a := d]}) ∧ tame {[a]} s s' ∧
    Cache.entries (CacheSys.cache s') !! k = Some (Filled a d).
Proof.
  intros [sg I] Hl Hk. assert (W := i_wf _ _ I). eexists. split; [|split].
  - exists ∅, {[a := d]}. eexists. split; [done|]. split; [|reflexivity]. do 3 right. left.
    exists ∅, {[a := d]}. split; [done|]. split; [intros ? ? Hx; by rewrite lookup_empty in Hx|]. split; [|reflexivity].
    intros b d' [<- <-]%lookup_singleton_Some. exists k. split; [done|].
    destruct Hk as [Hk|[[d2 Hk] Hst]]; [left; eauto|]. right. split; [eauto|]. by rewrite Hst.
  - intros k'. cbn. rewrite lookup_union, map_lookup_imap.
    set (ws := map_values (restrict (Cache.lookup_map (CacheSys.cache s)) (dom ({[a := d]} : gmap Address RawPage)))).
    destruct (Cache.entries (CacheSys.cache s) !! k') as [e|] eqn:He; cbn; [|by left].
    unfold Cache.written. destruct (decide (k' ∈ ws)) as [Hw|Hw]; cbn; [|by left].
    apply elem_of_map_values in Hw as [b Hb]. apply lookup_restrict in Hb as [Hb Hd].
    rewrite dom_singleton_L in Hd. apply elem_of_singleton in Hd as ->.
    apply (w_lookup _ W) in Hb as (e' & He' & Ha). assert (e' = e) as -> by congruence. rewrite Ha. cbn.
    rewrite lookup_singleton. cbn. right. right. exists a, d. split; [set_solver|]. unfold slot_holds. cbn.
    rewrite lookup_union, map_lookup_imap, He. cbn. unfold Cache.written. fold ws. rewrite decide_True.
    + rewrite Ha. cbn. by rewrite lookup_singleton.
    + apply elem_of_map_values. exists a. apply lookup_restrict. split; [apply (w_lookup _ W); by exists e|].
      rewrite dom_singleton_L. set_solver.
  - apply (w_lookup _ W) in Hl as Hl'. destruct Hl' as (e & He & Ha). cbn. apply lookup_union_Some_l.
    rewrite map_lookup_imap, He. cbn. unfold Cache.written. rewrite decide_True.
    + rewrite Ha. cbn. by rewrite lookup_singleton.
    + apply elem_of_map_values. exists a. apply lookup_restrict. split; [done|]. rewrite dom_singleton_L. set_solver.
Qed.

Section live.
  Context `{Geometry} (C : PageCodec) (ps we : bool) (rt : codec_round_trip C) (ok : we = true ∨ ps = false).
  Notation snext := (JournalSys.next C true ps we).
  Notation tail_of s := (CachedJournal.unmarshalled_tail (JournalSys.journal s)).

  Lemma calm_lift n j st st' : calmly true n st st' →
    ∃ ls, background ls ∧ run snext (JournalSys.mkState j st) ls (JournalSys.mkState j st').
  Proof.
    clear ok rt. intros (ls & Hl & Hr). induction Hr as [s|s ls s1 l s2 Hr IH Hn].
    { exists []. split; [by intros l Hl2%elem_of_nil|constructor]. }
    apply Forall_app in Hl as [Hl1 Hl2]. inversion Hl2; subst. destruct (IH Hl1) as (bs & Hb & Hrun).
    exists (bs ++ [JournalSys.Internal]). split.
    { intros l [Hin|Hin]%elem_of_app; [by apply Hb|by apply elem_of_list_singleton in Hin]. }
    eapply run_snoc; [exact Hrun|]. destruct Hn as [Hn|[Hn|[Hn|[Hn|[Hn|Hn]]]]].
    - by destruct Hn as (?&?&?&?&_).
    - by destruct Hn as (?&?&_).
    - do 6 right. left. split; [done|]. eexists. split; [exact Hn|done].
    - do 7 right. left. split; [done|]. eexists. split; [exact Hn|done].
    - do 8 right. split; [done|]. eexists. split; [exact Hn|done].
    - by destruct Hn as (?&_).
  Qed.
  Lemma background_app ls ls' : background ls → background ls' → background (ls ++ ls').
  Proof. clear. intros H1 H2 l [Hl|Hl]%elem_of_app; auto. Qed.

  Lemma sys_internal_keeps s sg E s' : jinv C ps s sg E → snext s s' JournalSys.Internal →
    (∃ sg' E', jinv C ps s' sg' E') ∧ ∀ h, sys_journal_is C s h → sys_journal_is C s' h.
  Proof using ok rt.
    intros J Hn. destruct (sys_step C ps we rt ok _ _ _ _ _ J Hn) as (sg' & E' & ll & J' & Hl & Hrel & _).
    cbn in Hrel. subst ll. split; [eauto|]. intros h (p & Hp & ->).
    destruct (likes_next_sim _ _ _ (j_l _ _ _ _ _ J) Hl) as [Hln _].
    destruct (linked_internal_keeps _ _ (proj1 (j_l _ _ _ _ _ J)) Hln) as (h & H1 & H2).
    apply (jinv_holds C ps _ _ _ _ J) in H1. apply (jinv_holds C ps _ _ _ _ J') in H2.
    destruct H1 as (p1 & Hp1 & ->).
    assert (p1 = p) as ->; [|done]. eapply snapshot_holds_det; [|exact Hp1|exact Hp]. intros a d d'.
    apply (page_now_fun _ _ _ _ _ (j_c _ _ _ _ _ J)).
  Qed.
  Lemma background_keeps ls s s' : background ls → run snext s ls s' → (∃ sg E, jinv C ps s sg E) →
    (∃ sg E, jinv C ps s' sg E) ∧ ∀ h, sys_journal_is C s h → sys_journal_is C s' h.
  Proof using ok rt.
    intros Hb Hr. induction Hr as [s|s ls s1 l s2 Hr IH Hn]; intros J; [done|].
    assert (l = JournalSys.Internal) as -> by (apply Hb, elem_of_app; right; by apply elem_of_list_singleton).
    destruct (IH ltac:(intros l Hl; apply Hb, elem_of_app; by left) J) as [(sg & E & J1) K1].
    destruct (sys_internal_keeps _ _ _ _ J1 Hn) as [J2 K2]. split; [done|]. intros h Hh. by apply K2, K1.
  Qed.

  (** ** The tail up to a cut is written to one page *)
  Definition marshalled (j : CachedJournal.State) (cut : LSN) (a : Address) : CachedJournal.State :=
    CachedJournal.mkState (CachedJournal.boundary_lsn j) (Some a)
      (Abs_Model.discard_old (CachedJournal.unmarshalled_tail j) cut)
      (index_append_record (CachedJournal.lsn_addr_index j)
         (discard_recent (CachedJournal.unmarshalled_tail j) cut) a).
  Lemma marshal_some (n : SlotRange) s cut a k : (∃ sg E, jinv C ps s sg E) →
    seq_start (tail_of s) < cut → can_discard_to (tail_of s) cut →
    record_fits (mkRec (discard_recent (tail_of s) cut) (CachedJournal.freshest_rec (JournalSys.journal s))) →
    addr_wf a → ¬ journal_page s a →
    usable (CacheSys.cache (JournalSys.store s)) k →
    ∃ ls s', background ls ∧ run snext s ls s' ∧ JournalSys.journal s' = marshalled (JournalSys.journal s) cut a ∧
      (∀ b, journal_page s' b → b = a ∨ journal_page s b) ∧
      (∀ b, not_reserved (scache s) b ∨ b = a → not_reserved (scache s') b) ∧ usable (scache s') k.
  Proof using ok rt.
    intros (sg & E & J) Hlt Hcan Hfit Hwf Hnj Hu. assert (Hc : calm_inv (JournalSys.store s)) by (exists sg; apply J).
    destruct (ready_slot n _ a k Hc Hwf Hu) as (st1 & k1 & C1 & T1 & Hl1 & Hk1).
    assert (Hc1 := calmly_inv _ _ _ Hc C1).
    set (j := JournalSys.journal s) in *.
    set (r := mkRec (discard_recent (CachedJournal.unmarshalled_tail j) cut) (CachedJournal.freshest_rec j)).
    destruct (write_page st1 a k1 (record_to_raw_page r) Hc1 Hl1 Hk1) as (st2 & A2 & T2 & Hk2).
    destruct (calm_lift n j _ _ C1) as (ls & Hb & Hr).
    set (j' := marshalled j cut a).
    assert (Hw : mh_wf (CachedJournal.unmarshalled_tail j)) by (destruct (j_l _ _ _ _ _ J) as [[(_&Hw&_) _] _]; exact Hw).
    assert (Hm : CachedJournal.internal_journal_marshal j j' (CachedJournal.JournalMarshal {[a := r]}) cut a).
    { exists {[a := r]}. split; [done|]. split.
      { intros [lsn Hx]%elem_of_values. apply Hnj. by exists lsn. }
      by split; [|split]. }
    assert (Hn : snext (JournalSys.mkState j st1) (JournalSys.mkState j' st2) JournalSys.Internal).
    { do 5 right. left. split; [done|]. exists j', st2, a, r. split; [exact Hfit|]. split; [|split; [|done]].
      - do 5 right. by exists cut, a.
      - unfold JournalSys.to_cache_writes. by rewrite map_fmap_singleton. }
    exists (ls ++ [JournalSys.Internal]), (JournalSys.mkState j' st2).
    assert (Hb2 : background (ls ++ [JournalSys.Internal])).
    { apply background_app; [done|]. by intros l ->%elem_of_list_singleton. }
    assert (Hr2 : run snext s (ls ++ [JournalSys.Internal]) (JournalSys.mkState j' st2)).
    { eapply run_snoc; [|exact Hn]. by destruct s. }
    destruct (background_keeps _ _ _ Hb2 Hr2 (ex_intro _ sg (ex_intro _ E J))) as [(sg2 & E2 & J2) _].
    assert (W2 := i_wf _ _ (j_c _ _ _ _ _ J2)).
    assert (T : tame ({[a]} ∪ {[a]}) (JournalSys.store s) st2) by (by eapply tame_trans).
    split; [done|]. split; [done|]. split; [done|]. split.
    { intros b [lsn Hx]. destruct (marshal_sim _ _ _ _ _ _ (j_l _ _ _ _ _ J) (j_dom _ _ _ _ _ J) Hm) as (_&_&_&Hv&_).
      assert (b ∈ values (CachedJournal.lsn_addr_index j')) as Hb3 by (apply elem_of_values; by exists lsn).
      apply Hv in Hb3 as [->|Hb3]; [by left|]. right. by apply elem_of_values in Hb3. }
    split.
    - intros b [Hnr| ->].
      + by eapply tame_reserved.
      + intros k3 Hk3. assert (Hx : Cache.lookup_map (CacheSys.cache st2) !! a = Some k3) by (apply (w_lookup _ W2); by exists (Reserved a)).
        assert (Hy : Cache.lookup_map (CacheSys.cache st2) !! a = Some k1) by (apply (w_lookup _ W2); by eexists).
        cbn in Hk3. congruence.
    - eapply tame_usable; [exact T| |exact Hu]. set_solver.
  Qed.
  (** ** The whole tail, piece by piece *)
  Lemma marshal_all (n : SlotRange) m t : cut_in C t m → ∀ s k (X : gset Address), tail_of s = t →
    (∃ sg E, jinv C ps s sg E) →
    (∀ a, journal_page s a → addr_wf a ∧ not_reserved (scache s) a) →
    usable (scache s) k → m ≤ size X → (∀ a, a ∈ X → addr_wf a ∧ ¬ journal_page s a) →
    ∃ ls s', background ls ∧ run snext s ls s' ∧ mh_is_empty (tail_of s') ∧
      (∀ a, journal_page s' a → addr_wf a ∧ not_reserved (scache s') a) ∧ usable (scache s') k.
  Proof using ok rt.
    induction 1 as [t He|t x m Hx Hcan Hfit Hcut IH]; intros s k X Ht J Hpg Hu Hm HX.
    { exists [], s. split; [by intros l Hl%elem_of_nil|]. split; [constructor|]. by rewrite Ht. }
    destruct (set_choose_or_empty X) as [[a Ha]|HeX].
    2: { assert (X = ∅) as -> by set_solver. rewrite size_empty in Hm. lia. }
    destruct (HX a Ha) as [Hwf Hnj]. subst t.
    destruct (marshal_some n s x a k J Hx Hcan (Hfit _) Hwf Hnj Hu) as (l1 & s1 & B1 & R1 & E1 & P1 & N1 & U1).
    destruct (background_keeps _ _ _ B1 R1 J) as [J1 _].
    destruct (IH s1 k (X ∖ {[a]})) as (l2 & s2 & B2 & R2 & T2 & P2 & U2); [by rewrite E1|done| |done| | |].
    - intros b [->|Hb]%P1; [split; [done|by apply N1; right]|]. destruct (Hpg b Hb). split; [done|]. apply N1. by left.
    - rewrite size_difference by set_solver. rewrite size_singleton. lia.
    - intros b [HbX Hba]%elem_of_difference. destruct (HX b HbX) as [Hb1 Hb2]. split; [done|].
      intros [->|Hb]%P1; [set_solver|done].
    - exists (l1 ++ l2), s2. split; [by apply background_app|]. split; [by eapply run_app|]. done.
  Qed.
  (** ** Everything that is marshalled is frozen *)
  Lemma head_page s sg E a : jinv C ps s sg E → CachedJournal.freshest_rec (JournalSys.journal s) = Some a →
    journal_page s a ∧ ∃ r, E !! a = Some r ∧ CachedJournal.boundary_lsn (JournalSys.journal s) < seq_end (message_seq r).
  Proof.
    clear. intros J Ha. destruct (lk_facts _ _ (j_l _ _ _ _ _ J)) as (l & Hw & Hp & Hb & Hok).
    rewrite Ha in Hp, Hb. inversion Hp as [|? r l' He Hp' E1 E2]; subst.
    split; [|exists r; split; [done|by eapply Hb]].
    exists (seq_end (message_seq r) - 1). eapply (in_path_index _ _ _ _ Hw Hp Hb Hok). left.
  Qed.
  Lemma freeze_now (n : SlotRange) s : (∃ sg E, jinv C ps s sg E) →
    (∀ a, CachedJournal.freshest_rec (JournalSys.journal s) = Some a → clean_in (JournalSys.store s) a) →
    (∀ a, journal_page s a → check_ok (JournalSys.store s) a) →
    snext s s (JournalSys.FreezeForCommit (sys_snapshot s)).
  Proof.
    clear rt ok. intros (sg & E & J) Hh Hck. assert (W := i_wf _ _ (j_c _ _ _ _ _ J)).
    assert (∃ reads, CacheSys.access true (JournalSys.store s) (JournalSys.store s) (CacheSys.Access reads ∅) ∧
      ∀ a, CachedJournal.freshest_rec (JournalSys.journal s) = Some a → is_Some (reads !! a)) as (reads & Ha & Hrd).
    { destruct (CachedJournal.freshest_rec (JournalSys.journal s)) as [a|].
      - destruct (Hh a eq_refl) as [Hok [k Hk]]. destruct (Hok k Hk) as [(a' & d & He) _].
        exists {[a := d]}. split; [|intros b [= <-]; rewrite lookup_singleton; by eexists].
        assert (CacheSys.next true n (JournalSys.store s) (JournalSys.store s) (CacheSys.Access {[a := d]} ∅)) as Hn.
        { apply read_step. intros b d0 [<- <-]%lookup_singleton_Some. exists k, a'. done. }
        destruct Hn as [Hn|[Hn|[Hn|[Hn|[Hn|Hn]]]]]; [done|..]; try (by destruct Hn as (?&_)). by destruct Hn as (?&?&_).
      - exists ∅. split; [|done].
        assert (CacheSys.next true n (JournalSys.store s) (JournalSys.store s) (CacheSys.Access ∅ ∅)) as Hn.
        { apply read_step. intros b d0 Hx. by rewrite lookup_empty in Hx. }
        destruct Hn as [Hn|[Hn|[Hn|[Hn|[Hn|Hn]]]]]; [done|..]; try (by destruct Hn as (?&_)). by destruct Hn as (?&?&_). }
    set (j := JournalSys.journal s) in *.
    set (fend := CachedJournal.frozen_seq_end j (JournalSys.to_journal_reads C reads) (CachedJournal.freshest_rec j)).
    right. left. exists (sys_snapshot s), (values (index_range (CachedJournal.lsn_addr_index j) (CachedJournal.boundary_lsn j) fend)), reads.
    split; [done|]. split; [done|]. split.
    { eexists. split; [done|]. split; [|done]. do 7 right. left. eexists. split; [done|]. split; [|done].
      intros a k [lsn [_ Hx]%lookup_index_range]%elem_of_values Hk. exact (Hck a (ex_intro _ lsn Hx) k Hk). }
    split; [|done]. right. left. exists 0. do 3 eexists. split; [reflexivity|]. cbv zeta. cbn [CachedJournal.pointer_after_crop_index].
    fold j. fold fend. change (snap_boundary (sys_snapshot s)) with (CachedJournal.boundary_lsn j).
    split; [done|]. split; [done|]. split; [done|]. split.
    { intros a Hx. destruct (Hrd a Hx) as [d Hd]. unfold JournalSys.to_journal_reads. rewrite lookup_fmap, Hd. by eexists. }
    assert (Hf : is_Some (CachedJournal.freshest_rec j) → CachedJournal.boundary_lsn j < fend).
    { intros [a Hx]. destruct (head_page _ _ _ _ J Hx) as ([lsn Hlsn] & r & Hr & Hlt).
      destruct (Hrd a Hx) as [d Hd]. unfold fend. rewrite Hx. cbn.
      assert (JournalSys.to_journal_reads C reads !! a = Some (raw_page_to_record d)) as Ht
        by (unfold JournalSys.to_journal_reads; by rewrite lookup_fmap, Hd).
      rewrite Ht. rewrite (reads_agree C ps _ _ _ _ J Ha _ _ Ht) in Hr by (apply elem_of_values; by exists lsn).
      injection Hr as <-. exact Hlt. }
    split; [|done]. destruct (CachedJournal.freshest_rec j) as [a|] eqn:Hx.
    - assert (CachedJournal.boundary_lsn j < fend) by (apply Hf; by eexists). lia.
    - done.
  Qed.

  Lemma freeze_marshalled (n : SlotRange) s1 k : (∃ sg E, jinv C ps s1 sg E) →
    (∀ a, journal_page s1 a → addr_wf a ∧ not_reserved (scache s1) a) → usable (scache s1) k →
    ∃ l3 s3, background l3 ∧ run snext s1 l3 s3 ∧ JournalSys.journal s3 = JournalSys.journal s1 ∧
      snext s3 s3 (JournalSys.FreezeForCommit (sys_snapshot s3)) ∧
      ∀ a, journal_page s3 a → check_ok (JournalSys.store s3) a.
  Proof using ok rt.
    intros J1 P1 U1.
    assert (I1 : calm_inv (JournalSys.store s1)) by (destruct J1 as (sg & E & J1); exists sg; apply J1).
    assert (∃ st2, calmly true n (JournalSys.store s1) st2 ∧ calm_inv st2 ∧
      (∀ a, CachedJournal.freshest_rec (JournalSys.journal s1) = Some a → clean_in st2 a) ∧
      (∀ a, not_reserved (scache s1) a → not_reserved (CacheSys.cache st2) a)) as (st2 & C2 & I2 & H2 & N2).
    { destruct (CachedJournal.freshest_rec (JournalSys.journal s1)) as [a|] eqn:Ha.
      - destruct J1 as (sg & E & J1). destruct (head_page _ _ _ _ J1 Ha) as (Hja & _).
        destruct (cache_pages n (JournalSys.store s1) {[a]} {[k]} I1) as (st2 & C2 & Hta & H2).
        + intros b ->%elem_of_singleton. by apply P1.
        + by intros k' ->%elem_of_singleton.
        + by rewrite !size_singleton.
        + exists st2. assert (I2 := calmly_inv _ _ _ I1 C2). split; [done|]. split; [done|]. split.
          * intros b [= <-]. destruct (H2 a) as (k' & d & Hd & Hst); [set_solver|]. destruct I2 as [sg2 I2].
            assert (Hlk : Cache.lookup_map (CacheSys.cache st2) !! a = Some k')
              by (apply (w_lookup _ (i_wf _ _ I2)); by eapply slot_for_filled).
            split; [|by eexists]. intros k2 Hk2. assert (k2 = k') as -> by congruence. split; [|done]. by exists a, d.
          * intros b Hb. by eapply tame_reserved.
      - exists (JournalSys.store s1). split; [apply calmly_refl|]. done. }
    destruct (clean_all n (elements (values (idx_of_sys s1))) st2 I2) as (st3 & C3 & H3 & _ & K3).
    { intros b [lsn Hb]%elem_of_elements%elem_of_values. destruct (P1 b); [by exists lsn|]. split; [done|]. by apply N2. }
    destruct (calm_lift n (JournalSys.journal s1) _ _ (calmly_trans _ _ _ _ _ C2 C3)) as (l3 & B3 & R3).
    set (s3 := JournalSys.mkState (JournalSys.journal s1) st3) in *.
    assert (R3' : run snext s1 l3 s3) by (by destruct s1).
    destruct (background_keeps _ _ _ B3 R3' J1) as [J3 _].
    assert (HC : ∀ a, journal_page s3 a → check_ok (JournalSys.store s3) a).
    { intros a [lsn Ha]. apply H3, elem_of_elements, elem_of_values. by exists lsn. }
    exists l3, s3. split; [done|]. split; [done|]. split; [done|]. split; [|done].
    apply (freeze_now n); [done| |done]. intros a Ha. by apply K3, H2.
  Qed.
  Lemma clean_saved st sg a : cinv st sg → check_ok st a → AsyncDisk.content (CacheSys.disk st) !! a = sg a.
  Proof.
    clear. intros I Hck. apply (i_disk _ _ I). intros (k & d & He & Hst).
    destruct (Hck k) as [_ Hc]; [apply (w_lookup _ (i_wf _ _ I)); by eapply slot_for_filled|].
    destruct Hst; congruence.
  Qed.
  (** ** A restart needs room for the whole journal *)
  Lemma restart_room (n' : nat) c1 rs0 rtr rs snap reads sr X :
    CacheSys.init (from_zero n') rs0 c1 → run (CacheSys.next true (from_zero n')) rs0 rtr rs → reads_only rtr →
    JournalSys.initialize C true sr rs snap reads → visits C (λ a d, c1 !! a = Some d) snap X → size X ≤ n'.
  Proof.
    clear ok rt. intros Hi Hr Hro Hin (E & HE & HX).
    destruct (calm_reads _ _ _ _ _ Hi Hr Hro) as (sg & I & Hsg & Hcon & Hnd).
    assert (Hdec := Hin). destruct Hdec as (_ & Ha & _ & _ & Hd & _ & _).
    destruct (tj_path_exists _ Hd) as [l Hl].
    assert (Hsub : X ⊆ dom reads).
    { intros a Hx%HX. destruct (reaches_path (snap_boundary snap) E (JournalSys.to_journal_reads C reads) (snap_freshest snap) a l) as [r Hr']; [|exact Hx|exact Hl|].
      - intros b r r' Hb Hb'. apply HE in Hb as (d & Hd1 & <-).
        unfold JournalSys.to_journal_reads in Hb'. apply lookup_fmap_Some in Hb' as (d' & <- & Hd').
        rewrite <- Hsg in Hd1. by rewrite (access_reads _ _ _ I Ha _ _ Hd' _ Hd1).
      - pose proof (path_entries _ _ _ Hl _ _ Hr') as Hx'. cbn in Hx'. unfold JournalSys.to_journal_reads in Hx'.
        apply lookup_fmap_Some in Hx' as (d & _ & Hd'). apply elem_of_dom. by eexists. }
    assert (size X ≤ size (dom reads)) by (by apply subseteq_size).
    assert (size (dom reads) ≤ n'); [|lia].
    eapply cache_capacity_zero; [exact Hi|exact Hr|]. intros a [d Hd']%elem_of_dom.
    destruct Ha as (r' & w' & c' & [= <- <-] & Ha & _). apply next_access_inv in Ha as (r2 & w2 & [= <- <-] & Hrd & _).
    destruct (Hrd _ _ Hd') as (k & a' & Hk & _). exists k. by apply (w_lookup _ (i_wf _ _ I)).
  Qed.

  Lemma concat_nothing p t : mh_wf t → mh_is_empty t → seq_end p = seq_start t → mh_concat p t = p.
  Proof.
    clear. intros Ht He Hs. unfold mh_is_empty in He. apply mh_eq; [done|cbn; congruence|]. intros lsn.
    rewrite concat_lookup. rewrite (mh_wf_None t); [done|done|]. unfold mh_contains. lia.
  Qed.
  (** The tail starts where the pages end. *)
  Lemma pages_end s sg E p : jinv C ps s sg E → snapshot_holds C (page_now (JournalSys.store s)) (sys_snapshot s) p →
    seq_end p = seq_start (tail_of s).
  Proof.
    clear. intros J (Hw & E' & HE & Hs & He & _). cbn in He.
    assert (Hm := marshalled_end _ _ (j_l _ _ _ _ _ J)). unfold Linked.tj_seq_end in Hm. cbn in Hm.
    unfold CachedJournal.marshalled_seq_end in Hm. rewrite <- Hm. clear Hm.
    destruct (CachedJournal.freshest_rec (JournalSys.journal s)) as [a|] eqn:Ha; [|done].
    destruct He as (r & Hr & ->). destruct (head_page _ _ _ _ J Ha) as (_ & r' & Hr' & _). cbn. rewrite Hr'.
    destruct (HE _ _ Hr) as (d & Hd & <-). destruct (j_pg _ _ _ _ _ J _ _ Hr') as (d' & Hd' & <-).
    apply (page_now_sg _ _ _ _ (j_c _ _ _ _ _ J)) in Hd. congruence.
  Qed.

  Section theorems.
    Context (n : SlotRange) (c0 : gmap Address RawPage) (cs0 st : CacheSys.State) (ctr : list CacheSys.Label)
      (Hi : CacheSys.init n cs0 c0) (Hc : run (CacheSys.next true n) cs0 ctr st)
      (snap0 : JournalSnapShot) (reads0 : gmap Address RawPage) (s0 : JournalSys.State)
      (Hs : JournalSys.initialize C true s0 st snap0 reads0).

    Lemma sys_can_freeze ls s k h : run snext s0 ls s →
      (∀ a, journal_page s a → addr_wf a ∧ not_reserved (scache s) a) →
      usable (scache s) k →
      (∃ m (X : gset Address), cut_in C (tail_of s) m ∧ m ≤ size X ∧ ∀ a, a ∈ X → addr_wf a ∧ ¬ journal_page s a) →
      sys_journal_is C s h →
      ∃ ls' s' snap, background ls' ∧ run snext s ls' s' ∧
        snext s' s' (JournalSys.FreezeForCommit snap) ∧
        snapshot_holds C (page_now (JournalSys.store s')) snap h ∧
        snapshot_holds C (page_saved (JournalSys.store s')) snap h.
    Proof using Hc Hi Hs ok rt.
      intros Hr Hpg Hu Ht Hh.
      assert (J : ∃ sg E, jinv C ps s sg E) by exact (sys_reach C ps we rt ok n c0 cs0 st ctr Hi Hc _ _ _ Hs _ _ Hr).
      assert (∃ l1 s1, background l1 ∧ run snext s l1 s1 ∧ mh_is_empty (tail_of s1) ∧
        (∀ a, journal_page s1 a → addr_wf a ∧ not_reserved (scache s1) a) ∧ usable (scache s1) k)
        as (l1 & s1 & B1 & R1 & T1 & P1 & U1).
      { destruct Ht as (m & X & Hcut & Hm & HX). by eapply (marshal_all n). }
      destruct (background_keeps _ _ _ B1 R1 J) as [J1 K1].
      destruct (freeze_marshalled n s1 k J1 P1 U1) as (l3 & s3 & B3 & R3 & E3 & F & _).
      assert (R13 : run snext s (l1 ++ l3) s3) by (by eapply run_app).
      assert (B13 : background (l1 ++ l3)) by (by apply background_app).
      destruct (background_keeps _ _ _ B13 R13 J) as [J3 K13].
      exists (l1 ++ l3), s3, (sys_snapshot s3). split; [done|]. split; [done|]. split; [done|].
      destruct (K13 _ Hh) as (p & Hp & ->). destruct J3 as (sg & E & J3).
      rewrite concat_nothing.
      - destruct (sys_frozen_survives C ps we rt ok n c0 cs0 st ctr Hi Hc snap0 reads0 s0 Hs (ls ++ (l1 ++ l3)) s3 s3
          (sys_snapshot s3) [] s3) as [_ Hsv]; [by eapply run_app|done|constructor|by intros x y Hx%elem_of_nil|].
        split; [done|by apply Hsv].
      - by destruct (j_l _ _ _ _ _ J3) as [[(_&Hw&_) _] _].
      - by rewrite E3.
      - by eapply pages_end.
    Qed.

    Lemma sys_can_restart ls s s1 snap ls' s' : run snext s0 ls s → snext s s1 (JournalSys.FreezeForCommit snap) →
      run snext s1 ls' s' → truncates_below (snap_boundary snap) ls' →
      ∃ X, visits C (page_saved (JournalSys.store s')) snap X ∧
        ∀ (n' : nat) rs0, CacheSys.init (from_zero n') rs0 (sdisk s') → (Z.of_nat n' ≤ slot_max + 1)%Z →
          (∀ a, a ∈ X → addr_wf a) → size X ≤ n' →
          ∃ rtr rs reads sr, only_internal rtr ∧ run (CacheSys.next true (from_zero n')) rs0 rtr rs ∧
            JournalSys.initialize C true sr rs snap reads ∧
            ∀ h, snapshot_holds C (page_now (JournalSys.store s)) snap h → sys_journal_is C sr h.
    Proof using Hc Hi Hs ok rt.
      intros Hr Hf Hr' Ht.
      destruct (sys_restart_possible C ps we rt ok n c0 cs0 st ctr Hi Hc snap0 reads0 s0 Hs _ _ _ _ _ _ Hr Hf Hr' Ht)
        as (X & HX & Hre). exists X. split; [done|]. intros n' rs0 Hi' Hmax Hwf Hsz.
      assert (I0 : calm_inv rs0) by exact (reach_inv _ _ _ _ _ Hi' (run_nil _ _)).
      assert (Hall : ∀ z : Z, (0 ≤ z < Z.of_nat n')%Z → slot_empty (CacheSys.cache rs0) z).
      { intros z Hz. destruct Hi' as [(HE & _) _]. unfold slot_empty. rewrite HE. cbn.
        rewrite decide_True; [done|]. split; [split; [lia|]|]; lia. }
      destruct (cache_pages (from_zero n') rs0 X (list_to_set (seqZ 0 (Z.of_nat n'))) I0) as (rs & C1 & _ & H1).
      - intros a Ha. split; [by apply Hwf|]. intros k' Hk'. destruct Hi' as [(HE & _) _]. rewrite HE in Hk'. by case_decide.
      - intros z [Hz1 Hz2]%elem_of_list_to_set%elem_of_seqZ. exists Empty. split; [apply Hall; lia|done].
      - rewrite size_list_to_set by apply NoDup_seqZ. rewrite seqZ_length. lia.
      - destruct C1 as (rtr & Hint & Hrun).
        assert (Hro : reads_only rtr).
        { intros l Hl. rewrite elem_of_list_In in Hl. by rewrite (proj1 (List.Forall_forall _ _) Hint l Hl). }
        destruct (Hre (from_zero n') rs0 rtr rs Hi' Hrun Hro) as (reads & sr & Hin).
        + intros a Ha. destruct (H1 a Ha) as (k & d & Hd & _). by exists k, d.
        + exists rtr, rs, reads, sr. split; [done|]. split; [done|]. split; [done|]. intros h Hh.
          by destruct (sys_restart C ps we rt ok n c0 cs0 st ctr Hi Hc snap0 reads0 s0 Hs _ _ _ _ _ _ h Hr Hf Hr' Ht Hh
            _ _ _ _ _ _ Hi' Hrun Hro Hin).
    Qed.
  End theorems.
End live.
