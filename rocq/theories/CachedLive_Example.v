(** Concrete runs of the journal in the page cache: one that can freeze, one whose
    page is blocked by a reservation, and one of two pages that does not fit into a
    cache of one slot (C53). *)
From Verif Require Import Abs_Model Abs_Spec Abs_Proof Spec_Model Spec_Proof Journal_Model Journal_Spec Journal_Example
  Paged_Proof Linked_Proof AllocJournal_Model Likes_Proof Disk_Model Cache_Model Cache_Spec Cache_Proof Cache_Live
  Cache_Example CacheLive_Example CachedJournal_Model CachedJournal_Spec CachedJournal_Proof CachedSys_Proof
  CachedFacts_Proof CachedJournal_Example CachedLive_Proof.
Open Scope nat_scope.

Notation jnext := (@JournalSys.next geo num_codec true true true).
Notation st := JournalSys.mkState.
Lemma other_wf : @addr_wf geo other.
Proof. split; cbn; lia. Qed.
Lemma no_pages s a : CachedJournal.lsn_addr_index (JournalSys.journal s) = ∅ → ¬ journal_page s a.
Proof. intros E [lsn Hl]. by rewrite E in Hl. Qed.
Lemma x_holds s : sys_journal_is num_codec (st xj1 s) (mh_concat (empty_history_at 0) xtail).
Proof.
  exists (empty_history_at 0). split; [|done]. split; [apply empty_history_wf|]. exists ∅.
  split; [intros a r Hx; by rewrite lookup_empty in Hx|]. split; [done|]. split; [done|].
  intros lsn km. cbn. rewrite lookup_empty. split; [done|]. intros (_ & a & r & Hre & _). inversion Hre.
Qed.
(** A message in the tail, nothing on the disk: everything is there for a freeze. *)
Lemma live_example : ∃ s0, CacheSys.init 2%nat s0 ∅ ∧ JournalSys.initialize num_codec true (st xj0 s0) s0 xsnap0 ∅ ∧
  run jnext (st xj0 s0) [JournalSys.Put jm0] (st xj1 s0) ∧
  (∀ a, journal_page (st xj1 s0) a → @addr_wf geo a ∧ not_reserved (CacheSys.cache s0) a) ∧
  @usable geo (CacheSys.cache s0) 0%Z ∧
  (cut_in num_codec xtail 1 ∧ 1 ≤ size ({[pg]} : gset Address) ∧
   ∀ a, a ∈ ({[pg]} : gset Address) → @addr_wf geo a ∧ ¬ journal_page (st xj1 s0) a) ∧
  sys_journal_is num_codec (st xj1 s0) (mh_concat (empty_history_at 0) xtail) ∧ xtail = jm0.
Proof.
  destruct x_init as (s0 & Hi & W0 & Hj). exists s0. split; [done|]. split; [done|]. split; [apply run_one, x_put|].
  split; [intros a Ha; by apply no_pages in Ha|]. split.
  { destruct W0 as (He & _). exists Empty. split; [exact He|done]. }
  split.
  { split; [|split; [by rewrite size_singleton|]].
    - apply (cut_one _ _ 1); [vm_compute; lia|split; vm_compute; lia|intros p; cbn; lia|]. by constructor.
    - intros a ->%elem_of_singleton. split; [apply pg_wf|by apply no_pages]. }
  split; [apply x_holds|].
  unfold xtail. apply mh_eq; [done|done|]. intros lsn. rewrite concat_lookup. by destruct (msgs jm0 !! lsn).
Qed.

(** ** A reservation for a page of the journal *)
(** The journal has one page and nothing in its tail, and a slot is reserved for
    that page. *)
Definition blocked (s : JournalSys.State) : Prop := JournalSys.journal s = xj2 ∧
  ∃ k, Cache.entries (CacheSys.cache (JournalSys.store s)) !! k = Some (Reserved pg).
Lemma blocked_step s s' : blocked s → jnext s s' JournalSys.Internal → blocked s'.
Proof.
  intros [Hj [k Hk]] Hn. destruct Hn as [Hn|[Hn|[Hn|[Hn|[Hn|[Hn|[Hn|[Hn|Hn]]]]]]]].
  - by destruct Hn as (?&?&?&_).
  - by destruct Hn as (?&?&?&?&_).
  - by destruct Hn as (?&?&_).
  - by destruct Hn as (?&?&?&_).
  - by destruct Hn as (?&?&?&?&?&_).
  - exfalso. destruct Hn as (_&j'&st'&a&r&_&Hj'&_). rewrite Hj in Hj'.
    destruct Hj' as [[? Hj']|[[? Hj']|[Hj'|[Hj'|[Hj'|(?&?&Hj')]]]]].
    + by destruct Hj' as (?&?&?&_).
    + by destruct Hj' as (?&?&?&?&_).
    + by destruct Hj' as (?&_).
    + by destruct Hj' as (?&?&_).
    + by destruct Hj' as (?&?&?&?&_).
    + destruct Hj' as (w&_&_&Hc&[_ Hd]&_). vm_compute in Hc, Hd. lia.
  - destruct Hn as (_&st'&Hn&->). split; [done|]. exists k. destruct Hn as (_&q&r&c'&d'&Hc&_&->). cbn. by eapply keeps_waiting.
  - destruct Hn as (_&st'&Hn&->). split; [done|]. exists k. destruct Hn as (_&c'&Hc&->). cbn. by eapply keeps_waiting.
  - destruct Hn as (_&st'&Hn&->). split; [done|]. exists k. by destruct Hn as (_&d'&_&->).
Qed.
Lemma blocked_run s ls s' : blocked s → background ls → run jnext s ls s' → blocked s'.
Proof.
  intros Hb Hl Hr. induction Hr as [s|s ls s1 l s2 Hr IH Hn]; [done|].
  assert (l = JournalSys.Internal) as -> by (apply Hl, elem_of_app; right; by apply elem_of_list_singleton).
  eapply blocked_step; [|exact Hn]. apply IH; [done|]. intros l Hin. apply Hl, elem_of_app. by left.
Qed.
Lemma xj2_next : CachedJournal.next_index xj2 (Some pg) = None.
Proof. vm_compute. reflexivity. Qed.
Lemma blocked_freeze s s' snap pages h : blocked s → wfc (CacheSys.cache (JournalSys.store s)) →
  jnext s s' (JournalSys.FreezeForCommit snap) → snapshot_holds num_codec pages snap h → seq_end h = 0.
Proof.
  intros [Hj [k Hk]] W Hn Hh. destruct Hn as [Hn|[Hn|[Hn|[Hn|[Hn|[Hn|[Hn|[Hn|Hn]]]]]]]];
    try (by destruct Hn as (?&_)); try (by destruct Hn as (?&?&_)); try (by destruct Hn as (?&?&?&_)).
  2: by destruct Hn as (?&?&?&?&?&_).
  destruct Hn as (snap'&X&reads&[= <-]&Ha&_&Hf&_). rewrite Hj in Hf.
  destruct Hf as [[? Hf]|[[depth Hf]|[Hf|[Hf|[Hf|(?&?&Hf)]]]]];
    try (by destruct Hf as (?&_)); try (by destruct Hf as (?&?&_)); try (by destruct Hf as (?&?&?&_)).
  2: by destruct Hf as (?&?&?&?&_).
  destruct Hf as (snap'&X'&rd&[= <- <- <-]&_&Hcc&Hptr&Hrd&Hle&_).
  change (CachedJournal.freshest_rec xj2) with (Some pg) in *.
  destruct depth as [|[|depth]]; cbn [CachedJournal.pointer_after_crop_index CachedJournal.can_crop_index] in *.
  - exfalso. destruct (Hrd pg eq_refl) as [r Hr]. unfold JournalSys.to_journal_reads in Hr.
    apply lookup_fmap_Some in Hr as (d & _ & Hd). destruct Ha as (r'&w'&c'&[= <- <-]&Ha&_).
    apply next_access_inv in Ha as (r2&w2&[= <- <-]&Hv&_). destruct (Hv _ _ Hd) as (k'&a'&Hl&He).
    assert (Cache.lookup_map (CacheSys.cache (JournalSys.store s)) !! pg = Some k) as Hl'
      by (apply (w_lookup _ W); by exists (Reserved pg)). congruence.
  - rewrite xj2_next in Hptr. destruct Hh as (_&E&_&_&He&_). cbn in He. rewrite <- Hptr in He. rewrite He.
    rewrite xj2_next in Hle. cbn in Hle. lia.
  - destruct Hcc as (_&Hs&_). rewrite xj2_next in Hs. by destruct Hs.
Qed.
(** Slots are never taken away. *)
Lemma slot_stays b c c' l k : Cache.next b c c' l → is_Some (Cache.entries c !! k) → is_Some (Cache.entries c' !! k).
Proof.
  intros H Hk. destruct H as [[m H]|[[m H]|[H|[H|[H|[H|[[X H]|[H|H]]]]]]]].
  - destruct H as (_ & _ & inv & _ & ->). cbn. apply lookup_union_is_Some. by right.
  - destruct H as (q & _ & _ & _ & _ & _ & _ & inv & _ & ->). cbn. apply lookup_union_is_Some. by right.
  - destruct H as (r & _ & _ & _ & _ & m & _ & ->). cbn. apply lookup_union_is_Some. by right.
  - destruct H as (r & w & _ & _ & _ & ->). cbn. apply lookup_union_is_Some. by right.
  - by destruct H as (r & _ & _ & _ & _ & _ & ->).
  - by destruct H as (r & _ & _ & _ & _ & ->).
  - destruct H as (_ & _ & _ & ->). cbn. apply lookup_union_is_Some. by right.
  - by destruct H as (X & _ & _ & ->).
  - by destruct H as (_ & ->).
Qed.
Lemma slot_stays_run s ls s' k : run jnext s ls s' → is_Some (Cache.entries (CacheSys.cache (JournalSys.store s)) !! k) →
  is_Some (Cache.entries (CacheSys.cache (JournalSys.store s')) !! k).
Proof.
  intros Hr. induction Hr as [s|s ls s1 l s2 Hr IH Hn]; [done|]. intros Hk. specialize (IH Hk).
  destruct Hn as [Hn|[Hn|[Hn|[Hn|[Hn|[Hn|[Hn|[Hn|Hn]]]]]]]].
  - by destruct Hn as (?&?&_&_&_&->).
  - by destruct Hn as (?&?&?&_&_&_&_&->).
  - by destruct Hn as (?&_&_&->).
  - by destruct Hn as (?&?&_&_&_&->).
  - by destruct Hn as (?&?&?&?&_&_&_&->).
  - destruct Hn as (_&j'&st'&a&r&_&_&(?&?&c'&_&Hc&->)&->). cbn. by eapply slot_stays.
  - destruct Hn as (_&st'&(_&q&r&c'&d'&Hc&_&->)&->). cbn. by eapply slot_stays.
  - destruct Hn as (_&st'&(_&c'&Hc&->)&->). cbn. by eapply slot_stays.
  - by destruct Hn as (_&st'&(_&d'&_&->)&->).
Qed.
Lemma blocked_example : ∃ s0 ls s h, CacheSys.init 2%nat s0 ∅ ∧
  JournalSys.initialize num_codec true (st xj0 s0) s0 xsnap0 ∅ ∧ run jnext (st xj0 s0) ls s ∧
  (∀ a, journal_page s a → @addr_wf geo a) ∧ @usable geo (CacheSys.cache (JournalSys.store s)) 1%Z ∧
  mh_is_empty (CachedJournal.unmarshalled_tail (JournalSys.journal s)) ∧ sys_journal_is num_codec s h ∧
  ∀ ls' s' s'' snap, background ls' → run jnext s ls' s' → jnext s' s'' (JournalSys.FreezeForCommit snap) →
    ¬ snapshot_holds num_codec (page_saved (JournalSys.store s')) snap h.
Proof.
  destruct (x_run true) as (s0&ls&s&Hi&Hj&Hr&_&_&_&out&q&r&c&W5).
  destruct (@v_evict geo true 2%nat _ _ _ _ _ _ _ _ W5) as (s6 & N6 & W6).
  destruct (@v_reserve geo true 2%nat _ _ _ _ _ _ _ _ W6) as (s7 & N7 & W7).
  assert (Hr7 : run jnext (st xj0 s0) ((ls ++ [JournalSys.Internal]) ++ [JournalSys.Internal]) (st xj2 s7)).
  { eapply run_snoc; [eapply run_snoc; [exact Hr|]|]; eapply x_internal; done. }
  destruct (@sys_reach geo num_codec true true num_codec_ok (or_introl eq_refl) _ _ _ _ _ Hi (run_nil _ _) _ _ _ Hj _ _ Hr7)
    as (sg & E & J).
  assert (Hreach : ∀ ls' s', run jnext (st xj2 s7) ls' s' → wfc (CacheSys.cache (JournalSys.store s'))).
  { intros ls' s' Hr'. destruct (@sys_reach geo num_codec true true num_codec_ok (or_introl eq_refl) _ _ _ _ _ Hi (run_nil _ _)
      _ _ _ Hj _ _ (run_app _ _ _ _ _ _ Hr7 Hr')) as (sg' & E' & J'). apply (i_wf _ _ (j_c _ _ _ _ _ J')). }
  destruct (@observe geo num_codec true true _ _ _ Hr7) as (tr & _ & Htr).
  destruct (@sys_faithful geo num_codec true true num_codec_ok (or_introl eq_refl) _ _ _ _ _ Hi (run_nil _ _) _ _ _ Hj _ _ Htr)
    as (h0 & a0 & als & al & _ & _ & _ & _ & Hh).
  exists s0. eexists _, (st xj2 s7), (AbstractJournal.journal al). split; [done|]. split; [done|]. split; [exact Hr7|].
  split.
  { intros a [lsn Ha]. assert (a ∈ values xidx) as Hv by (apply elem_of_values; by exists lsn).
    assert (values xidx = {[pg]}) as E1 by dec. rewrite E1 in Hv. apply elem_of_singleton in Hv as ->. apply pg_wf. }
  split.
  { destruct (slot_stays_run _ _ _ 1%Z Hr7) as [e He].
    { destruct Hi as [(HE & _) _]. cbn. rewrite HE, decide_True; [by eexists|]. unfold slot_max. vm_compute. intuition discriminate. }
    exists e. split; [exact He|]. cbn in He.
    assert (Hno : ∀ a, get_addr e ≠ Some a).
    { intros a Ha. assert (Hl : Cache.lookup_map (CacheSys.cache s7) !! a = Some 1%Z).
      { apply (w_lookup _ (i_wf _ _ (j_c _ _ _ _ _ J))). by exists e. }
      destruct W7 as (_ & _ & Hlk & _). rewrite Hlk in Hl. cbn in Hl. by apply lookup_singleton_Some in Hl as [_ ?]. }
    split; [|intros a Ha; by apply Hno in Ha]. intros a ->. by eapply Hno. }
  split; [done|]. split; [done|]. intros ls' s' s'' snap Hb Hr' Hf Hs.
  assert (blocked s') as Hbl.
  { eapply blocked_run; [|done|exact Hr']. split; [done|]. exists 0%Z. by destruct W7. }
  assert (seq_end (AbstractJournal.journal al) = 0) as E0 by (eapply blocked_freeze; [exact Hbl|by eapply Hreach|exact Hf|exact Hs]).
  destruct Hh as (p & _ & Hpe). rewrite Hpe in E0. done.
Qed.

(** ** A journal of two pages *)
Definition yj3 : CachedJournal.State := CachedJournal.mkState 0 (Some pg)
  (mh_concat (CachedJournal.unmarshalled_tail (marshalled xj1 1 pg)) jm1) (CachedJournal.lsn_addr_index (marshalled xj1 1 pg)).
Definition two_pages : gset Address := {[pg; other]}.
Lemma two_pages_example : ∃ s0 ls s, CacheSys.init 2%nat s0 ∅ ∧
  JournalSys.initialize num_codec true (st xj0 s0) s0 xsnap0 ∅ ∧ run jnext (st xj0 s0) ls s ∧
  jnext s s (JournalSys.FreezeForCommit (sys_snapshot s)) ∧ (∀ a, journal_page s a → @addr_wf geo a) ∧
  visits num_codec (page_saved (JournalSys.store s)) (sys_snapshot s) two_pages.
Proof.
  destruct live_example as (s0&Hi&Hj&Hr&_&Hu&_).
  assert (HJ : ∀ ls s, run jnext (st xj0 s0) ls s → ∃ sg E, jinv num_codec true s sg E).
  { intros ls s Hr'. exact (@sys_reach geo num_codec true true num_codec_ok (or_introl eq_refl) _ _ _ _ _ Hi (run_nil _ _) _ _ _ Hj _ _ Hr'). }
  assert (Hnr : ∀ a, not_reserved (CacheSys.cache s0) a).
  { intros a k Hk. destruct Hi as [(HE & _) _]. rewrite HE in Hk. by destruct (decide _). }
  destruct (@marshal_some geo num_codec true true num_codec_ok (or_introl eq_refl) 2%nat (st xj1 s0) 1 pg 0%Z (HJ _ _ Hr))
    as (l1 & s1 & B1 & R1 & E1 & P1 & N1 & U1).
  { vm_compute. lia. }
  { split; vm_compute; lia. }
  { cbn. lia. }
  { apply pg_wf. }
  { by apply no_pages. }
  { exact Hu. }
  assert (Hp : jnext s1 (st yj3 (JournalSys.store s1)) (JournalSys.Put jm1)).
  { do 3 right. left. exists jm1, yj3. split; [done|]. split; [|done]. do 3 right. left. exists jm1. split; [done|].
    rewrite E1. split; [apply singleton_wf|]. done. }
  assert (Hr2 : run jnext (st xj0 s0) (([JournalSys.Put jm0] ++ l1) ++ [JournalSys.Put jm1]) (st yj3 (JournalSys.store s1))).
  { eapply run_snoc; [|exact Hp]. by eapply run_app. }
  assert (Hpg3 : ∀ a, journal_page (st yj3 (JournalSys.store s1)) a → a = pg).
  { intros a [lsn Ha]. destruct (P1 a) as [->|Hx]; [|done|].
    - exists lsn. rewrite E1. exact Ha.
    - by apply no_pages in Hx. }
  destruct (@marshal_some geo num_codec true true num_codec_ok (or_introl eq_refl) 2%nat (st yj3 (JournalSys.store s1)) 2 other 0%Z
    (HJ _ _ Hr2)) as (l2 & s2 & B2 & R2 & E2 & P2 & N2 & U2).
  { vm_compute. lia. }
  { split; vm_compute; lia. }
  { cbn. lia. }
  { apply other_wf. }
  { intros Hx%Hpg3. discriminate. }
  { exact U1. }
  assert (Hr3 := run_app _ _ _ _ _ _ Hr2 R2).
  assert (Hpg : ∀ a, journal_page s2 a → a = pg ∨ a = other).
  { intros a [->|Hx%Hpg3]%P2; auto. }
  destruct (@freeze_marshalled geo num_codec true true num_codec_ok (or_introl eq_refl) 2%nat s2 0%Z (HJ _ _ Hr3))
    as (l4 & s4 & B4 & R4 & E4 & F4 & K4).
  { intros a Ha. split; [destruct (Hpg a Ha) as [->| ->]; [apply pg_wf|apply other_wf]|].
    apply N2. destruct (Hpg a Ha) as [->| ->]; [left|by right]. apply N1. by right. }
  { exact U2. }
  assert (Hr4 := run_app _ _ _ _ _ _ Hr3 R4).
  assert (Hpg4 : ∀ a, journal_page s4 a ↔ a ∈ two_pages).
  { intros a. unfold two_pages. rewrite elem_of_union, !elem_of_singleton. split.
    - intros [lsn Ha]. apply Hpg. exists lsn. by rewrite <- E4.
    - intros [->| ->]; [exists 0|exists 1]; rewrite E4, E2; vm_compute; reflexivity. }
  exists s0. eexists _, s4. split; [done|]. split; [done|]. split; [exact Hr4|]. split; [done|]. split.
  { intros a Ha%Hpg4. unfold two_pages in Ha. rewrite elem_of_union, !elem_of_singleton in Ha.
    destruct Ha as [->| ->]; [apply pg_wf|apply other_wf]. }
  destruct (HJ _ _ Hr4) as (sg & E & J).
  assert (Hd : Linked.tj_decodable (mkTJ (CachedJournal.freshest_rec (JournalSys.journal s4))
    (mkDV (CachedJournal.boundary_lsn (JournalSys.journal s4)) E))).
  { exact (linked_wf_inv _ (proj1 (j_l _ _ _ _ _ J))). }
  eapply (visits_part _ _ _ (raw_page_to_record <$> AsyncDisk.content (CacheSys.disk (JournalSys.store s4))) E);
    [|reflexivity|exact Hd| |].
  - intros a r. rewrite lookup_fmap_Some. unfold page_saved. clear. split; intros (d & H1 & H2); by exists d.
  - intros a r Ha. destruct (j_pg _ _ _ _ _ J _ _ Ha) as (d & Hx & <-). exists d. split; [|done]. unfold page_saved.
    rewrite (clean_saved _ _ _ (j_c _ _ _ _ _ J)); [done|]. apply K4.
    assert (a ∈ dom E) as Hin by (apply elem_of_dom; by eexists). rewrite (j_dom _ _ _ _ _ J) in Hin.
    by apply elem_of_values in Hin.
  - intros a. destruct (lk_facts _ _ (j_l _ _ _ _ _ J)) as (l & Hw & Hpth & Hb & Hok).
    rewrite <- Hpg4. assert (Hpr := path_reaches _ _ _ Hpth a).
    rewrite Hpr. split.
    + intros [lsn Ha]. apply Hok in Ha as (b & r & Hin & _ & <-). by exists r.
    + intros [r Hin]. eexists. exact (in_path_index _ _ _ _ Hw Hpth Hb Hok _ _ Hin).
Qed.
Lemma two_pages_wf a : a ∈ two_pages → @addr_wf geo a.
Proof.
  unfold two_pages. rewrite elem_of_union, !elem_of_singleton. intros [->| ->]; [apply pg_wf|apply other_wf].
Qed.
Lemma two_pages_size : size two_pages ≤ 2.
Proof. apply (bool_decide_unpack _). by vm_compute. Qed.
Lemma fresh_store (n : nat) c : ∃ rs0, CacheSys.init (from_zero n) rs0 c.
Proof. destruct (fresh_cache (from_zero n)) as [ca Hca]. by exists (CacheSys.mkState ca (AsyncDisk.mkState ∅ ∅ c)). Qed.
Lemma visits_unique C (P : Address → RawPage → Prop) snap X X' : visits C P snap X → visits C P snap X' → X = X'.
Proof.
  intros (E & HE & HX) (E' & HE' & HX').
  assert (E = E') as <-.
  { apply map_eq. intros a. apply option_eq. intros r. by rewrite HE, HE'. }
  apply set_eq. intros a. by rewrite HX, HX'.
Qed.
Lemma room_example : ∃ c1 rs0 rtr rs snap reads sr, CacheSys.init (from_zero 2) rs0 c1 ∧
  run (@CacheSys.next geo true (from_zero 2)) rs0 rtr rs ∧ reads_only rtr ∧
  JournalSys.initialize num_codec true sr rs snap reads ∧ visits num_codec (λ a d, c1 !! a = Some d) snap two_pages.
Proof.
  destruct two_pages_example as (s0 & ls & s & H1 & H2 & H3 & H4 & H5 & H6).
  destruct (@sys_can_restart geo num_codec true true num_codec_ok (or_introl eq_refl) _ _ _ _ _ H1 (run_nil _ _) _ _ _ H2
    _ _ _ _ _ _ H3 H4 (run_nil _ _)) as (X & HX & Hre).
  { intros x y Hx%elem_of_nil. done. }
  destruct (fresh_store 2 (AsyncDisk.content (CacheSys.disk (JournalSys.store s)))) as [rs0 Hrs0].
  assert (X = two_pages) as -> by (by eapply visits_unique).
  destruct (Hre 2 rs0 Hrs0) as (rtr & rs & reads & sr & Hint & Hrun & Hin & _).
  { unfold slot_max. lia. }
  { apply two_pages_wf. }
  { apply two_pages_size. }
  exists (AsyncDisk.content (CacheSys.disk (JournalSys.store s))), rs0, rtr, rs, (sys_snapshot s), reads, sr.
  split; [done|]. split; [done|]. split; [|done].
  intros l Hl. rewrite elem_of_list_In in Hl. by rewrite (proj1 (List.Forall_forall _ _) Hint l Hl).
Qed.
Lemma small_cache : ¬ (∀ (G : Geometry) C n c0 cs0 snap0 reads0 s0 ls s snap (n' : nat) rs0,
      codec_round_trip C → CacheSys.init n cs0 c0 → JournalSys.initialize C true s0 cs0 snap0 reads0 →
      run (JournalSys.next C true true true) s0 ls s →
      JournalSys.next C true true true s s (JournalSys.FreezeForCommit snap) →
      (∀ a, journal_page s a → addr_wf a) → 0 < n' → (Z.of_nat n' ≤ slot_max + 1)%Z →
      CacheSys.init (from_zero n') rs0 (AsyncDisk.content (CacheSys.disk (JournalSys.store s))) →
      ∃ rtr rs reads sr, run (CacheSys.next true (from_zero n')) rs0 rtr rs ∧ reads_only rtr ∧
        JournalSys.initialize C true sr rs snap reads).
Proof.
  intros HF. destruct two_pages_example as (s0 & ls & s & H1 & H2 & H3 & H4 & H5 & H6).
  destruct (fresh_store 1 (AsyncDisk.content (CacheSys.disk (JournalSys.store s)))) as [rs0 Hrs0].
  destruct (HF geo num_codec 2%nat _ _ _ _ _ _ _ _ 1 rs0 num_codec_ok H1 H2 H3 H4 H5) as (rtr&rs&reads&sr&Hrun&Hro&Hin).
  { lia. }
  { unfold slot_max. lia. }
  { done. }
  pose proof (restart_room _ _ _ _ _ _ _ _ _ _ Hrs0 Hrun Hro Hin H6) as Hsz. vm_compute in Hsz. lia.
Qed.
