(** Proofs: the cached journal over the page cache and the disk (C27). *)
From Verif Require Import Abs_Model Abs_Spec Abs_Proof Spec_Proof Journal_Model Journal_Spec Paged_Proof
  Linked_Proof AllocJournal_Model Likes_Proof Disk_Model Cache_Model Cache_Spec Cache_Proof
  CachedJournal_Model CachedJournal_Spec CachedJournal_Proof.
Open Scope nat_scope.

(** ** Only a write makes a page dirty *)
Lemma dirty_access c c' r w a : wfc c → Cache.access c c' (Cache.Access r w) → is_dirty c' a →
  is_dirty c a ∨ a ∈ dom w.
Proof.
  intros W (r'&w'&[= <- <-]&Hr&Hw&->) (k&d&He&Hs). cbn [Cache.entries Cache.status_map] in He, Hs.
  set (ws := map_values (restrict (Cache.lookup_map c) (dom w))) in *.
  rewrite lookup_gset_union in Hs. rewrite lookup_union, map_lookup_imap in He.
  destruct (decide (k ∈ ws)) as [Hk|Hk].
  - right. unfold ws in Hk. apply elem_of_map_values in Hk as [b Hb]. apply lookup_restrict in Hb as [Hb Hd].
    apply (w_lookup _ W) in Hb as (e&Hee&Hab). apply elem_of_dom in Hd as [x Hx]. rewrite Hee in He.
    cbn in He. unfold Cache.written in He. destruct (decide (k ∈ ws)) as [_|Hn].
    + rewrite Hab in He. cbn in He. rewrite Hx in He. cbn in He. simplify_eq. apply elem_of_dom. by eexists.
    + cbn in He. simplify_eq. cbn in Hab. simplify_eq. apply elem_of_dom. by eexists.
  - left. destruct (Cache.entries c !! k) as [e|] eqn:Hee; cbn in He; [|done].
    unfold Cache.written in He. rewrite decide_False in He by done. cbn in He. simplify_eq. by exists k, d.
Qed.
Lemma dirty_ops b c c' q r a : wfc c → Cache.next b c c' (Cache.DiskOps q r) → is_dirty c' a → is_dirty c a.
Proof.
  intros W Hn (k&d&He&Hs). apply next_ops_inv in Hn as [[m Hn]|[Hn|[Hn|Hn]]].
  - destruct Hn as (rq&_&_&Hv&_&_&_&inv&_&->). cbn [Cache.entries Cache.status_map] in He, Hs. apply new_slots_filled in He; [|by intros].
    by exists k, d.
  - destruct Hn as (rs&_&_&_&_&si&_&->). cbn [Cache.entries Cache.status_map] in He, Hs. rewrite lookup_union in He. rewrite lookup_union in Hs.
    rewrite lookup_fmap in Hs. rewrite map_lookup_imap in He. destruct (si !! k) as [id|] eqn:Hsi; cbn in Hs.
    { destruct (Cache.status_map c !! k); cbn in Hs; by destruct Hs. }
    cbn in He. exists k, d. rewrite (left_id_L None _) in He. rewrite (left_id_L None _) in Hs. by split.
  - destruct Hn as (rq&_&_&_&Hv&_&->). cbn [Cache.entries Cache.status_map] in He, Hs. exists k, d. split; [done|].
    rewrite lookup_gset_union in Hs. case_decide as Hk; [|done]. left.
    apply elem_of_map_values in Hk as [id Hid]. apply lookup_omap_Some in Hid as (x&Hx1&Hx).
    destruct (Hv _ _ Hx) as (a'&d'&s&->&Hl&_&Hd). cbn in Hx1. congruence.
  - destruct Hn as (rs&_&_&_&_&->). cbn [Cache.entries Cache.status_map] in He, Hs. exists k, d. split; [done|].
    rewrite lookup_gset_union in Hs. case_decide; [|done]. by destruct Hs.
Qed.
Lemma dirty_internal b c c' a : wfc c → Cache.next b c c' Cache.Internal → is_dirty c' a → is_dirty c a.
Proof.
  intros W Hn (k&d&He&Hs). apply next_internal_inv in Hn as [[m Hn]|[[X Hn]| ->]]; [| |by exists k, d].
  - destruct Hn as (_&Hv&inv&_&->). cbn [Cache.entries Cache.status_map] in He, Hs. apply new_slots_filled in He; [|by intros]. by exists k, d.
  - destruct Hn as (_&_&_&->). cbn [Cache.entries Cache.status_map] in He, Hs. rewrite lookup_gset_union in He. rewrite lookup_gset_union in Hs.
    case_decide; [done|]. by exists k, d.
Qed.

(** ** The invariant *)
Notation idx_of_sys s := (CachedJournal.lsn_addr_index (JournalSys.journal s)).
Notation scache s := (CacheSys.cache (JournalSys.store s)).
Notation sdisk s := (AsyncDisk.content (CacheSys.disk (JournalSys.store s))).

Section sys.
  Context `{Geometry} (C : PageCodec) (ps we : bool) (rt : codec_round_trip C) (ok : we = true ∨ ps = false).
  Notation snext := (JournalSys.next C true ps we).

  Record jinv (s : JournalSys.State) (sg : Address → option RawPage) (E : gmap Address JournalRecord) : Prop := {
    j_c : cinv (JournalSys.store s) sg;
    j_dom : dom E = values (idx_of_sys s);
    j_pg : ∀ a r, E !! a = Some r → ∃ d, sg a = Some d ∧ raw_page_to_record d = r;
    j_l : likes_inv (lk (JournalSys.journal s) E);
    j_dirty : ∀ a, is_dirty (scache s) a → a ∈ values (idx_of_sys s);
    j_tail : ps = true ∨ mh_is_empty (CachedJournal.unmarshalled_tail (JournalSys.journal s));
  }.

  (** What a step of the system means for the indexed journal over [E]. *)
  Definition lrel (s : JournalSys.State) (E : gmap Address JournalRecord) (l : JournalSys.Label)
      (ll : Linked.Label) : Prop :=
    match l with
    | JournalSys.ReadForRecovery m => ll = Linked.ReadForRecovery m
    | JournalSys.FreezeForCommit snap => ∃ X,
        ll = Linked.FreezeForCommit (mkTJ (snap_freshest snap) (mkDV (snap_boundary snap) (only X E))) ∧
        X ⊆ values (index_discard_up_to (idx_of_sys s) (snap_boundary snap)) ∧
        ∀ a d, a ∈ X → page_now (JournalSys.store s) a d → page_saved (JournalSys.store s) a d
    | JournalSys.QueryEndLsn n => ll = Linked.QueryEndLsn n
    | JournalSys.Put m => ll = Linked.Put m
    | JournalSys.DiscardOld x y => ll = Linked.DiscardOld x y
    | JournalSys.Internal => ll = Linked.Internal
    end.
  (** Page [a], needed by the journal from [fb] on, holds [d], on the disk too. *)
  Definition kept (fb : LSN) (s : JournalSys.State) (sg : Address → option RawPage) (a : Address) (d : RawPage) : Prop :=
    sg a = Some d ∧ page_saved (JournalSys.store s) a d ∧ a ∈ values (index_discard_up_to (idx_of_sys s) fb).
  Definition low (fb : LSN) (l : JournalSys.Label) : Prop :=
    match l with JournalSys.DiscardOld x _ => x ≤ fb | _ => True end.

  Lemma access_reads st sg reads : cinv st sg →
    CacheSys.access true st st (CacheSys.Access reads ∅) →
    ∀ a d, reads !! a = Some d → ∀ d', sg a = Some d' → d = d'.
  Proof.
    intros I (r'&w'&c'&[= <- <-]&Ha&_). apply next_access_inv in Ha.
    exact (proj2 (step_access _ _ _ _ _ I Ha)).
  Qed.
  Lemma reads_agree s sg E reads : jinv s sg E →
    CacheSys.access true (JournalSys.store s) (JournalSys.store s) (CacheSys.Access reads ∅) →
    ∀ a r, JournalSys.to_journal_reads C reads !! a = Some r → a ∈ values (idx_of_sys s) → E !! a = Some r.
  Proof.
    intros J Ha a r Hr Hv. unfold JournalSys.to_journal_reads in Hr. apply lookup_fmap_Some in Hr as (d&<-&Hd).
    rewrite <- (j_dom _ _ _ J) in Hv. apply elem_of_dom in Hv as [r' Hr'].
    destruct (j_pg _ _ _ J _ _ Hr') as (d'&Hs&<-).
    by rewrite (access_reads _ _ _ (j_c _ _ _ J) Ha _ _ Hd _ Hs).
  Qed.
  Lemma likes_step j E j' E' ll : likes_inv (lk j E) → Likes.next (lk j E) (lk j' E') ll → likes_inv (lk j' E').
  Proof. intros Hi Hn. by eapply likes_next_sim. Qed.

  Ltac jcases Hn := destruct Hn as [[? Hn]|[[? Hn]|[Hn|[Hn|[Hn|(?&?&Hn)]]]]];
    try (by destruct Hn as (?&?&?&?&_)); try (by destruct Hn as (?&?&_)); try (by destruct Hn as (?&_));
    try (by destruct Hn as (?&?&?&_)).

  (** A step of the cache or the disk that is not an access. *)
  Lemma store_step n s sg E st' : jinv s sg E →
    CacheSys.next true n (JournalSys.store s) st' CacheSys.Internal →
    (∀ a, is_dirty (CacheSys.cache st') a → is_dirty (scache s) a) →
    jinv (JournalSys.mkState (JournalSys.journal s) st') sg E ∧
    ∀ fb a d, kept fb s sg a d → kept fb (JournalSys.mkState (JournalSys.journal s) st') sg a d.
  Proof.
    intros J Hn Hd. pose proof (cache_step _ _ _ _ _ (j_c _ _ _ J) Hn) as I'. split.
    - constructor; try apply J; cbn; [exact I'|]. intros a Ha. apply (j_dirty _ _ _ J). by apply Hd.
    - intros fb a d (H1&H2&H3). split; [done|]. split; [|done]. unfold page_saved in *. cbn.
      destruct (content_step _ _ _ _ _ a (j_c _ _ _ J) Hn) as [Hc|[_ Hc]]; congruence.
  Qed.

  Lemma sys_step s sg E s' l : jinv s sg E → snext s s' l →
    ∃ sg' E' ll, jinv s' sg' E' ∧
      Likes.next (lk (JournalSys.journal s) E) (lk (JournalSys.journal s') E') ll ∧ lrel s E l ll ∧
      ∀ fb a d, low fb l → kept fb s sg a d → kept fb s' sg' a d.
  Proof using ok rt.
    intros J Hn. pose proof (j_l _ _ _ J) as Hi. pose proof (j_dom _ _ _ J) as Hdom.
    destruct Hn as [Hn|[Hn|[Hn|[Hn|[Hn|[Hn|[Hn|[Hn|Hn]]]]]]]].
    - destruct Hn as (m&reads&->&Ha&Hj&->). exists sg, E, (Linked.ReadForRecovery m).
      split; [done|]. jcases Hj. split; [|done]. eapply read_sim; [done| |exact Hj]. by eapply reads_agree.
    - destruct Hn as (snap&X&reads&->&Ha&Hck&Hj&->). jcases Hj.
      destruct (freeze_sim _ E _ _ _ _ Hi Hdom (reads_agree _ _ _ _ J Ha) Hj) as [Hl HX].
      eexists sg, E, _. split; [done|]. split; [exact Hl|]. split; [|done]. exists X. split; [done|]. split; [done|].
      intros a d HaX Hp. apply (page_now_sg _ _ _ _ (j_c _ _ _ J)) in Hp.
      destruct Hck as (X'&[= <-]&Hc&_). unfold page_saved.
      by rewrite (checked_disk _ _ _ _ _ _ (j_c _ _ _ J) Hc HaX).
    - destruct Hn as (n&->&Hj&->). exists sg, E, (Linked.QueryEndLsn n). split; [done|]. jcases Hj.
      split; [|done]. do 2 right. left. destruct Hj as [[= ->] _]. split; [by eexists|]. split; [|done].
      do 2 right. left. split; [apply Hi|done].
    - destruct Hn as (m&j'&->&Hj&Hps&->). jcases Hj. pose proof (put_sim _ _ _ _ Hi Hj) as Hl.
      exists sg, E, (Linked.Put m). destruct Hj as (m'&[= <-]&Hm&Hs&->). split; [|split; [exact Hl|done]].
      constructor; try apply J; cbn; [by eapply likes_step|].
      destruct ps eqn:Eps; [by left|]. right. specialize (Hps eq_refl). destruct (j_tail _ _ _ J) as [|Ht]; [congruence|].
      unfold mh_is_empty in *. apply (f_equal CachedJournal.unmarshalled_tail) in Hps. cbn in Hps.
      apply (f_equal seq_end) in Hps. unfold CachedJournal.seq_end in Hs. cbn in *. congruence.
    - destruct Hn as (x&y&j'&X&->&Hj&Hck&->). jcases Hj.
      assert (CachedJournal.discard_old true (JournalSys.journal s) j' (CachedJournal.DiscardOld x y X)) as Hj'.
      { destruct Hj as (x'&y'&X'&Heq&He&Hrest). exists x', y', X'. split; [done|]. split; [|done].
        destruct we eqn:Ewe; [done|]. rewrite He. destruct ok as [|Hps]; [congruence|].
        destruct (j_tail _ _ _ J) as [|Ht]; [congruence|]. exact Ht. }
      assert (CachedJournal.seq_end (JournalSys.journal s) = y) as Hy.
      { by destruct Hj' as (x'&y'&X'&[= <- <- <-]&->&_). }
      pose proof (discard_sim _ _ _ _ _ _ Hi Hdom Hy Hj') as Hl.
      assert (∀ a, a ∈ values (CachedJournal.lsn_addr_index j') → a ∈ values (idx_of_sys s)) as Hsub.
      { destruct Hj' as (x'&y'&X'&[= <- <- <-]&_&_&_&->). cbn. intros a [k Hk]%elem_of_values.
        apply lookup_discard_up_to in Hk as [_ Hk]. apply elem_of_values. by eexists. }
      eexists sg, _, (Linked.DiscardOld x y). split; [|split; [exact Hl|split; [done|]]].
      + constructor; cbn.
        * apply J.
        * apply set_eq. intros a. rewrite elem_of_dom. split.
          -- intros [r Hr]. by apply lookup_only in Hr as [? _].
          -- intros Ha. assert (a ∈ dom E) as [r Hr]%elem_of_dom by (rewrite Hdom; by apply Hsub).
             exists r. by apply lookup_only.
        * intros a r Hr. apply lookup_only in Hr as [_ Hr]. by eapply J.
        * by eapply likes_step.
        * intros a Ha. pose proof (j_dirty _ _ _ J _ Ha) as Hv.
          destruct (decide (a ∈ values (CachedJournal.lsn_addr_index j'))) as [|Hno]; [done|]. exfalso.
          assert (a ∈ X) as HaX.
          { destruct Hj' as (x'&y'&X'&[= <- <- <-]&_&_&->&->). cbn in Hno. by apply elem_of_difference. }
          destruct Hck as (X'&[= <-]&Hc&_). destruct Ha as (k&d&He&Hs).
          destruct (next_check_inv _ _ _ _ Hc a k HaX) as [_ Hcl].
          { apply (w_lookup _ (i_wf _ _ (j_c _ _ _ J))). by eapply slot_for_filled. }
          destruct Hs; congruence.
        * destruct Hj' as (x'&y'&X'&[= <- <- <-]&_&_&_&->). apply J.
      + intros fb a d Hlow (H1&H2&H3). split; [done|]. split; [done|]. cbn in *.
        destruct Hj' as (x'&y'&X'&[= <- <- <-]&_&_&_&->). cbn. apply elem_of_values in H3 as [k Hk].
        apply lookup_discard_up_to in Hk as [Hfb Hk]. apply elem_of_values. exists k.
        apply lookup_discard_up_to. split; [done|]. apply lookup_discard_up_to. split; [lia|done].
    - destruct Hn as (->&j'&st'&a&r&Hfit&Hj&Ha&->). jcases Hj.
      destruct (marshal_sim _ _ _ _ _ _ Hi Hdom Hj) as (r'&Heq&Hnv&Hv&Hkeep&Hl).
      assert (x0 = a ∧ r' = r) as [-> ->].
      { assert (({[a := r]} : gmap Address JournalRecord) !! x0 = Some r') as Hx by (rewrite Heq; apply lookup_singleton).
        by apply lookup_singleton_Some in Hx as [-> ->]. }
      assert (cinv st' (put_pages {[a := record_to_raw_page r]} sg) ∧
              ∀ b, is_dirty (CacheSys.cache st') b → is_dirty (scache s) b ∨ b = a) as [I' Hd].
      { destruct Ha as (rd&w&c'&[= <- <-]&Hc&->). unfold JournalSys.to_cache_writes in Hc.
        rewrite map_fmap_singleton in Hc. apply next_access_inv in Hc. split.
        - exact (proj1 (step_access _ _ _ _ _ (j_c _ _ _ J) Hc)).
        - intros b Hb. cbn in Hb. destruct (dirty_access _ _ _ _ _ (i_wf _ _ (j_c _ _ _ J)) Hc Hb) as [|Hin]; [by left|].
          right. rewrite dom_singleton_L in Hin. by apply elem_of_singleton in Hin. }
      eexists _, _, Linked.Internal. split; [|split; [exact Hl|split; [done|]]].
      + constructor; cbn.
        * exact I'.
        * apply set_eq. intros b. rewrite dom_insert_L, elem_of_union, elem_of_singleton, Hv, Hdom. done.
        * intros b r'. rewrite lookup_insert_Some. unfold put_pages. intros [[<- <-]|[Hne Hb]].
          -- rewrite lookup_singleton. eexists. split; [done|]. by apply rt.
          -- rewrite lookup_singleton_ne by done. by eapply J.
        * by eapply likes_step.
        * intros b Hb. apply Hv. destruct (Hd _ Hb) as [Hb'| ->]; [right; by apply (j_dirty _ _ _ J)|by left].
        * destruct (j_tail _ _ _ J) as [|Ht]; [by left|]. exfalso.
          destruct Hj as (w&_&_&Hcut&[_ Hcan]&_). unfold mh_is_empty in Ht. unfold CachedJournal.marshalled_seq_end in Hcut. lia.
      + intros fb b d _ (H1&H2&H3). apply elem_of_values in H3 as [k Hk]. apply lookup_discard_up_to in Hk as [Hfb Hk].
        assert (b ≠ a) as Hne by (intros ->; apply Hnv, elem_of_values; by eexists). split.
        { unfold put_pages. by rewrite lookup_singleton_ne by done. }
        split.
        { destruct Ha as (rd&w&c'&_&_&->). exact H2. }
        apply elem_of_values. exists k. apply lookup_discard_up_to. split; [done|]. by apply Hkeep.
    - destruct Hn as (->&st'&Hn&->).
      destruct (store_step 0 s sg E st' J) as [J' Hk].
      { do 2 right. by left. }
      { intros a. destruct Hn as (_&q&r&c'&d'&Hc&_&->). cbn. exact (dirty_ops _ _ _ _ _ a (i_wf _ _ (j_c _ _ _ J)) Hc). }
      exists sg, E, Linked.Internal. split; [done|]. split; [do 6 right; done|]. split; [done|]. intros; by apply Hk.
    - destruct Hn as (->&st'&Hn&->).
      destruct (store_step 0 s sg E st' J) as [J' Hk].
      { do 3 right. by left. }
      { intros a. destruct Hn as (_&c'&Hc&->). cbn. exact (dirty_internal _ _ _ a (i_wf _ _ (j_c _ _ _ J)) Hc). }
      exists sg, E, Linked.Internal. split; [done|]. split; [do 6 right; done|]. split; [done|]. intros; by apply Hk.
    - destruct Hn as (->&st'&Hn&->).
      destruct (store_step 0 s sg E st' J) as [J' Hk].
      { do 4 right. by left. }
      { intros a. by destruct Hn as (_&d'&_&->). }
      exists sg, E, Linked.Internal. split; [done|]. split; [do 6 right; done|]. split; [done|]. intros; by apply Hk.
  Qed.
End sys.
