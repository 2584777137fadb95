(** A concrete page codec, and a concrete run of the journal over the cache: a
    message is put, marshalled, written back and frozen; another message is put;
    then the system crashes and the journal starts again. *)
From Verif Require Import Abs_Model Abs_Spec Abs_Proof Spec_Proof Journal_Model Journal_Spec Journal_Example
  AllocJournal_Model Disk_Model Cache_Model Cache_Spec Cache_Proof Cache_Example CachedJournal_Model CachedJournal_Spec
  CachedFacts_Proof.
Open Scope nat_scope.

(** ** A codec: pages hold one number each, and the journal writes at most two
    messages to a page *)
Global Instance Message_countable : Countable Message.
Proof.
  apply (inj_countable' (λ m, match m with Define v => (0%N, v) | Update d => (1%N, d) end)
                        (λ p, if decide (p.1 = 0%N) then Define p.2 else Update p.2)). by intros [].
Defined.
Definition flat (r : JournalRecord) : list (nat * (N * Message)) * (nat * nat) * option Address :=
  (prod_map id (λ km, (km_key km, km_message km)) <$> map_to_list (msgs (message_seq r)),
   (seq_start (message_seq r), seq_end (message_seq r)), prior_rec r).
Definition unflat (x : list (nat * (N * Message)) * (nat * nat) * option Address) : JournalRecord :=
  mkRec (mkMH (list_to_map (prod_map id (λ p, mkKM p.1 p.2) <$> x.1.1)) x.1.2.1 x.1.2.2) x.2.
Lemma unflat_flat r : unflat (flat r) = r.
Proof.
  destruct r as [[m s e] p]. unfold unflat, flat. simpl. do 2 f_equal. rewrite <- list_fmap_compose.
  rewrite <- (list_to_map_to_list m) at 2. f_equal. rewrite <- (list_fmap_id (map_to_list m)) at 2.
  apply list_fmap_ext. intros i [k [ke me]] _. done.
Qed.
Definition num_codec : PageCodec := {|
  record_to_raw_page r := [N.pos (encode (flat r))];
  raw_page_to_record d :=
    match d with
    | [N.pos n] => match decode n with Some x => unflat x | None => mkRec (empty_history_at 0) None end
    | _ => mkRec (empty_history_at 0) None
    end;
  record_fits r := seq_end (message_seq r) ≤ 2 + seq_start (message_seq r) |}.
Lemma num_codec_ok : codec_round_trip num_codec.
Proof. intros r _. cbn [num_codec record_to_raw_page raw_page_to_record]. rewrite decode_encode. apply unflat_flat. Qed.

(** ** The run *)
Definition xj0 : CachedJournal.State := CachedJournal.mkState 0 None (empty_history_at 0) ∅.
Definition xtail : MsgHistory := mh_concat (empty_history_at 0) jm0.
Definition xj1 : CachedJournal.State := CachedJournal.mkState 0 None xtail ∅.
Definition xrec : JournalRecord := mkRec (discard_recent xtail 1) None.
Definition xd : RawPage := [N.pos (encode (flat xrec))].
Definition xidx : gmap LSN Address := index_append_record ∅ (discard_recent xtail 1) pg.
Definition xj2 : CachedJournal.State := CachedJournal.mkState 0 (Some pg) (Abs_Model.discard_old xtail 1) xidx.
Definition xj3 : CachedJournal.State :=
  CachedJournal.mkState 0 (Some pg) (mh_concat (Abs_Model.discard_old xtail 1) jm1) xidx.
Definition xsnap0 : JournalSnapShot := mkSnap 0 None.
Definition xsnap : JournalSnapShot := mkSnap 0 (Some pg).
Lemma xidx_values lo hi : lo = 0 → hi = 1 → values (index_range xidx lo hi) = {[pg]}.
Proof. intros -> ->. dec. Qed.
Lemma xrec_back : @raw_page_to_record num_codec xd = xrec.
Proof. apply (num_codec_ok xrec). cbn. lia. Qed.

Section run.
  Context (we : bool).
  Notation jnext := (@JournalSys.next geo num_codec true true we).
  Notation st := JournalSys.mkState.
  Lemma x_internal n j s s' : @CacheSys.next geo true n s s' CacheSys.Internal → jnext (st j s) (st j s') JournalSys.Internal.
  Proof.
    intros [Hn|[Hn|[Hn|[Hn|[Hn|Hn]]]]].
    - by destruct Hn as (?&?&?&?&_).
    - by destruct Hn as (?&?&_).
    - do 6 right. left. split; [done|]. eexists. split; [exact Hn|done].
    - do 7 right. left. split; [done|]. eexists. split; [exact Hn|done].
    - do 8 right. split; [done|]. eexists. split; [exact Hn|done].
    - by destruct Hn as (?&_).
  Qed.
  Lemma x_access n s s' r w : @CacheSys.next geo true n s s' (CacheSys.Access r w) →
    CacheSys.access true s s' (CacheSys.Access r w).
  Proof.
    intros [Hn|[Hn|[Hn|[Hn|[Hn|Hn]]]]]; [done|..]; try (by destruct Hn as (?&_)). by destruct Hn as (?&?&_).
  Qed.
  Lemma x_check n s X : @CacheSys.next geo true n s s (CacheSys.EvictableCheck X) →
    CacheSys.evictable_check true s s (CacheSys.EvictableCheck X).
  Proof.
    intros [Hn|[Hn|[Hn|[Hn|[Hn|Hn]]]]]; try done; try (by destruct Hn as (?&_)). by destruct Hn as (?&?&?&?&_).
  Qed.
  Lemma x_init : ∃ s, CacheSys.init 2%nat s ∅ ∧ V pg 0 s Empty NotFilled ∅ ∅ ∅ ∅ ∧
    JournalSys.initialize num_codec true (st xj0 s) s xsnap0 ∅.
  Proof.
    destruct (fresh_cache 2%nat) as [c Hc]. exists (CacheSys.mkState c (AsyncDisk.mkState ∅ ∅ ∅)). split; [done|]. split.
    { destruct Hc as (E & S & L & O). unfold V; cbn [CacheSys.cache CacheSys.disk].
      rewrite E, S, !decide_True by (unfold slot_max; vm_compute; intuition discriminate). done. }
    split; [done|]. split; [|split; [|split; [|split; [|split]]]].
    - exists ∅, ∅, c. split; [done|]. split; [|done]. do 3 right. left. exists ∅, ∅. split; [done|].
      split; [intros ? ? Hx; by rewrite lookup_empty in Hx|]. split; [intros ? ? Hx; by rewrite lookup_empty in Hx|].
      cbv zeta. assert (Hws : map_values (restrict (Cache.lookup_map c) (dom (∅ : gmap Address RawPage))) = ∅).
      { apply set_eq. intros x. rewrite elem_of_map_values. split; [|set_solver]. intros [y Hy].
        apply lookup_restrict in Hy as [_ Hy]. set_solver. }
      cbn [CacheSys.cache]. rewrite Hws, gset_to_gmap_empty, (left_id_L ∅ (∪)).
      assert (Hm : map_imap (Cache.written ∅ ∅) (Cache.entries c) = ∅).
      { apply map_eq. intros x. rewrite map_lookup_imap, lookup_empty.
        destruct (Cache.entries c !! x); [|done]. cbn. unfold Cache.written. by rewrite decide_False by set_solver. }
      rewrite Hm, (left_id_L ∅ (∪)). by destruct c.
    - exists 0. split; [done|]. reflexivity.
    - intros a k Hk. destruct Hc as (_ & _ & L & _). cbn in Hk. by rewrite L, lookup_empty in Hk.
    - unfold JournalSys.tj_from_reads_and_snapshot, JournalSys.to_journal_reads. rewrite fmap_empty. split.
      + split; [|by split]. split_and!; intros ? ? Hx; cbn [entries disk_view] in Hx; by rewrite lookup_empty in Hx.
      + exists ∅. split; [cbn [disk_view entries]; set_solver|]. intros ? ? ? Hx. cbn [entries disk_view] in Hx. by rewrite lookup_empty in Hx.
    - set_solver.
    - dec.
  Qed.
  Lemma x_put s : jnext (st xj0 s) (st xj1 s) (JournalSys.Put jm0).
  Proof.
    do 3 right. left. exists jm0, xj1. split; [done|]. split; [|done]. do 3 right. left. exists jm0. split; [done|].
    split; [apply singleton_wf|]. done.
  Qed.
  Lemma x_put1 s : jnext (st xj2 s) (st xj3 s) (JournalSys.Put jm1).
  Proof.
    do 3 right. left. exists jm1, xj3. split; [done|]. split; [|done]. do 3 right. left. exists jm1. split; [done|].
    split; [apply singleton_wf|]. done.
  Qed.
  Lemma x_marshal n s s' : @CacheSys.next geo true n s s' (CacheSys.Access ∅ {[pg := xd]}) →
    jnext (st xj1 s) (st xj2 s') JournalSys.Internal.
  Proof.
    intros Ha%x_access. do 5 right. left. split; [done|]. exists xj2, s', pg, xrec. split; [cbn; lia|]. split; [|split; [|done]].
    - do 5 right. exists 1, pg. eexists. split; [reflexivity|]. split; [dec|]. split; [vm_compute; lia|].
      split; [split; vm_compute; lia|]. split; reflexivity.
    - unfold JournalSys.to_cache_writes. rewrite map_fmap_singleton. exact Ha.
  Qed.
  Lemma x_freeze n s : @CacheSys.next geo true n s s (CacheSys.Access {[pg := xd]} ∅) →
    @CacheSys.next geo true n s s (CacheSys.EvictableCheck {[pg]}) →
    jnext (st xj2 s) (st xj2 s) (JournalSys.FreezeForCommit xsnap).
  Proof.
    intros Ha%x_access Hc%x_check. right. left. exists xsnap, {[pg]}, {[pg := xd]}. split; [done|]. split; [done|].
    split; [done|]. split; [|done]. right. left. exists 0. do 3 eexists. split; [reflexivity|].
    cbv zeta. cbn [JournalSys.journal CachedJournal.pointer_after_crop_index CachedJournal.freshest_rec xj2 CachedJournal.frozen_seq_end].
    unfold JournalSys.to_journal_reads. rewrite map_fmap_singleton, lookup_singleton, xrec_back.
    split; [cbn; lia|]. split; [done|]. split; [done|]. split.
    { intros a [= <-]. rewrite lookup_singleton. by eexists. }
    split; [cbn; lia|]. split; [intros _; cbn; lia|]. split; [|done]. symmetry. by apply xidx_values.
  Qed.

  (** The run up to the freeze, and one more put after it. *)
  Lemma x_run : ∃ s0 ls s, CacheSys.init 2%nat s0 ∅ ∧ JournalSys.initialize num_codec true (st xj0 s0) s0 xsnap0 ∅ ∧
    run jnext (st xj0 s0) ls (st xj2 s) ∧ jnext (st xj2 s) (st xj2 s) (JournalSys.FreezeForCommit xsnap) ∧
    run jnext (st xj2 s) [JournalSys.Put jm1] (st xj3 s) ∧ AsyncDisk.content (CacheSys.disk s) = {[pg := xd]} ∧
    ∃ out q r c, V pg 0 s (Filled pg xd) Clean out q r c.
  Proof.
    destruct x_init as (s0 & Hi & W0 & Hj). assert (Hg := pg_wf).
    destruct (@v_reserve geo true 2%nat _ _ _ _ _ _ _ _ W0) as (s1 & N1 & W1).
    destruct (@v_write geo true 2%nat _ _ _ _ _ _ _ _ _ xd W1 eq_refl (or_introl eq_refl)) as (s2 & N2 & W2).
    destruct (@v_writeback geo true 2%nat _ _ _ _ _ _ _ _ {[1%N := WriteReq pg xd]} W2)
      as (s3 & N3 & W3).
    { apply map_non_empty_singleton. }
    { intros id x. rewrite lookup_singleton_Some. naive_solver. }
    { intros _ i1 i2 v. rewrite !lookup_singleton_Some. naive_solver. }
    1-3: set_solver.
    rewrite map_fmap_singleton, !(right_id_L ∅ (∪)) in W3.
    destruct (@v_disk_write geo true 2%nat _ _ _ _ _ _ _ _ _ 1%N xd W3 Hg (lookup_singleton _ _)) as (s4 & N4 & W4).
    destruct (@v_complete geo true 2%nat _ _ _ _ _ _ _ _ 1%N W4 (lookup_singleton _ _) (lookup_insert _ _ _)) as (s5 & N5 & W5).
    assert (N6 := @v_check geo true 2%nat _ _ _ _ _ _ _ _ W5).
    assert (N7 := @v_read geo true 2%nat _ _ _ _ _ _ _ _ _ W5).
    exists s0. eexists. exists s5. split; [done|]. split; [done|]. split.
    { eapply run_cons; [exact (x_put _)|]. eapply run_cons; [exact (x_internal _ _ _ _ N1)|].
      eapply run_cons; [exact (x_marshal _ _ _ N2)|]. eapply run_cons; [exact (x_internal _ _ _ _ N3)|].
      eapply run_cons; [exact (x_internal _ _ _ _ N4)|]. eapply run_cons; [exact (x_internal _ _ _ _ N5)|]. constructor. }
    split; [exact (x_freeze _ _ N7 N6)|]. split; [apply run_one, x_put1|].
    split; [destruct W5 as (_&_&_&_&->); reflexivity|]. eauto.
  Qed.

  (** After the crash the page is loaded, and the journal starts from it. *)
  Lemma x_reload : ∃ rs0 rs, CacheSys.init 2%nat rs0 {[pg := xd]} ∧
    run (@CacheSys.next geo true 2%nat) rs0 [CacheSys.Internal; CacheSys.Internal; CacheSys.Internal] rs ∧
    loaded (CacheSys.cache rs) {[pg]}.
  Proof.
    destruct (fresh_cache 2%nat) as [c Hc].
    set (rs0 := CacheSys.mkState c (AsyncDisk.mkState ∅ ∅ {[pg := xd]})).
    assert (V pg 0 rs0 Empty NotFilled ∅ ∅ ∅ {[pg := xd]}) as W0.
    { destruct Hc as (E & S & L & O). unfold V, rs0; cbn [CacheSys.cache CacheSys.disk].
      rewrite E, S, !decide_True by (unfold slot_max; vm_compute; intuition discriminate). done. }
    destruct (@v_load geo true 2%nat _ _ _ _ _ _ _ _ 4%N W0 eq_refl eq_refl eq_refl) as (s1 & N1 & W1).
    destruct (@v_disk_read geo true 2%nat _ _ _ _ _ _ _ _ _ 4%N xd W1 pg_wf (lookup_insert _ _ _)) as (s2 & N2 & W2).
    { intros d'. rewrite lookup_singleton. congruence. }
    destruct (@v_loaded geo true 2%nat _ _ _ _ xd _ _ _ _ 4%N W2 (lookup_insert _ _ _) (lookup_insert _ _ _)) as (s3 & N3 & W3).
    exists rs0, s3. split; [done|]. split; [exact (run1 N1 (run1 N2 (run1 N3 run0)))|].
    intros a ->%elem_of_singleton. destruct W3 as (W3 & _). by exists 0%Z, xd.
  Qed.
  Lemma x_reload_calm : reads_only [CacheSys.Internal; CacheSys.Internal; CacheSys.Internal].
  Proof. intros l. rewrite !elem_of_cons, elem_of_nil. by intros [->|[->|[->|[]]]]. Qed.
  Lemma x_visits X : visits num_codec (λ a d, ({[pg := xd]} : gmap Address RawPage) !! a = Some d) xsnap X → X ⊆ {[pg]}.
  Proof.
    intros (E&HE&HX) a Ha%HX. assert (is_Some (E !! a)) as [r Hr].
    { clear -Ha. set (dv := mkDV _ E) in *. change E with (entries dv). induction Ha; done. }
    apply HE in Hr as (d&Hd&_). apply lookup_singleton_Some in Hd as [<- _]. set_solver.
  Qed.
  Lemma x_below : truncates_below 0 [JournalSys.Put jm1].
  Proof. intros x y. by rewrite elem_of_list_singleton. Qed.
End run.

Lemma x_all : ∃ s0 ls s rs0 rtr rs reads sr,
  CacheSys.init 2%nat s0 ∅ ∧ JournalSys.initialize num_codec true (JournalSys.mkState xj0 s0) s0 xsnap0 ∅ ∧
  run (@JournalSys.next geo num_codec true true true) (JournalSys.mkState xj0 s0) ls (JournalSys.mkState xj2 s) ∧
  @JournalSys.next geo num_codec true true true (JournalSys.mkState xj2 s) (JournalSys.mkState xj2 s)
    (JournalSys.FreezeForCommit xsnap) ∧
  run (@JournalSys.next geo num_codec true true true) (JournalSys.mkState xj2 s) [JournalSys.Put jm1]
    (JournalSys.mkState xj3 s) ∧
  truncates_below 0 [JournalSys.Put jm1] ∧
  CacheSys.init 2%nat rs0 (AsyncDisk.content (CacheSys.disk s)) ∧ run (@CacheSys.next geo true 2%nat) rs0 rtr rs ∧
  reads_only rtr ∧ JournalSys.initialize num_codec true sr rs xsnap reads.
Proof.
  destruct (x_run true) as (s0&ls&s&Hi&Hj&Hr&Hf&Hp&Hc&_). destruct x_reload as (rs0&rs&Hi2&Hr2&Hl).
  destruct (@sys_restart_possible geo num_codec true true num_codec_ok (or_introl eq_refl) 2 ∅ s0 s0 [] Hi (run_nil _ _)
    _ _ _ Hj _ _ _ _ _ _ Hr Hf Hp x_below) as (X&HX&Hres).
  cbn [JournalSys.store] in HX, Hres. unfold page_saved in HX. rewrite Hc in HX, Hres.
  destruct (Hres 2 rs0 _ rs Hi2 Hr2 x_reload_calm) as (reads&sr&Hsr).
  { intros a Ha%(x_visits _ HX). by apply Hl. }
  exists s0, ls, s, rs0. eexists _, rs, reads, sr. rewrite Hc. do 6 (split; [done||apply x_below|]).
  split; [done|]. split; [exact Hr2|]. split; [apply x_reload_calm|done].
Qed.

(** ** The two defects *)
(** As written, a put stores nothing: only the empty put is accepted. *)
Lemma put_stores_nothing `{Geometry} C strict we s s' m :
  JournalSys.next C strict false we s s' (JournalSys.Put m) → seq_start m = seq_end m ∧ s' = s.
Proof.
  intros Hn. destruct Hn as [Hn|[Hn|[Hn|[Hn|[Hn|[Hn|[Hn|[Hn|Hn]]]]]]]].
  - by destruct Hn as (?&?&?&_).
  - by destruct Hn as (?&?&?&?&_).
  - by destruct Hn as (?&?&_).
  - destruct Hn as (m'&j'&[= <-]&Hj&Hnj&->). rewrite (Hnj eq_refl) in Hj |- *. split; [|by destruct s].
  destruct Hj as [[? Hj]|[[? Hj]|[Hj|[Hj|[Hj|(?&?&Hj)]]]]].
    + by destruct Hj as (?&?&?&_).
    + by destruct Hj as (?&?&?&?&_).
    + by destruct Hj as (?&_).
    + destruct Hj as (m'&[= <-]&_&Hs&Hp). unfold CachedJournal.seq_end in Hs.
      apply (f_equal CachedJournal.unmarshalled_tail), (f_equal seq_end) in Hp. cbn in Hp. congruence.
    + by destruct Hj as (?&?&?&?&_).
    + by destruct Hj as (?&?&_).
  - by destruct Hn as (?&?&?&?&?&_).
  - by destruct Hn as (?&_).
  - by destruct Hn as (?&_).
  - by destruct Hn as (?&_).
  - by destruct Hn as (?&_).
Qed.

(** With the end of the marshalled part for the end of the log, a truncation is
    accepted that the log does not accept. *)
Lemma x_discard s : @JournalSys.next geo num_codec true true false (JournalSys.mkState xj1 s) (JournalSys.mkState xj1 s)
  (JournalSys.DiscardOld 0 0).
Proof.
  do 4 right. left. exists 0, 0, xj1, ∅. split; [done|]. split; [|split; [|done]].
  - do 4 right. left. exists 0, 0, ∅. split; [done|]. split; [done|]. split; [vm_compute; lia|]. split; [dec|]. reflexivity.
  - exists ∅. split; [done|]. split; [|by destruct s]. do 7 right. left. exists ∅. split; [done|]. split; [|done].
    intros a k Ha. set_solver.
Qed.
Lemma x_no_log pages h0 a0 al1 al2 a : snapshot_holds num_codec pages xsnap0 h0 → AbstractJournal.initialize a0 h0 →
  run AbstractJournal.next a0 [al1; al2] a → al1 = AbstractJournal.PutLabel jm0 →
  al2 = AbstractJournal.DiscardOldLabel 0 0 → False.
Proof.
  intros (_&E&_&Hs&He&_) [_ ->] Hr -> ->. cbn in Hs, He.
  change ([AbstractJournal.PutLabel jm0; AbstractJournal.DiscardOldLabel 0 0])
    with ([AbstractJournal.PutLabel jm0] ++ [AbstractJournal.DiscardOldLabel 0 0]) in Hr.
  apply run_snoc_inv in Hr as (a1&Hr&Hn2). apply (run_snoc_inv _ _ []) in Hr as (a2&Hr&Hn1). apply run_nil_inv in Hr; subst a2.
  destruct Hn1 as [Hn1|[Hn1|[Hn1|[Hn1|[Hn1|Hn1]]]]].
  all: try (by destruct Hn1 as (_&?&?&_)); try (by destruct Hn1 as (_&?&?&?&_)); try (by destruct Hn1 as (_&?&_)).
  destruct Hn1 as (_&m&[= <-]&_&->).
  destruct Hn2 as [Hn2|[Hn2|[Hn2|[Hn2|[Hn2|Hn2]]]]].
  all: try (by destruct Hn2 as (_&?&?&_)); try (by destruct Hn2 as (_&?&_)).
  destruct Hn2 as (_&x&y&[= <- <-]&Hend&_). cbn in Hend. done.
Qed.

(** ** Finitely many pages *)
Lemma finite_pages (C : PageCodec) (pages : list RawPage) :
  (∀ r, record_to_raw_page r ∈ pages) → (∀ r, record_fits r) → ¬ codec_round_trip C.
Proof.
  intros Hp Hf Hrt. set (f i := record_to_raw_page (mkRec (empty_history_at i) None)).
  assert (Hinj : ∀ i i', f i = f i' → i = i').
  { intros i i' E. apply (f_equal raw_page_to_record) in E. unfold f in E. rewrite !Hrt in E by apply Hf. by injection E. }
  assert (f <$> seq 0 (S (length pages)) ⊆+ pages) as Hs%submseteq_length.
  { apply NoDup_submseteq; [apply NoDup_fmap_2; [exact Hinj|apply NoDup_seq]|].
    intros d (i & -> & _)%elem_of_list_fmap. apply Hp. }
  rewrite fmap_length, seq_length in Hs. lia.
Qed.
Definition const_codec : PageCodec := {|
  record_to_raw_page _ := []; raw_page_to_record _ := mkRec (empty_history_at 0) None; record_fits _ := True |}.
