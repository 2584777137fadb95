(** Proofs about the page cache over the disk (C26). *)
From Verif Require Import Spec_Model Spec_Proof Disk_Model AsyncDisk_Proof Cache_Model Cache_Spec.
Open Scope nat_scope.

(** ** Map operations *)
Lemma lookup_restrict `{Countable K} {V} (m : gmap K V) X k v :
  restrict m X !! k = Some v ↔ m !! k = Some v ∧ k ∈ X.
Proof. unfold restrict. by rewrite map_filter_lookup_Some. Qed.
Lemma lookup_remove_keys `{Countable K} {V} (m : gmap K V) X k v :
  remove_keys m X !! k = Some v ↔ m !! k = Some v ∧ k ∉ X.
Proof. unfold remove_keys. by rewrite map_filter_lookup_Some. Qed.
Lemma elem_of_map_values `{Countable K} `{Countable V} (m : gmap K V) v :
  v ∈ map_values m ↔ ∃ k, m !! k = Some v.
Proof.
  unfold map_values. rewrite elem_of_list_to_set, elem_of_list_fmap. split.
  - intros ([k v'] & -> & Hk). exists k. by apply elem_of_map_to_list.
  - intros [k Hk]. exists (k, v). split; [done|]. by apply elem_of_map_to_list.
Qed.
Lemma inverts_iff `{Countable K} `{Countable V} (m : gmap K V) inv : inverts m inv → injective m →
  ∀ k v, m !! k = Some v ↔ inv !! v = Some k.
Proof.
  intros [H1 H2] Hi k v. split; [|apply H2].
  intros Hk. destruct (H1 _ _ Hk) as [k' Hk']. rewrite Hk'. f_equal. exact (Hi _ _ _ (H2 _ _ Hk') Hk).
Qed.
Lemma lookup_gset_union {V} (v : V) (X : gset Slot) (m : gmap Slot V) s :
  (gset_to_gmap v X ∪ m) !! s = if decide (s ∈ X) then Some v else m !! s.
Proof.
  destruct (decide (s ∈ X)).
  - apply lookup_union_Some_l, lookup_gset_to_gmap_Some. done.
  - rewrite lookup_union_r; [done|]. by apply lookup_gset_to_gmap_None.
Qed.
Lemma lookup_union_case `{Countable K} {V} (m n : gmap K V) k v :
  (m ∪ n) !! k = Some v ↔ m !! k = Some v ∨ m !! k = None ∧ n !! k = Some v.
Proof. by rewrite lookup_union_Some_raw. Qed.

(** ** The invariant, with the logical content [sg] of the pages as a ghost *)
Definition is_dirty (c : Cache.State) (a : Address) : Prop :=
  ∃ s d, Cache.entries c !! s = Some (Filled a d) ∧
    (Cache.status_map c !! s = Some Dirty ∨ Cache.status_map c !! s = Some Writeback).

Record wfc (c : Cache.State) : Prop := {
  w_lookup : ∀ a s, Cache.lookup_map c !! a = Some s ↔ slot_for c s a;
  w_status : ∀ s e, Cache.entries c !! s = Some e →
    ∃ st, Cache.status_map c !! s = Some st ∧ (st = NotFilled ↔ ¬ ∃ a d, e = Filled a d);
  w_dom : ∀ s st, Cache.status_map c !! s = Some st → is_Some (Cache.entries c !! s);
  w_inj : injective (Cache.outstanding_reqs c);
}.
Record cinv (s : CacheSys.State) (sg : Address → option RawPage) : Prop := {
  i_wf : wfc (CacheSys.cache s);
  i_req : ∀ id q, AsyncDisk.requests (CacheSys.disk s) !! id = Some q →
    ∃ k, Cache.outstanding_reqs (CacheSys.cache s) !! id = Some k ∧
      match q with
      | ReadReq a => Cache.entries (CacheSys.cache s) !! k = Some (Loading a)
      | WriteReq a d => Cache.entries (CacheSys.cache s) !! k = Some (Filled a d) ∧
          Cache.status_map (CacheSys.cache s) !! k = Some Writeback
      end;
  i_resp : ∀ id r, AsyncDisk.responses (CacheSys.disk s) !! id = Some r →
    ∃ k, Cache.outstanding_reqs (CacheSys.cache s) !! id = Some k ∧
      match r with
      | ReadResp d => ∃ a, Cache.entries (CacheSys.cache s) !! k = Some (Loading a) ∧
          (∀ d', sg a = Some d' → d = d')
      | WriteResp => ∃ a d, Cache.entries (CacheSys.cache s) !! k = Some (Filled a d) ∧
          Cache.status_map (CacheSys.cache s) !! k = Some Writeback ∧
          AsyncDisk.content (CacheSys.disk s) !! a = Some d
      end;
  i_out : ∀ id k, Cache.outstanding_reqs (CacheSys.cache s) !! id = Some k →
    is_Some (AsyncDisk.requests (CacheSys.disk s) !! id) ∨ is_Some (AsyncDisk.responses (CacheSys.disk s) !! id);
  i_once : ∀ id q r, AsyncDisk.requests (CacheSys.disk s) !! id = Some q →
    AsyncDisk.responses (CacheSys.disk s) !! id = Some r → False;
  i_dirty : ∀ k a d, Cache.entries (CacheSys.cache s) !! k = Some (Filled a d) →
    Cache.status_map (CacheSys.cache s) !! k ≠ Some Clean → sg a = Some d;
  i_clean : ∀ k a d, Cache.entries (CacheSys.cache s) !! k = Some (Filled a d) →
    Cache.status_map (CacheSys.cache s) !! k = Some Clean → ∀ d', sg a = Some d' → d = d';
  i_disk : ∀ a, ¬ is_dirty (CacheSys.cache s) a → AsyncDisk.content (CacheSys.disk s) !! a = sg a;
  i_busy : ∀ k e, Cache.entries (CacheSys.cache s) !! k = Some e →
    (∃ a, e = Loading a) ∨ Cache.status_map (CacheSys.cache s) !! k = Some Writeback →
    ∃ id, Cache.outstanding_reqs (CacheSys.cache s) !! id = Some k;
}.

Lemma slot_unique c s1 s2 a : wfc c → slot_for c s1 a → slot_for c s2 a → s1 = s2.
Proof. intros W H1%(w_lookup _ W) H2%(w_lookup _ W). congruence. Qed.
Lemma slot_for_filled c s a d : Cache.entries c !! s = Some (Filled a d) → slot_for c s a.
Proof. intros H. by exists (Filled a d). Qed.
Lemma slot_for_loading c s a : Cache.entries c !! s = Some (Loading a) → slot_for c s a.
Proof. intros H. by exists (Loading a). Qed.
Lemma filled_status c s a d : wfc c → Cache.entries c !! s = Some (Filled a d) →
  ∃ st, Cache.status_map c !! s = Some st ∧ st ≠ NotFilled.
Proof.
  intros W He. destruct (w_status _ W _ _ He) as (st & Hs & Hiff). exists st. split; [done|].
  intros ->. apply Hiff; [done|]. eauto.
Qed.
Lemma status_filled c s st : wfc c → Cache.status_map c !! s = Some st → st ≠ NotFilled →
  ∃ a d, Cache.entries c !! s = Some (Filled a d).
Proof.
  intros W Hs Hn. destruct (w_dom _ W _ _ Hs) as [e He].
  destruct (w_status _ W _ _ He) as (st' & Hs' & Hiff). assert (st' = st) as -> by congruence.
  destruct e as [|a|a|a d]; [| | |eauto]; exfalso; apply Hn, Hiff; intros (? & ? & ?); done.
Qed.
Lemma not_filled_status c s e : wfc c → Cache.entries c !! s = Some e → (∀ a d, e ≠ Filled a d) →
  Cache.status_map c !! s = Some NotFilled.
Proof.
  intros W He Hn. destruct (w_status _ W _ _ He) as (st & Hs & Hiff).
  assert (st = NotFilled) as -> by (apply Hiff; intros (a & d & ->); by eapply Hn). done.
Qed.

(** ** Pointwise effect of the transitions *)
Lemma new_slots_wf c (C : Address → Entry) mapping inv out :
  wfc c → Cache.valid_new_slots_mapping c mapping → inverts mapping inv →
  (∀ a, get_addr (C a) = Some a) → (∀ a b d, C a ≠ Filled b d) → injective out →
  wfc (Cache.mkState ((C <$> mapping) ∪ Cache.entries c) (Cache.status_map c) (inv ∪ Cache.lookup_map c) out).
Proof.
  intros W (Hi & Hfree & Hempty) Hinv HC HCf Hout.
  assert (HI := inverts_iff _ _ Hinv Hi).
  constructor; cbn.
  - intros a s. rewrite lookup_union_case. unfold slot_for; cbn. split.
    + intros [Ha|[Hn Ha]].
      * apply HI in Ha. exists (C a). split; [|done]. apply lookup_union_Some_l. by rewrite lookup_fmap, Ha.
      * apply (w_lookup _ W) in Ha as (e & He & Ha). exists e. split; [|done].
        rewrite lookup_union_case. right. split; [|done]. rewrite lookup_fmap.
        destruct (mapping !! s) eqn:Hm; [|done]. rewrite (Hempty _ _ Hm) in He. by simplify_eq.
    + intros (e & He & Ha). rewrite lookup_union_case in He. rewrite lookup_fmap in He.
      destruct He as [He|[Hn He]].
      * destruct (mapping !! s) as [a'|] eqn:Hm; [|done]. cbn in He. simplify_eq. rewrite HC in Ha. simplify_eq.
        left. by apply HI.
      * assert (Hl : Cache.lookup_map c !! a = Some s) by (apply (w_lookup _ W); by exists e).
        right. split; [|done]. destruct (inv !! a) eqn:Ha'; [|done]. apply HI in Ha'.
        rewrite (Hfree _ _ Ha') in Hl. done.
  - intros s e He. rewrite lookup_union_case, lookup_fmap in He. destruct He as [He|[Hn He]].
    + destruct (mapping !! s) as [a'|] eqn:Hm; [|done]. cbn in He. simplify_eq.
      exists NotFilled. split.
      * apply (not_filled_status _ _ _ W (Hempty _ _ Hm)). by intros.
      * split; [|done]. intros _ (a & d & H). by eapply HCf.
    + exact (w_status _ W _ _ He).
  - intros s st Hs. destruct (w_dom _ W _ _ Hs) as [e He].
    apply lookup_union_is_Some. right. by exists e.
  - done.
Qed.

(** The slots a new mapping leaves alone. *)
Lemma new_slots_old c (C : Address → Entry) mapping s e :
  Cache.valid_new_slots_mapping c mapping → Cache.entries c !! s = Some e → e ≠ Empty →
  ((C <$> mapping) ∪ Cache.entries c) !! s = Some e.
Proof.
  intros (_ & _ & Hempty) He Hn. rewrite lookup_union_case, lookup_fmap. right. split; [|done].
  destruct (mapping !! s) eqn:Hm; [|done]. rewrite (Hempty _ _ Hm) in He. congruence.
Qed.
Lemma new_slots_filled c (C : Address → Entry) mapping s a d :
  (∀ a b d, C a ≠ Filled b d) →
  ((C <$> mapping) ∪ Cache.entries c) !! s = Some (Filled a d) → Cache.entries c !! s = Some (Filled a d).
Proof.
  intros HC. rewrite lookup_union_case, lookup_fmap. intros [H|[_ H]]; [|done].
  destruct (mapping !! s); [|done]. cbn in H. injection H as H. by apply HC in H.
Qed.

Lemma step_reserve s sg c' l mapping : cinv s sg → Cache.reserve (CacheSys.cache s) c' l mapping →
  cinv (CacheSys.mkState c' (CacheSys.disk s)) sg.
Proof.
  intros I (-> & Hv & inv & Hinv & ->). assert (W := i_wf _ _ I).
  assert (HC : ∀ a b d, Reserved a ≠ Filled b d) by done.
  constructor; cbn.
  - by apply new_slots_wf; [..|apply (w_inj _ W)].
  - intros id q Hq. destruct (i_req _ _ I _ _ Hq) as (k & Hk & Hm). exists k. split; [done|].
    destruct q as [a|a d]; [|destruct Hm as [Hm Hs]; split; [|done]]; by apply new_slots_old.
  - intros id r Hr. destruct (i_resp _ _ I _ _ Hr) as (k & Hk & Hm). exists k. split; [done|].
    destruct r as [d|].
    + destruct Hm as (a & Hm & Hd). exists a. split; [|done]. by apply new_slots_old.
    + destruct Hm as (a & d & Hm & Hd). exists a, d. split; [|done]. by apply new_slots_old.
  - exact (i_out _ _ I).
  - exact (i_once _ _ I).
  - intros k a d He%new_slots_filled; [|done]. exact (i_dirty _ _ I _ _ _ He).
  - intros k a d He%new_slots_filled; [|done]. exact (i_clean _ _ I _ _ _ He).
  - intros a Hd. apply (i_disk _ _ I). intros (k & d & He & Hs). apply Hd. exists k, d. split; [|done].
    by apply new_slots_old.
  - intros k e He Hb. rewrite lookup_union_case, lookup_fmap in He. destruct He as [He|[_ He]].
    + destruct (mapping !! k) as [a|] eqn:Hm; [|done]. cbn in He. simplify_eq.
      destruct Hb as [[? Hb]|Hb]; [done|].
      rewrite (not_filled_status _ _ _ W (proj2 (proj2 Hv) _ _ Hm)) in Hb; [done|by intros].
    + exact (i_busy _ _ I _ _ He Hb).
Qed.

Lemma disk_ops_pure d d' reqs resps `{Geometry} : AsyncDisk.next d d' (AsyncDisk.DiskOps reqs resps) →
  dom reqs ## dom (AsyncDisk.requests d) ∧ dom reqs ## dom (AsyncDisk.responses d) ∧
  resps ⊆ AsyncDisk.responses d ∧
  d' = AsyncDisk.mkState (reqs ∪ AsyncDisk.requests d) (AsyncDisk.responses d ∖ resps) (AsyncDisk.content d).
Proof.
  intros [Hd|[[id Hd]|[[id Hd]|Hd]]].
  - destruct Hd as (r1 & r2 & [= <- <-] & ?). done.
  - by destruct Hd as [? _].
  - by destruct Hd as [? _].
  - by destruct Hd as [? _].
Qed.

Lemma step_load_initiate `{Geometry} s sg c' d' reqs mapping resps : cinv s sg →
  Cache.load_initiate (CacheSys.cache s) c' (Cache.DiskOps reqs resps) mapping →
  AsyncDisk.next (CacheSys.disk s) d' (AsyncDisk.DiskOps reqs resps) →
  cinv (CacheSys.mkState c' d') sg.
Proof.
  intros I (reqs' & [= <- ->] & Hne & Hv & Hinj & Hdisj & Hreq & inv & Hinv & ->) Hd.
  apply disk_ops_pure in Hd as (D1 & D2 & _ & ->). rewrite map_difference_empty.
  assert (W := i_wf _ _ I). assert (HI := inverts_iff _ _ Hinv (proj1 Hv)).
  assert (HC : ∀ a b d, Loading a ≠ Filled b d) by done.
  set (upd := omap (λ r, inv !! req_addr r) reqs).
  assert (Hupd : ∀ id k, upd !! id = Some k ↔ ∃ a, reqs !! id = Some (ReadReq a) ∧ mapping !! k = Some a).
  { intros id k. unfold upd. rewrite lookup_omap_Some. split.
    - intros (r & Hk & Hr). destruct (proj1 Hreq _ _ Hr) as [a ->]. cbn in Hk.
      exists a. split; [done|]. by apply HI.
    - intros (a & Hr & Hm). exists (ReadReq a). split; [|done]. cbn. by apply HI. }
  assert (Hold : ∀ id k, Cache.outstanding_reqs (CacheSys.cache s) !! id = Some k → upd !! id = None).
  { intros id k Hk. destruct (upd !! id) eqn:Hu; [|done]. apply Hupd in Hu as (a & Hr & _).
    exfalso. apply (Hdisj id); apply elem_of_dom; [by eexists|by exists k]. }
  assert (Hslot : ∀ id k, Cache.outstanding_reqs (CacheSys.cache s) !! id = Some k →
    mapping !! k = None).
  { intros id k Hk. destruct (mapping !! k) eqn:Hm; [|done].
    assert (He := proj2 (proj2 Hv) _ _ Hm).
    destruct (i_out _ _ I _ _ Hk) as [[q Hq]|[r Hr]].
    - destruct (i_req _ _ I _ _ Hq) as (k' & Hk' & Hm'). assert (k' = k) as -> by congruence.
      destruct q; [|destruct Hm']; congruence.
    - destruct (i_resp _ _ I _ _ Hr) as (k' & Hk' & Hm'). assert (k' = k) as -> by congruence.
      destruct r; [destruct Hm' as (? & ? & _)|destruct Hm' as (? & ? & ? & _)]; congruence. }
  constructor; cbn.
  - apply new_slots_wf; [done..|].
    intros id1 id2 k H1 H2. rewrite lookup_union_case in H1, H2. rewrite !Hupd in H1, H2.
    destruct H1 as [(a1 & H1 & M1)|[N1 H1]], H2 as [(a2 & H2 & M2)|[N2 H2]].
    + assert (a1 = a2) as -> by congruence. exact (Hinj _ _ _ H1 H2).
    + rewrite (Hslot _ _ H2) in M1. done.
    + rewrite (Hslot _ _ H1) in M2. done.
    + exact (w_inj _ W _ _ _ H1 H2).
  - intros id q Hq. rewrite lookup_union_case in Hq. destruct Hq as [Hq|[Hn Hq]].
    + destruct (proj1 Hreq _ _ Hq) as [a ->]. destruct (proj1 (proj2 Hreq a)) as [k Hk]; [by eexists|].
      exists k. split.
      * apply lookup_union_Some_l, Hupd. eauto.
      * apply lookup_union_Some_l. by rewrite lookup_fmap, Hk.
    + destruct (i_req _ _ I _ _ Hq) as (k & Hk & Hm). exists k. split.
      * rewrite lookup_union_case. right. split; [by eapply Hold|done].
      * destruct q as [a|a d]; [|destruct Hm as [Hm Hs]; split; [|done]]; by apply new_slots_old.
  - intros id r Hr. destruct (i_resp _ _ I _ _ Hr) as (k & Hk & Hm). exists k. split.
    { rewrite lookup_union_case. right. split; [by eapply Hold|done]. }
    destruct r as [d|].
    + destruct Hm as (a & Hm & Hd). exists a. split; [|done]. by apply new_slots_old.
    + destruct Hm as (a & d & Hm & Hd). exists a, d. split; [|done]. by apply new_slots_old.
  - intros id k Hk. rewrite lookup_union_case in Hk. destruct Hk as [Hk|[_ Hk]].
    + apply Hupd in Hk as (a & Hr & _). left. apply lookup_union_is_Some. left. by eexists.
    + destruct (i_out _ _ I _ _ Hk) as [Hq|Hr]; [|by right]. left. apply lookup_union_is_Some. by right.
  - intros id q r Hq Hr. rewrite lookup_union_case in Hq. destruct Hq as [Hq|[_ Hq]].
    + apply (D2 id); apply elem_of_dom; by eexists.
    + exact (i_once _ _ I _ _ _ Hq Hr).
  - intros k a d He%new_slots_filled; [|done]. exact (i_dirty _ _ I _ _ _ He).
  - intros k a d He%new_slots_filled; [|done]. exact (i_clean _ _ I _ _ _ He).
  - intros a Hd. apply (i_disk _ _ I). intros (k & d & He & Hs). apply Hd. exists k, d. split; [|done].
    by apply new_slots_old.
  - intros k e He Hb. rewrite lookup_union_case, lookup_fmap in He. destruct He as [He|[_ He]].
    + destruct (mapping !! k) as [a|] eqn:Hm; [|done]. cbn in He. simplify_eq.
      destruct (proj2 (proj2 Hreq a)) as [id Hid]; [by eexists|]. exists id.
      apply lookup_union_Some_l, Hupd. eauto.
    + destruct (i_busy _ _ I _ _ He Hb) as [id Hid]. exists id. rewrite lookup_union_case. right.
      split; [by eapply Hold|done].
Qed.

Lemma resp_taken d (resps : gmap ID DiskResponse) id r : resps ⊆ AsyncDisk.responses d →
  (AsyncDisk.responses d ∖ resps) !! id = Some r ↔ AsyncDisk.responses d !! id = Some r ∧ id ∉ dom resps.
Proof. intros _. rewrite lookup_difference_Some, not_elem_of_dom. done. Qed.

Lemma step_load_complete `{Geometry} s sg c' d' reqs resps : cinv s sg →
  Cache.load_complete (CacheSys.cache s) c' (Cache.DiskOps reqs resps) →
  AsyncDisk.next (CacheSys.disk s) d' (AsyncDisk.DiskOps reqs resps) →
  cinv (CacheSys.mkState c' d') sg.
Proof.
  intros I (resps' & [= -> <-] & Hne & Hdom & Hv & slot_id & Hinv & ->) Hd.
  apply disk_ops_pure in Hd as (_ & _ & Hsub & ->). rewrite (left_id_L ∅ (∪)).
  assert (W := i_wf _ _ I). set (c := CacheSys.cache s) in *.
  assert (Hri : injective (restrict (Cache.outstanding_reqs c) (dom resps))).
  { intros k1 k2 v H1 H2. rewrite lookup_restrict in H1, H2. exact (w_inj _ W _ _ _ (proj1 H1) (proj1 H2)). }
  assert (HI : ∀ k id, slot_id !! k = Some id ↔ Cache.outstanding_reqs c !! id = Some k ∧ id ∈ dom resps).
  { intros k id. rewrite <- (inverts_iff _ _ Hinv Hri), lookup_restrict. done. }
  (* the loaded slots *)
  assert (HL : ∀ k id, slot_id !! k = Some id → ∃ a d, Cache.entries c !! k = Some (Loading a) ∧
      resps !! id = Some (ReadResp d) ∧ Cache.loaded c resps k id = Some (Filled a d) ∧
      (∀ d', sg a = Some d' → d = d')).
  { intros k id Hk%HI. destruct Hk as [Hk [r Hr]%elem_of_dom].
    destruct (Hv _ _ Hr) as [[d ->] (k' & a & Hk' & He)]. assert (k' = k) as -> by congruence.
    exists a, d. unfold Cache.loaded. rewrite He, Hr. cbn. do 3 (split; [done|]).
    assert (HR : AsyncDisk.responses (CacheSys.disk s) !! id = Some (ReadResp d)) by (by eapply lookup_weaken).
    destruct (i_resp _ _ I _ _ HR) as (k' & Hk2 & a' & Ha & Hd). fold c in Hk2, Ha. assert (a' = a) as <- by congruence. done. }
  assert (HE : ∀ k, (map_imap (Cache.loaded c resps) slot_id ∪ Cache.entries c) !! k =
     match slot_id !! k with Some id => Cache.loaded c resps k id | None => Cache.entries c !! k end).
  { intros k. destruct (slot_id !! k) as [id|] eqn:Hk.
    - destruct (HL _ _ Hk) as (a & d & _ & _ & Hl & _). rewrite Hl. apply lookup_union_Some_l.
      rewrite map_lookup_imap, Hk. cbn. done.
    - rewrite lookup_union_r; [done|]. rewrite map_lookup_imap, Hk. done. }
  assert (HS : ∀ k, ((((λ _, Clean) <$> slot_id) ∪ Cache.status_map c) : gmap Slot Status) !! k =
     match slot_id !! k with Some id => Some Clean | None => Cache.status_map c !! k end).
  { intros k. destruct (slot_id !! k) as [id|] eqn:Hk.
    - apply lookup_union_Some_l. rewrite lookup_fmap, Hk. done.
    - rewrite lookup_union_r; [done|]. rewrite lookup_fmap, Hk. done. }
  (* a slot with another request is not loaded *)
  assert (HO : ∀ id k, Cache.outstanding_reqs c !! id = Some k → id ∉ dom resps → slot_id !! k = None).
  { intros id k Hk Hn. destruct (slot_id !! k) as [id'|] eqn:Hs; [|done].
    apply HI in Hs as [Hs Hr]. assert (id' = id) as -> by exact (w_inj _ W _ _ _ Hs Hk). done. }
  assert (Hrq : ∀ id q, AsyncDisk.requests (CacheSys.disk s) !! id = Some q → id ∉ dom resps).
  { intros id q Hq [r Hr]%elem_of_dom. apply (i_once _ _ I _ _ r Hq). by eapply lookup_weaken. }
  constructor; cbn.
  - constructor; cbn.
    + intros a k. rewrite (w_lookup _ W). unfold slot_for; cbn. rewrite HE.
      destruct (slot_id !! k) as [id|] eqn:Hk; [|done].
      destruct (HL _ _ Hk) as (b & d & He & _ & Hl & _). rewrite Hl, He. split.
      * intros (e & [= <-] & Ha). exists (Filled b d). by split.
      * intros (e & [= <-] & Ha). exists (Loading b). by split.
    + intros k e. rewrite HE, HS. destruct (slot_id !! k) as [id|] eqn:Hk; [|apply (w_status _ W)].
      destruct (HL _ _ Hk) as (b & d & _ & _ & Hl & _). rewrite Hl. intros [= <-].
      exists Clean. split; [done|]. split; [done|]. intros Hn. exfalso. apply Hn. eauto.
    + intros k st. rewrite HE, HS. destruct (slot_id !! k) as [id|] eqn:Hk; [|apply (w_dom _ W)].
      destruct (HL _ _ Hk) as (b & d & _ & _ & Hl & _). rewrite Hl. by eexists.
    + intros id1 id2 k. rewrite !lookup_remove_keys. intros [H1 _] [H2 _]. exact (w_inj _ W _ _ _ H1 H2).
  - intros id q Hq. destruct (i_req _ _ I _ _ Hq) as (k & Hk & Hm). fold c in Hk, Hm.
    assert (Hn := Hrq _ _ Hq). assert (Hs := HO _ _ Hk Hn). exists k. rewrite lookup_remove_keys, HE, HS, Hs. done.
  - intros id r Hr. apply resp_taken in Hr as [Hr Hn]; [|done].
    destruct (i_resp _ _ I _ _ Hr) as (k & Hk & Hm). fold c in Hk, Hm.
    assert (Hs := HO _ _ Hk Hn). exists k. rewrite lookup_remove_keys, HE, HS, Hs. done.
  - intros id k Hk. apply lookup_remove_keys in Hk as [Hk Hn].
    destruct (i_out _ _ I _ _ Hk) as [Hq|[r Hr]]; [by left|]. right. exists r. by apply resp_taken.
  - intros id q r Hq Hr. apply resp_taken in Hr as [Hr _]; [|done]. exact (i_once _ _ I _ _ _ Hq Hr).
  - intros k a d. rewrite HE, HS. destruct (slot_id !! k) as [id|] eqn:Hk; [done|]. apply (i_dirty _ _ I).
  - intros k a d. rewrite HE, HS. destruct (slot_id !! k) as [id|] eqn:Hk; [|apply (i_clean _ _ I)].
    destruct (HL _ _ Hk) as (b & d0 & _ & _ & Hl & Hg). rewrite Hl. intros [= -> ->] _. done.
  - intros a Hd. apply (i_disk _ _ I). intros (k & d & He & Hst). apply Hd. exists k, d. cbn. fold c in He, Hst.
    rewrite HE, HS. destruct (slot_id !! k) as [id|] eqn:Hk; [|done].
    destruct (HL _ _ Hk) as (b & d0 & He' & _). congruence.
  - intros k e. rewrite HE, HS. destruct (slot_id !! k) as [id|] eqn:Hk.
    + destruct (HL _ _ Hk) as (b & d & _ & _ & Hl & _). rewrite Hl. intros [= <-] [[? ?]|?]; done.
    + intros He Hb. destruct (i_busy _ _ I _ _ He Hb) as [id Hid]. fold c in Hid. exists id.
      apply lookup_remove_keys. split; [done|]. intros Hr.
      assert (slot_id !! k = Some id) by (by apply HI). congruence.
Qed.

(** The logical content after a batch of writes. *)
Definition put_pages (w : gmap Address RawPage) (sg : Address → option RawPage) : Address → option RawPage :=
  λ a, match w !! a with Some d => Some d | None => sg a end.

Lemma step_access s sg c' reads writes : cinv s sg →
  Cache.access (CacheSys.cache s) c' (Cache.Access reads writes) →
  cinv (CacheSys.mkState c' (CacheSys.disk s)) (put_pages writes sg) ∧
  ∀ a d, reads !! a = Some d → ∀ d', sg a = Some d' → d = d'.
Proof.
  intros I (r' & w' & [= <- <-] & Hr & Hw & ->). assert (W := i_wf _ _ I). set (c := CacheSys.cache s) in *.
  split; cycle 1.
  { intros a d Ha. destruct (Hr _ _ Ha) as (k & a' & Hl & He).
    assert (a' = a) as -> by (apply (w_lookup _ W) in Hl as (e & He' & Ha'); rewrite He in He'; by simplify_eq/=).
    destruct (filled_status _ _ _ _ W He) as (st & Hs & Hn). destruct st; [done|..].
    - by apply (i_clean _ _ I _ _ _ He).
    - intros d' Hd'. assert (sg a = Some d) by (apply (i_dirty _ _ I _ _ _ He); fold c; congruence). congruence.
    - intros d' Hd'. assert (sg a = Some d) by (apply (i_dirty _ _ I _ _ _ He); fold c; congruence). congruence. }
  set (ws := map_values (restrict (Cache.lookup_map c) (dom writes))).
  assert (HW : ∀ k, k ∈ ws ↔ ∃ a d, Cache.lookup_map c !! a = Some k ∧ writes !! a = Some d).
  { intros k. unfold ws. rewrite elem_of_map_values. split.
    - intros [a Ha]. apply lookup_restrict in Ha as [Ha [d Hd]%elem_of_dom]. eauto.
    - intros (a & d & Ha & Hd). exists a. apply lookup_restrict. split; [done|]. apply elem_of_dom. by eexists. }
  (* a written slot *)
  assert (HK : ∀ k, k ∈ ws → ∃ a d e, writes !! a = Some d ∧ Cache.entries c !! k = Some e ∧ get_addr e = Some a ∧
      Cache.written writes ws k e = Some (Filled a d) ∧
      (∀ b, e ≠ Loading b) ∧ Cache.status_map c !! k ≠ Some Writeback).
  { intros k Hk. assert (Hk' := Hk). apply HW in Hk' as (a & d & Hl & Hd).
    assert (Hsf := Hl). apply (w_lookup _ W) in Hsf as (e & He & Ha).
    exists a, d, e. do 3 (split; [done|]). split.
    { unfold Cache.written. rewrite decide_True by done. rewrite Ha. cbn. by rewrite Hd. }
    destruct (Hw _ _ Hd) as (k' & Hl' & Hcase). assert (k' = k) as -> by congruence.
    destruct Hcase as [(b & Hb)|[(b & d' & Hb) Hn]].
    - rewrite He in Hb. simplify_eq. split; [done|]. rewrite (not_filled_status _ _ _ W He); [done|by intros].
    - rewrite He in Hb. simplify_eq. split; [done|]. done. }
  assert (HE : ∀ k, (map_imap (Cache.written writes ws) (Cache.entries c) ∪ Cache.entries c) !! k =
     if decide (k ∈ ws) then Cache.entries c !! k ≫= Cache.written writes ws k else Cache.entries c !! k).
  { intros k. rewrite lookup_union, map_lookup_imap. destruct (decide (k ∈ ws)) as [Hk|Hk].
    - destruct (HK _ Hk) as (a & d & e & _ & He & _ & Hwr & _). rewrite He. cbn. rewrite Hwr. done.
    - destruct (Cache.entries c !! k) as [e|]; cbn; [|done]. unfold Cache.written. rewrite decide_False by done. done. }
  assert (HS := lookup_gset_union Dirty ws (Cache.status_map c)).
  (* slots with a request in flight are not written *)
  assert (HB : ∀ k e, Cache.entries c !! k = Some e →
     (∃ a, e = Loading a) ∨ Cache.status_map c !! k = Some Writeback → k ∉ ws).
  { intros k e He Hb Hk. destruct (HK _ Hk) as (a & d & e' & _ & He' & _ & _ & Hl & Hs).
    assert (e' = e) as -> by congruence. destruct Hb as [[b ->]|Hb]; [by eapply Hl|done]. }
  constructor; cbn.
  - constructor; cbn.
    + intros a k. rewrite (w_lookup _ W). unfold slot_for; cbn. rewrite HE.
      destruct (decide (k ∈ ws)) as [Hk|Hk]; [|done].
      destruct (HK _ Hk) as (b & d & e & _ & He & Ha & Hwr & _). rewrite He. cbn. rewrite Hwr. split.
      * intros (e' & [= <-] & Ha'). eexists. split; [done|]. cbn. congruence.
      * intros (e' & [= <-] & Ha'). exists e. split; [done|]. cbn in Ha'. congruence.
    + intros k e. rewrite HE, HS. destruct (decide (k ∈ ws)) as [Hk|Hk]; [|apply (w_status _ W)].
      destruct (HK _ Hk) as (b & d & e' & _ & He & Ha & Hwr & _). rewrite He. cbn. rewrite Hwr. intros [= <-].
      exists Dirty. split; [done|]. split; [done|]. intros Hn. exfalso. apply Hn. eauto.
    + intros k st. rewrite HE, HS. destruct (decide (k ∈ ws)) as [Hk|Hk]; [|apply (w_dom _ W)].
      destruct (HK _ Hk) as (b & d & e' & _ & He & Ha & Hwr & _). rewrite He. cbn. rewrite Hwr. by eexists.
    + apply (w_inj _ W).
  - intros id q Hq. destruct (i_req _ _ I _ _ Hq) as (k & Hk & Hm). fold c in Hk, Hm. exists k. split; [done|].
    rewrite HE, HS. assert (k ∉ ws).
    { destruct q; [|destruct Hm as [Hm Hs]]; (eapply HB; [exact Hm|]); eauto. }
    by rewrite !decide_False by done.
  - intros id r Hrr. destruct (i_resp _ _ I _ _ Hrr) as (k & Hk & Hm). fold c in Hk, Hm. exists k. split; [done|].
    rewrite HE, HS. assert (k ∉ ws).
    { destruct r; [destruct Hm as (a & Hm & _)|destruct Hm as (a & d & Hm & Hs & _)]; (eapply HB; [exact Hm|]); eauto. }
    rewrite !decide_False by done. destruct r; [|done].
    destruct Hm as (a & Hm & Hd). exists a. split; [done|]. unfold put_pages.
    destruct (writes !! a) as [d'|] eqn:Hwa; [|done].
    exfalso. apply H. apply HW. exists a, d'. split; [|done]. apply (w_lookup _ W). by apply slot_for_loading.
  - exact (i_out _ _ I).
  - exact (i_once _ _ I).
  - intros k a d. rewrite HE, HS. unfold put_pages. destruct (decide (k ∈ ws)) as [Hk|Hk].
    + destruct (HK _ Hk) as (b & d0 & e' & Hb & He & Ha & Hwr & _). rewrite He. cbn. rewrite Hwr.
      intros [= -> ->] _. by rewrite Hb.
    + intros He Hst. destruct (writes !! a) as [d'|] eqn:Hwa; [|exact (i_dirty _ _ I _ _ _ He Hst)].
      exfalso. apply Hk, HW. exists a, d'. split; [|done]. apply (w_lookup _ W). by eapply slot_for_filled.
  - intros k a d. rewrite HE, HS. unfold put_pages. destruct (decide (k ∈ ws)) as [Hk|Hk]; [done|].
    intros He Hst. destruct (writes !! a) as [d'|] eqn:Hwa; [|exact (i_clean _ _ I _ _ _ He Hst)].
    exfalso. apply Hk, HW. exists a, d'. split; [|done]. apply (w_lookup _ W). by eapply slot_for_filled.
  - intros a Hd. unfold put_pages. destruct (writes !! a) as [d|] eqn:Hwa.
    + exfalso. apply Hd. destruct (Hw _ _ Hwa) as (k & Hl & _).
      assert (Hk : k ∈ ws) by (apply HW; eauto).
      destruct (HK _ Hk) as (b & d0 & e' & Hb & He & Ha & Hwr & _).
      assert (b = a) as ->.
      { apply (w_lookup _ W) in Hl as (e2 & He2 & Ha2). congruence. }
      exists k, d0. cbn. rewrite HE, HS, !decide_True by done. rewrite He. cbn. rewrite Hwr. split; [done|by left].
    + apply (i_disk _ _ I). intros (k & d & He & Hst). apply Hd. exists k. fold c in He, Hst.
      assert (Hk : k ∉ ws).
      { intros (b & d' & Hl & Hb)%HW. apply (w_lookup _ W) in Hl as (e2 & He2 & Ha2). rewrite He in He2.
        simplify_eq. cbn in Ha2. congruence. }
      exists d. cbn. rewrite HE, HS, !decide_False by done. done.
  - intros k e. rewrite HE, HS. destruct (decide (k ∈ ws)) as [Hk|Hk]; [|apply (i_busy _ _ I)].
    destruct (HK _ Hk) as (b & d0 & e' & Hb & He & Ha & Hwr & _). rewrite He. cbn. rewrite Hwr.
    intros [= <-] [[? ?]|?]; done.
Qed.

(** The slots with a request in flight are loading or being written back. *)
Lemma out_busy s sg id k : cinv s sg → Cache.outstanding_reqs (CacheSys.cache s) !! id = Some k →
  (∃ a, Cache.entries (CacheSys.cache s) !! k = Some (Loading a)) ∨
  (∃ a d, Cache.entries (CacheSys.cache s) !! k = Some (Filled a d) ∧
    Cache.status_map (CacheSys.cache s) !! k = Some Writeback).
Proof.
  intros I Hk. destruct (i_out _ _ I _ _ Hk) as [[q Hq]|[r Hr]].
  - destruct (i_req _ _ I _ _ Hq) as (k' & Hk' & Hm). assert (k' = k) as -> by congruence.
    destruct q; [left; eauto|right; destruct Hm; eauto].
  - destruct (i_resp _ _ I _ _ Hr) as (k' & Hk' & Hm). assert (k' = k) as -> by congruence.
    destruct r; [left; destruct Hm as (? & ? & _); eauto|right; destruct Hm as (? & ? & ? & ? & _); eauto].
Qed.

Lemma step_writeback_initiate `{Geometry} s sg c' d' reqs resps : cinv s sg →
  Cache.writeback_initiate true (CacheSys.cache s) c' (Cache.DiskOps reqs resps) →
  AsyncDisk.next (CacheSys.disk s) d' (AsyncDisk.DiskOps reqs resps) →
  cinv (CacheSys.mkState c' d') sg.
Proof.
  intros I (reqs' & [= <- ->] & Hne & Hdisj & Hv & Hinj & ->) Hd. specialize (Hinj eq_refl).
  apply disk_ops_pure in Hd as (D1 & D2 & _ & ->). rewrite map_difference_empty.
  assert (W := i_wf _ _ I). set (c := CacheSys.cache s) in *.
  set (upd := omap (λ r, Cache.lookup_map c !! req_addr r) reqs).
  assert (Hupd : ∀ id k, upd !! id = Some k ↔ ∃ a d, reqs !! id = Some (WriteReq a d) ∧
     Cache.entries c !! k = Some (Filled a d) ∧ Cache.status_map c !! k = Some Dirty).
  { intros id k. unfold upd. rewrite lookup_omap_Some. split.
    - intros (r & Hk & Hr). destruct (Hv _ _ Hr) as (a & d & k' & -> & Hl & He & Hs). cbn in Hk.
      assert (k' = k) as -> by congruence. eauto.
    - intros (a & d & Hr & He & Hs). exists (WriteReq a d). split; [|done]. cbn.
      apply (w_lookup _ W). by eapply slot_for_filled. }
  assert (Hval : ∀ k, k ∈ map_values upd ↔ ∃ id a d, reqs !! id = Some (WriteReq a d) ∧
     Cache.entries c !! k = Some (Filled a d) ∧ Cache.status_map c !! k = Some Dirty).
  { intros k. rewrite elem_of_map_values. split; intros [id Hid]; exists id; by apply Hupd. }
  assert (Hold : ∀ id k, Cache.outstanding_reqs c !! id = Some k → upd !! id = None).
  { intros id k Hk. destruct (upd !! id) eqn:Hu; [|done]. apply Hupd in Hu as (a & d & Hr & _).
    exfalso. apply (Hdisj id); apply elem_of_dom; [by eexists|by exists k]. }
  assert (Hbusy : ∀ id k, Cache.outstanding_reqs c !! id = Some k → k ∉ map_values upd).
  { intros id k Hk (id' & a & d & _ & He & Hs)%Hval.
    destruct (out_busy _ _ _ _ I Hk) as [(? & ?)|(? & ? & ? & ?)]; unfold c in *; congruence. }
  assert (HS := lookup_gset_union Writeback (map_values upd) (Cache.status_map c)).
  constructor; cbn; fold c upd.
  - constructor; cbn.
    + apply (w_lookup _ W).
    + intros k e He. rewrite HS. destruct (decide (k ∈ map_values upd)) as [Hk|Hk]; [|exact (w_status _ W _ _ He)].
      apply Hval in Hk as (id & a & d & _ & He' & _). exists Writeback. split; [done|]. split; [done|].
      intros Hn. exfalso. apply Hn. exists a, d. congruence.
    + intros k st. rewrite HS. destruct (decide (k ∈ map_values upd)) as [Hk|Hk]; [|apply (w_dom _ W)].
      apply Hval in Hk as (id & a & d & _ & He' & _). intros _. by eexists.
    + intros id1 id2 k H1 H2. rewrite lookup_union_case in H1, H2.
      destruct H1 as [H1|[_ H1]], H2 as [H2|[_ H2]].
      * apply Hupd in H1 as (a1 & d1 & H1 & E1 & _), H2 as (a2 & d2 & H2 & E2 & _).
        rewrite E1 in E2. simplify_eq. exact (Hinj _ _ _ H1 H2).
      * exfalso. apply (Hbusy _ _ H2), elem_of_map_values. eauto.
      * exfalso. apply (Hbusy _ _ H1), elem_of_map_values. eauto.
      * exact (w_inj _ W _ _ _ H1 H2).
  - intros id q Hq. rewrite lookup_union_case in Hq. destruct Hq as [Hq|[Hn Hq]].
    + destruct (Hv _ _ Hq) as (a & d & k & -> & Hl & He & Hs). exists k.
      assert (Hu : upd !! id = Some k) by (apply Hupd; eauto). split; [by apply lookup_union_Some_l|].
      split; [done|]. rewrite HS, decide_True; [done|]. apply elem_of_map_values. eauto.
    + destruct (i_req _ _ I _ _ Hq) as (k & Hk & Hm). fold c in Hk, Hm. exists k. split.
      * rewrite lookup_union_case. right. split; [by eapply Hold|done].
      * destruct q as [a|a d]; [done|]. rewrite HS, decide_False by (by eapply Hbusy). done.
  - intros id r Hr. destruct (i_resp _ _ I _ _ Hr) as (k & Hk & Hm). fold c in Hk, Hm. exists k. split.
    { rewrite lookup_union_case. right. split; [by eapply Hold|done]. }
    destruct r as [d|]; [done|]. rewrite HS, decide_False by (by eapply Hbusy). done.
  - intros id k Hk. rewrite lookup_union_case in Hk. destruct Hk as [Hk|[_ Hk]].
    + apply Hupd in Hk as (a & d & Hr & _). left. apply lookup_union_is_Some. left. by eexists.
    + destruct (i_out _ _ I _ _ Hk) as [Hq|Hr]; [|by right]. left. apply lookup_union_is_Some. by right.
  - intros id q r Hq Hr. rewrite lookup_union_case in Hq. destruct Hq as [Hq|[_ Hq]].
    + apply (D2 id); apply elem_of_dom; by eexists.
    + exact (i_once _ _ I _ _ _ Hq Hr).
  - intros k a d He. rewrite HS. destruct (decide (k ∈ map_values upd)) as [Hk|Hk]; [|exact (i_dirty _ _ I _ _ _ He)].
    intros _. apply (i_dirty _ _ I _ _ _ He). fold c.
    apply Hval in Hk as (id & a' & d0 & _ & He' & Hs). congruence.
  - intros k a d He. rewrite HS. destruct (decide (k ∈ map_values upd)) as [Hk|Hk]; [done|].
    exact (i_clean _ _ I _ _ _ He).
  - intros a Hd. apply (i_disk _ _ I). intros (k & d & He & Hs). apply Hd. fold c in He, Hs. exists k, d. cbn.
    split; [done|]. rewrite HS. destruct (decide (k ∈ map_values upd)); [by right|done].
  - intros k e He. rewrite HS. destruct (decide (k ∈ map_values upd)) as [Hk|Hk].
    + intros _. apply elem_of_map_values in Hk as [id Hid]. exists id. by apply lookup_union_Some_l.
    + intros Hb. destruct (i_busy _ _ I _ _ He Hb) as [id Hid]. fold c in Hid. exists id.
      rewrite lookup_union_case. right. split; [by eapply Hold|done].
Qed.

Lemma step_writeback_complete `{Geometry} s sg c' d' reqs resps : cinv s sg →
  Cache.writeback_complete (CacheSys.cache s) c' (Cache.DiskOps reqs resps) →
  AsyncDisk.next (CacheSys.disk s) d' (AsyncDisk.DiskOps reqs resps) →
  cinv (CacheSys.mkState c' d') sg.
Proof.
  intros I (resps' & [= -> <-] & Hne & Hdom & Hv & ->) Hd.
  apply disk_ops_pure in Hd as (_ & _ & Hsub & ->). rewrite (left_id_L ∅ (∪)).
  assert (W := i_wf _ _ I). set (c := CacheSys.cache s) in *.
  set (done_ := map_values (restrict (Cache.outstanding_reqs c) (dom resps))).
  assert (HI : ∀ k, k ∈ done_ ↔ ∃ id, Cache.outstanding_reqs c !! id = Some k ∧ id ∈ dom resps).
  { intros k. unfold done_. rewrite elem_of_map_values. split; intros [id Hid]; exists id; by apply lookup_restrict. }
  assert (HL : ∀ k, k ∈ done_ → ∃ a d, Cache.entries c !! k = Some (Filled a d) ∧
      Cache.status_map c !! k = Some Writeback ∧ AsyncDisk.content (CacheSys.disk s) !! a = Some d).
  { intros k (id & Hk & [r Hr]%elem_of_dom)%HI.
    destruct (Hv _ _ Hr) as [-> (k' & a & d & Hk' & He & Hs)]. assert (k' = k) as -> by congruence.
    exists a, d. do 2 (split; [done|]).
    assert (HR : AsyncDisk.responses (CacheSys.disk s) !! id = Some WriteResp) by (by eapply lookup_weaken).
    destruct (i_resp _ _ I _ _ HR) as (k' & Hk2 & a' & d' & Ha & _ & Hd). fold c in Hk2, Ha. congruence. }
  assert (HS := lookup_gset_union Clean done_ (Cache.status_map c)).
  assert (HO : ∀ id k, Cache.outstanding_reqs c !! id = Some k → id ∉ dom resps → k ∉ done_).
  { intros id k Hk Hn (id' & Hs & Hr)%HI. assert (id' = id) as -> by exact (w_inj _ W _ _ _ Hs Hk). done. }
  assert (Hrq : ∀ id q, AsyncDisk.requests (CacheSys.disk s) !! id = Some q → id ∉ dom resps).
  { intros id q Hq [r Hr]%elem_of_dom. apply (i_once _ _ I _ _ r Hq). by eapply lookup_weaken. }
  constructor; cbn; fold c done_.
  - constructor; cbn.
    + apply (w_lookup _ W).
    + intros k e He. rewrite HS. destruct (decide (k ∈ done_)) as [Hk|Hk]; [|exact (w_status _ W _ _ He)].
      destruct (HL _ Hk) as (a & d & He' & _). exists Clean. split; [done|]. split; [done|].
      intros Hn. exfalso. apply Hn. exists a, d. congruence.
    + intros k st. rewrite HS. destruct (decide (k ∈ done_)) as [Hk|Hk]; [|apply (w_dom _ W)].
      destruct (HL _ Hk) as (a & d & He' & _). intros _. by eexists.
    + intros id1 id2 k. rewrite !lookup_remove_keys. intros [H1 _] [H2 _]. exact (w_inj _ W _ _ _ H1 H2).
  - intros id q Hq. destruct (i_req _ _ I _ _ Hq) as (k & Hk & Hm). fold c in Hk, Hm.
    assert (Hn := Hrq _ _ Hq). assert (Hs := HO _ _ Hk Hn). exists k. rewrite lookup_remove_keys, HS, decide_False by done. done.
  - intros id r Hr. apply resp_taken in Hr as [Hr Hn]; [|done].
    destruct (i_resp _ _ I _ _ Hr) as (k & Hk & Hm). fold c in Hk, Hm.
    assert (Hs := HO _ _ Hk Hn). exists k. rewrite lookup_remove_keys, HS, decide_False by done. done.
  - intros id k Hk. apply lookup_remove_keys in Hk as [Hk Hn].
    destruct (i_out _ _ I _ _ Hk) as [Hq|[r Hr]]; [by left|]. right. exists r. by apply resp_taken.
  - intros id q r Hq Hr. apply resp_taken in Hr as [Hr _]; [|done]. exact (i_once _ _ I _ _ _ Hq Hr).
  - intros k a d He. rewrite HS. destruct (decide (k ∈ done_)) as [Hk|Hk]; [done|]. exact (i_dirty _ _ I _ _ _ He).
  - intros k a d He. rewrite HS. destruct (decide (k ∈ done_)) as [Hk|Hk]; [|exact (i_clean _ _ I _ _ _ He)].
    intros _. destruct (HL _ Hk) as (a' & d0 & He' & Hs & _). intros d' Hd'.
    assert (sg a = Some d) by (apply (i_dirty _ _ I _ _ _ He); fold c; congruence). congruence.
  - intros a Hd.
    destruct (decide (Cache.lookup_map c !! a = None)) as [Hn|Hn].
    { apply (i_disk _ _ I). intros (k & d & He & _). apply slot_for_filled, (w_lookup _ W) in He. fold c in He. congruence. }
    destruct (Cache.lookup_map c !! a) as [k|] eqn:Hl; [|done].
    destruct (decide (k ∈ done_)) as [Hk|Hk].
    + destruct (HL _ Hk) as (a' & d & He & Hs & Hc). assert (a' = a) as ->.
      { apply (w_lookup _ W) in Hl as (e & He' & Ha). rewrite He in He'. by simplify_eq/=. }
      rewrite Hc. symmetry. apply (i_dirty _ _ I _ _ _ He). fold c. congruence.
    + apply (i_disk _ _ I). intros (k' & d & He & Hs). fold c in He, Hs. apply Hd. exists k', d. cbn. split; [done|].
      assert (k' = k) as -> by (apply slot_for_filled, (w_lookup _ W) in He; congruence).
      rewrite HS, decide_False; done.
  - intros k e He. rewrite HS. destruct (decide (k ∈ done_)) as [Hk|Hk].
    + intros [[a ->]|?]; [|done]. destruct (HL _ Hk) as (? & ? & He' & _). congruence.
    + intros Hb. destruct (i_busy _ _ I _ _ He Hb) as [id Hid]. fold c in Hid. exists id.
      apply lookup_remove_keys. split; [done|]. intros Hr. apply Hk, HI. eauto.
Qed.

Lemma step_evict s sg c' l slots : cinv s sg → Cache.evict (CacheSys.cache s) c' l slots →
  cinv (CacheSys.mkState c' (CacheSys.disk s)) sg.
Proof.
  intros I (-> & Hsub & Hv & ->). assert (W := i_wf _ _ I). set (c := CacheSys.cache s) in *.
  set (ev := map_values (omap get_addr (restrict (Cache.entries c) slots))).
  assert (Hev : ∀ a, a ∈ ev ↔ ∃ k, k ∈ slots ∧ slot_for c k a).
  { intros a. unfold ev. rewrite elem_of_map_values. split.
    - intros (k & Hk). apply lookup_omap_Some in Hk as (e & Ha & He). apply lookup_restrict in He as [He Hk].
      exists k. split; [done|]. by exists e.
    - intros (k & Hk & e & He & Ha). exists k. apply lookup_omap_Some. exists e. split; [done|].
      by apply lookup_restrict. }
  assert (HE := lookup_gset_union Empty slots (Cache.entries c)).
  assert (HS := lookup_gset_union NotFilled slots (Cache.status_map c)).
  assert (HB : ∀ id k, Cache.outstanding_reqs c !! id = Some k → k ∉ slots).
  { intros id k Hk Hs. destruct (Hv _ Hs) as ((a & d & He) & Hst).
    destruct (out_busy _ _ _ _ I Hk) as [(? & ?)|(? & ? & ? & ?)]; unfold c in *; congruence. }
  constructor; cbn; fold c ev.
  - constructor; cbn.
    + intros a k. rewrite lookup_remove_keys, (w_lookup _ W). unfold slot_for at 2; cbn. rewrite HE.
      destruct (decide (k ∈ slots)) as [Hk|Hk].
      * split; [|by intros (e & [= <-] & ?)]. intros [Hf Hn]. exfalso. apply Hn, Hev. eauto.
      * split; [by intros [Hf _]|]. intros Hf. split; [done|]. intros (k' & Hk' & Hf')%Hev.
        assert (k' = k) as -> by exact (slot_unique _ _ _ _ W Hf' Hf). done.
    + intros k e. rewrite HE, HS. destruct (decide (k ∈ slots)) as [Hk|Hk]; [|apply (w_status _ W)].
      intros [= <-]. exists NotFilled. split; [done|]. split; [by intros _ (? & ? & ?)|done].
    + intros k st. rewrite HE, HS. destruct (decide (k ∈ slots)) as [Hk|Hk]; [|apply (w_dom _ W)]. by eexists.
    + apply (w_inj _ W).
  - intros id q Hq. destruct (i_req _ _ I _ _ Hq) as (k & Hk & Hm). fold c in Hk, Hm. exists k. split; [done|].
    rewrite HE, HS. rewrite !decide_False by (by eapply HB). done.
  - intros id r Hr. destruct (i_resp _ _ I _ _ Hr) as (k & Hk & Hm). fold c in Hk, Hm. exists k. split; [done|].
    rewrite HE, HS. rewrite !decide_False by (by eapply HB). done.
  - exact (i_out _ _ I).
  - exact (i_once _ _ I).
  - intros k a d. rewrite HE, HS. destruct (decide (k ∈ slots)); [done|]. apply (i_dirty _ _ I).
  - intros k a d. rewrite HE, HS. destruct (decide (k ∈ slots)); [done|]. apply (i_clean _ _ I).
  - intros a Hd. apply (i_disk _ _ I). intros (k & d & He & Hs). apply Hd. fold c in He, Hs. exists k, d. cbn.
    rewrite HE, HS. rewrite !decide_False; [done|..]; intros Hk; destruct (Hv _ Hk) as [_ Hst]; destruct Hs; congruence.
  - intros k e. rewrite HE, HS. destruct (decide (k ∈ slots)); [|apply (i_busy _ _ I)].
    intros [= <-] [[? ?]|?]; done.
Qed.

Lemma step_disk_internal `{Geometry} s sg d' : cinv s sg →
  AsyncDisk.next (CacheSys.disk s) d' AsyncDisk.Internal → cinv (CacheSys.mkState (CacheSys.cache s) d') sg.
Proof.
  intros I [Hd|[[id Hd]|[[id Hd]|Hd]]].
  - by destruct Hd as (? & ? & ? & _).
  - destruct Hd as (_ & from & data & Hq & _ & Hdata & ->). assert (W := i_wf _ _ I).
    destruct (i_req _ _ I _ _ Hq) as (k & Hk & He).
    constructor; cbn; try (by apply I).
    + intros id' q Hq'. apply lookup_delete_Some in Hq' as [_ Hq']. by apply (i_req _ _ I).
    + intros id' r Hr'. apply lookup_insert_Some in Hr' as [[<- <-]|[_ Hr']]; [|by apply (i_resp _ _ I)].
      exists k. split; [done|]. exists from. split; [done|]. intros d'' Hs. apply Hdata.
      rewrite (i_disk _ _ I); [done|]. intros (k' & d & He' & _).
      assert (k' = k) as -> by exact (slot_unique _ _ _ _ W (slot_for_filled _ _ _ _ He') (slot_for_loading _ _ _ He)).
      congruence.
    + intros id' k' Hk'. destruct (decide (id' = id)) as [->|Hne].
      * right. rewrite lookup_insert. by eexists.
      * rewrite lookup_delete_ne, lookup_insert_ne by done. exact (i_out _ _ I _ _ Hk').
    + intros id' q r Hq' Hr'. apply lookup_delete_Some in Hq' as [Hne Hq'].
      rewrite lookup_insert_ne in Hr' by done. exact (i_once _ _ I _ _ _ Hq' Hr').
  - destruct Hd as (_ & a & data & Hq & _ & ->). assert (W := i_wf _ _ I).
    destruct (i_req _ _ I _ _ Hq) as (k & Hk & He & Hs).
    constructor; cbn; try (by apply I).
    + intros id' q Hq'. apply lookup_delete_Some in Hq' as [_ Hq']. by apply (i_req _ _ I).
    + intros id' r Hr'. apply lookup_insert_Some in Hr' as [[<- <-]|[Hne Hr']].
      * exists k. split; [done|]. exists a, data. by rewrite lookup_insert.
      * destruct (i_resp _ _ I _ _ Hr') as (k' & Hk' & Hm). exists k'. split; [done|].
        destruct r as [|]; [done|]. destruct Hm as (a' & d & He' & Hs' & Hc). exists a', d. do 2 (split; [done|]).
        rewrite lookup_insert_ne; [done|]. intros <-.
        assert (k' = k) as -> by exact (slot_unique _ _ _ _ W (slot_for_filled _ _ _ _ He') (slot_for_filled _ _ _ _ He)).
        by apply Hne, (w_inj _ W _ _ _ Hk Hk').
    + intros id' k' Hk'. destruct (decide (id' = id)) as [->|Hne].
      * right. rewrite lookup_insert. by eexists.
      * rewrite lookup_delete_ne, lookup_insert_ne by done. exact (i_out _ _ I _ _ Hk').
    + intros id' q r Hq' Hr'. apply lookup_delete_Some in Hq' as [Hne Hq'].
      rewrite lookup_insert_ne in Hr' by done. exact (i_once _ _ I _ _ _ Hq' Hr').
    + intros a' Hd. rewrite lookup_insert_ne; [by apply (i_disk _ _ I)|]. intros <-. apply Hd.
      exists k, data. split; [done|by right].
  - by destruct Hd as [? _].
Qed.

Lemma init_wf c n : Cache.initialize c n → wfc c.
Proof.
  intros (HE & HS & HL & HO). constructor.
  - intros a s. rewrite HL, lookup_empty. unfold slot_for. split; [done|]. intros (e & He & Ha).
    rewrite HE in He. destruct (decide _); by simplify_eq.
  - intros s e He. rewrite HE in He. rewrite HS. destruct (decide _); [|done]. simplify_eq.
    exists NotFilled. split; [done|]. split; [by intros _ (? & ? & ?)|done].
  - intros s st Hs. rewrite HS in Hs. rewrite HE. destruct (decide _); [by eexists|done].
  - rewrite HO. intros k1 k2 v Hk. by rewrite lookup_empty in Hk.
Qed.
Lemma init_cinv c n content : Cache.initialize c n →
  cinv (CacheSys.mkState c (AsyncDisk.mkState ∅ ∅ content)) (λ a, content !! a).
Proof.
  intros Hi. assert (W := init_wf _ _ Hi). destruct Hi as (HE & HS & HL & HO).
  assert (HN : ∀ k e, Cache.entries c !! k = Some e → e = Empty).
  { intros k e He. rewrite HE in He. destruct (decide _); by simplify_eq. }
  constructor; cbn; try done.
  - intros id k. by rewrite HO, lookup_empty.
  - intros k a d He%HN. done.
  - intros k a d He%HN. done.
  - intros k e He [[a ->]|Hs]; [by apply HN in He|]. rewrite HS in Hs. by destruct (decide _).
Qed.

(** ** All steps *)
Ltac cache_cases H :=
  destruct H as [[? H]|[[? H]|[H|[H|[H|[H|[[? H]|[H|H]]]]]]]].
Lemma next_internal_inv b c c' : Cache.next b c c' Cache.Internal →
  (∃ m, Cache.reserve c c' Cache.Internal m) ∨ (∃ X, Cache.evict c c' Cache.Internal X) ∨ c' = c.
Proof.
  intros H. cache_cases H; try (by destruct H as (? & ? & _)); try (by destruct H as (? & ? & ? & _)); eauto.
  - by destruct H as [_ ->]; auto.
Qed.
Lemma next_access_inv b c c' r w : Cache.next b c c' (Cache.Access r w) → Cache.access c c' (Cache.Access r w).
Proof.
  intros H. cache_cases H; try done; try (by destruct H as (? & ? & _)); try (by destruct H as (? & _)).
Qed.
Lemma next_check_inv b c c' X : Cache.next b c c' (Cache.EvictableCheck X) →
  ∀ a s, a ∈ X → Cache.lookup_map c !! a = Some s →
    (∃ a' d, Cache.entries c !! s = Some (Filled a' d)) ∧ Cache.status_map c !! s = Some Clean.
Proof.
  intros H. cache_cases H; try done; try (by destruct H as (? & ? & _)); try (by destruct H as (? & _)).
  - by destruct H as (? & ? & ? & _).
  - by destruct H as (X' & [= <-] & H & _).
Qed.
Lemma next_ops_inv b c c' q r : Cache.next b c c' (Cache.DiskOps q r) →
  (∃ m, Cache.load_initiate c c' (Cache.DiskOps q r) m) ∨ Cache.load_complete c c' (Cache.DiskOps q r) ∨
  Cache.writeback_initiate b c c' (Cache.DiskOps q r) ∨ Cache.writeback_complete c c' (Cache.DiskOps q r).
Proof.
  intros H. cache_cases H; eauto; try (by destruct H as (? & _)); try (by destruct H as (? & ? & _)).
  by destruct H as (? & ? & ? & _).
Qed.

Definition sg_next (s' : CacheSys.State) (l : CacheSys.Label) (sg : Address → option RawPage) : Address → option RawPage :=
  match l with
  | CacheSys.Access _ w => put_pages w sg
  | CacheSys.Crash => λ a, AsyncDisk.content (CacheSys.disk s') !! a
  | _ => sg
  end.
Lemma cache_step `{Geometry} n s s' l sg : cinv s sg → CacheSys.next true n s s' l → cinv s' (sg_next s' l sg).
Proof.
  intros I [Hn|[Hn|[Hn|[Hn|[Hn|Hn]]]]].
  - destruct Hn as (r & w & c' & -> & Ha & ->). apply next_access_inv in Ha. by eapply step_access.
  - by destruct Hn as (X & -> & _ & ->).
  - destruct Hn as (-> & q & r & c' & d' & Hc & Hd & ->). cbn.
    apply next_ops_inv in Hc as [[m Hc]|[Hc|[Hc|Hc]]].
    + by eapply step_load_initiate.
    + by eapply step_load_complete.
    + by eapply step_writeback_initiate.
    + by eapply step_writeback_complete.
  - destruct Hn as (-> & c' & Hc & ->). cbn. apply next_internal_inv in Hc as [[m Hc]|[[X Hc]| ->]].
    + by eapply step_reserve.
    + by eapply step_evict.
    + by destruct s.
  - destruct Hn as (-> & d' & Hd & ->). cbn. by eapply step_disk_internal.
  - destruct Hn as (-> & Hd & Hc). cbn. destruct s' as [c' d']. cbn in *.
    destruct Hd as [Hd|[[id Hd]|[[id Hd]|Hd]]].
    + by destruct Hd as (? & ? & ? & _).
    + by destruct Hd as (? & _).
    + by destruct Hd as (? & _).
    + destruct Hd as (_ & ->). by eapply (init_cinv c' n).
Qed.
(** The disk's content of a page that needs no write back is the logical content. *)
Lemma checked_disk s sg b c' X a : cinv s sg → Cache.next b (CacheSys.cache s) c' (Cache.EvictableCheck X) →
  a ∈ X → AsyncDisk.content (CacheSys.disk s) !! a = sg a.
Proof.
  intros I Hn Ha. assert (Hc := next_check_inv _ _ _ _ Hn). apply (i_disk _ _ I).
  intros (k & d & He & Hs). assert (W := i_wf _ _ I).
  destruct (Hc a k Ha) as [_ Hcl]; [apply (w_lookup _ W); by eapply slot_for_filled|].
  destruct Hs; congruence.
Qed.
(** A step changes the disk's content of a page only to its logical content. *)
Lemma content_step `{Geometry} n s s' l sg a : cinv s sg → CacheSys.next true n s s' l →
  AsyncDisk.content (CacheSys.disk s') !! a = AsyncDisk.content (CacheSys.disk s) !! a ∨
  l = CacheSys.Internal ∧ AsyncDisk.content (CacheSys.disk s') !! a = sg a.
Proof.
  intros I [Hn|[Hn|[Hn|[Hn|[Hn|Hn]]]]].
  - destruct Hn as (r & w & c' & -> & Ha & ->). by left.
  - destruct Hn as (X & -> & _ & ->). by left.
  - destruct Hn as (-> & q & r & c' & d' & Hc & Hd & ->). apply disk_ops_pure in Hd as (_ & _ & _ & ->). by left.
  - destruct Hn as (-> & c' & Hc & ->). by left.
  - destruct Hn as (-> & d' & Hd & ->). destruct Hd as [Hd|[[id Hd]|[[id Hd]|Hd]]].
    + by destruct Hd as (? & ? & ? & _).
    + destruct Hd as (_ & ? & ? & _ & _ & _ & ->). by left.
    + destruct Hd as (_ & b & d & Hq & _ & ->). cbn. destruct (decide (b = a)) as [->|Hne].
      * right. split; [done|]. rewrite lookup_insert. symmetry.
        destruct (i_req _ _ I _ _ Hq) as (k & _ & He & Hs). apply (i_dirty _ _ I _ _ _ He). congruence.
      * left. by rewrite lookup_insert_ne.
    + by destruct Hd as (? & _).
  - destruct Hn as (-> & Hd & Hc). left. destruct Hd as [Hd|[[id Hd]|[[id Hd]|Hd]]].
    + by destruct Hd as (? & ? & ? & _).
    + by destruct Hd as (? & _).
    + by destruct Hd as (? & _).
    + destruct Hd as (_ & Heq). by rewrite Heq.
Qed.

(** ** Where the content of a page comes from *)
Definition from (L : nat → Prop) (c0 : gmap Address RawPage) (tr : trace) (j : nat) (a : Address) (o : option RawPage) : Prop :=
  (c0 !! a = o ∧ ∀ k d', k < j → writes_at tr k a d' → L k) ∨
  (∃ i d, o = Some d ∧ i < j ∧ writes_at tr i a d ∧ ∀ k d', i < k < j → writes_at tr k a d' → L k).
Definition lost_or_unchecked (tr : trace) (a : Address) (k j : nat) : Prop :=
  may_be_lost tr a k j ∨ ∀ m, k < m < j → ¬ checked_at tr m a.

Lemma writes_app tr e k a d : k < length tr → writes_at (tr ++ [e]) k a d ↔ writes_at tr k a d.
Proof. intros Hk. unfold writes_at. by rewrite lookup_app_l. Qed.
Lemma checked_app tr e k a : k < length tr → checked_at (tr ++ [e]) k a ↔ checked_at tr k a.
Proof. intros Hk. unfold checked_at. by rewrite lookup_app_l. Qed.
Lemma lost_app tr e a k : may_be_lost tr a k (length tr) → may_be_lost (tr ++ [e]) a k (length (tr ++ [e])).
Proof.
  intros (c & Hc & Hcr & Hm). exists c. rewrite app_length. cbn. split; [lia|]. split; [by rewrite lookup_app_l by lia|].
  intros m Hm'. rewrite checked_app by lia. by apply Hm.
Qed.
Lemma from_app (L L' : nat → Prop) c0 tr e a o :
  from L c0 tr (length tr) a o → (∀ k, k < length tr → L k → L' k) →
  (∀ d, writes_at (tr ++ [e]) (length tr) a d → L' (length tr)) →
  from L' c0 (tr ++ [e]) (length (tr ++ [e])) a o.
Proof.
  intros Hf HL Hn. rewrite app_length. cbn. destruct Hf as [[Hc Hk]|(i & d & -> & Hi & Hw & Hk)].
  - left. split; [done|]. intros k d' Hk' Hw. destruct (decide (k < length tr)) as [Hl|Hl].
    + rewrite writes_app in Hw by done. eauto.
    + assert (k = length tr) as -> by lia. eauto.
  - right. exists i, d. split; [done|]. split; [lia|]. split; [by apply writes_app|].
    intros k d' Hk' Hw'. destruct (decide (k < length tr)) as [Hl|Hl].
    + rewrite writes_app in Hw' by done. apply HL; [done|]. apply (Hk _ d'); [lia|done].
    + assert (k = length tr) as -> by lia. eauto.
Qed.
Lemma writes_last tr e a d : writes_at (tr ++ [e]) (length tr) a d →
  ∃ r w, e = CacheSys.Access r w ∧ w !! a = Some d.
Proof.
  intros (r & w & Hl & Hw). rewrite lookup_app_r, Nat.sub_diag in Hl by lia. injection Hl as ->. eauto.
Qed.
Lemma from_new L c0 tr r w a d : w !! a = Some d →
  from L c0 (tr ++ [CacheSys.Access r w]) (length (tr ++ [CacheSys.Access r w])) a (Some d).
Proof.
  intros Hw. right. exists (length tr), d. rewrite app_length. cbn. split; [done|]. split; [lia|]. split.
  - exists r, w. by rewrite lookup_app_r, Nat.sub_diag by lia.
  - intros k d' Hk. lia.
Qed.
Lemma from_mono (L L' : nat → Prop) c0 tr j a o : from L c0 tr j a o → (∀ k, k < j → L k → L' k) → from L' c0 tr j a o.
Proof.
  intros [[Hc Hk]|(i & d & -> & Hi & Hw & Hk)] HL.
  - left. split; [done|]. eauto.
  - right. exists i, d. do 3 (split; [done|]). intros k d' Hk' Hw'. apply HL; [lia|]. by eapply Hk.
Qed.

Definition ginv c0 tr (s : CacheSys.State) (sg : Address → option RawPage) : Prop :=
  cinv s sg ∧
  (∀ a, from (λ k, may_be_lost tr a k (length tr)) c0 tr (length tr) a (sg a)) ∧
  (∀ a, from (λ k, lost_or_unchecked tr a k (length tr)) c0 tr (length tr) a (AsyncDisk.content (CacheSys.disk s) !! a)).

Lemma unchecked_app tr e a k : (∀ X, e = CacheSys.EvictableCheck X → a ∉ X) → k < length tr →
  lost_or_unchecked tr a k (length tr) → lost_or_unchecked (tr ++ [e]) a k (length (tr ++ [e])).
Proof.
  intros He Hk [H|H]; [left; by apply lost_app|]. right. rewrite app_length. cbn. intros m Hm Hc.
  destruct (decide (m < length tr)).
  - rewrite checked_app in Hc by done. exact (H m ltac:(lia) Hc).
  - assert (m = length tr) as -> by lia. destruct Hc as (X & HX & Ha).
    rewrite lookup_app_r, Nat.sub_diag in HX by lia. injection HX as ->. by eapply He.
Qed.
Lemma lost_last tr e a : lost_or_unchecked (tr ++ [e]) a (length tr) (length (tr ++ [e])).
Proof. right. rewrite app_length. cbn. lia. Qed.

Lemma ginv_step `{Geometry} n c0 tr s sg s' l : ginv c0 tr s sg → CacheSys.next true n s s' l →
  ginv c0 (tr ++ [l]) s' (sg_next s' l sg).
Proof.
  intros (I & HA & HB) Hn. assert (I' := cache_step _ _ _ _ _ I Hn).
  (* the content, when the event does not check the page *)
  assert (HC : ∀ a, (∀ X, l = CacheSys.EvictableCheck X → a ∉ X) →
    from (λ k, lost_or_unchecked (tr ++ [l]) a k (length (tr ++ [l]))) c0 (tr ++ [l]) (length (tr ++ [l])) a
      (AsyncDisk.content (CacheSys.disk s) !! a)).
  { intros a Hl. eapply from_app; [exact (HB a)| |].
    - intros k Hk. by apply unchecked_app.
    - intros d _. apply lost_last. }
  assert (HA' : (∀ r w, l ≠ CacheSys.Access r w) → ∀ a,
    from (λ k, may_be_lost (tr ++ [l]) a k (length (tr ++ [l]))) c0 (tr ++ [l]) (length (tr ++ [l])) a (sg a)).
  { intros Hl a. eapply from_app; [exact (HA a)| |].
    - intros k Hk. by apply lost_app.
    - intros d (r & w & -> & _)%writes_last. by edestruct Hl. }
  split; [done|]. split.
  - destruct l as [r w|X| |]; cbn [sg_next]; try (by apply HA').
    + intros a. unfold put_pages. destruct (w !! a) as [d|] eqn:Hw.
      * by apply from_new.
      * eapply from_app; [exact (HA a)| |].
        -- intros k Hk. by apply lost_app.
        -- intros d (r' & w' & [= <- <-] & Hw')%writes_last. congruence.
    + intros a. destruct (content_step _ _ _ _ _ a I Hn) as [Hc|[Hc _]]; [|done]. rewrite Hc.
      eapply from_app; [exact (HB a)| |].
      * intros k Hk [Hl|Hl]; [by apply lost_app|]. exists (length tr). rewrite app_length. cbn. split; [lia|].
        split; [by rewrite lookup_app_r, Nat.sub_diag by lia|].
        intros m Hm. rewrite checked_app by lia. by apply Hl.
      * intros d (r & w & ? & _)%writes_last. done.
  - intros a. destruct (content_step _ _ _ _ _ a I Hn) as [Hc|[-> Hc]]; rewrite Hc.
    + destruct l as [r w|X| |]; try (apply HC; by intros).
      destruct (decide (a ∈ X)) as [Ha|Ha]; [|apply HC; by intros Y [= <-]].
      assert (Heq : AsyncDisk.content (CacheSys.disk s) !! a = sg a).
      { destruct Hn as [Hn|[Hn|[Hn|[Hn|[Hn|Hn]]]]].
        - by destruct Hn as (? & ? & ? & ? & _).
        - destruct Hn as (X' & [= <-] & Hn & _). by eapply checked_disk.
        - by destruct Hn as [? _].
        - by destruct Hn as [? _].
        - by destruct Hn as [? _].
        - by destruct Hn as [? _]. }
      rewrite Heq. eapply from_mono; [apply HA'; by intros|]. intros k _ Hl. by left.
    + eapply from_mono; [apply HA'; by intros|]. intros k _ Hl. by left.
Qed.

Lemma ginv_run `{Geometry} n c0 s0 tr s : CacheSys.init n s0 c0 → run (CacheSys.next true n) s0 tr s →
  ∃ sg, ginv c0 tr s sg.
Proof.
  intros [Hi Hd] Hr. induction Hr as [s|s ls s1 l s2 Hr IH Hn].
  - exists (λ a, c0 !! a). destruct s as [c d]. cbn in *. subst d. split; [by eapply init_cinv|].
    split; intros a; left; split; try done; intros; cbn in *; lia.
  - destruct (IH Hi Hd) as [sg Hg]. eexists. by eapply ginv_step.
Qed.

(** A prefix of the events decides what is said about it. *)
Lemma may_hold_app c0 tr e a o :
  from (λ k, may_be_lost tr a k (length tr)) c0 tr (length tr) a o →
  ∀ tr2, tr2 = tr ++ e →
  match o with Some d => may_hold c0 tr2 (length tr) a d | None => may_be_unwritten c0 tr2 (length tr) a end.
Proof.
  intros Hf tr2 ->.
  assert (HW : ∀ k d, k < length tr → writes_at (tr ++ e) k a d → writes_at tr k a d).
  { intros k d Hk. unfold writes_at. by rewrite lookup_app_l. }
  assert (HL : ∀ k, may_be_lost tr a k (length tr) → may_be_lost (tr ++ e) a k (length tr)).
  { intros k (c & Hc & Hcr & Hm). exists c. split; [done|]. split; [by rewrite lookup_app_l by lia|].
    intros m Hm' (X & HX & Ha). apply (Hm m Hm'). exists X. rewrite lookup_app_l in HX by lia. done. }
  destruct Hf as [[Hc Hk]|(i & d & -> & Hi & Hw & Hk)].
  - destruct o as [d|]; [left|]; (split; [done|]); eauto.
  - right. exists i. split; [done|]. split.
    + destruct Hw as (r & w & Hl & Hw). exists r, w. by rewrite lookup_app_l.
    + intros k d' Hk' Hw'. apply HL, (Hk _ d'); [done|]. apply HW; [lia|done].
Qed.

Lemma cache_reads `{Geometry} n c0 s0 tr s j reads writes a d :
  CacheSys.init n s0 c0 → run (CacheSys.next true n) s0 tr s →
  tr !! j = Some (CacheSys.Access reads writes) → reads !! a = Some d →
  may_hold c0 tr j a d ∨ may_be_unwritten c0 tr j a.
Proof.
  intros Hi Hr Hj Ha.
  destruct (run_at _ _ _ _ _ _ Hr Hj) as (s1 & s2 & Hr1 & Hn).
  rewrite <- (take_drop_middle _ _ _ Hj).
  destruct (ginv_run _ _ _ _ _ Hi Hr1) as (sg & I & HA & _).
  assert (Hlen : length (take j tr) = j) by (apply lookup_lt_Some in Hj; rewrite take_length; lia).
  assert (Hf := may_hold_app _ _ (CacheSys.Access reads writes :: drop (S j) tr) _ _ (HA a) _ eq_refl).
  rewrite Hlen in Hf.
  destruct Hn as [Hn|[Hn|[Hn|[Hn|[Hn|Hn]]]]]; try (by destruct Hn as [? _]).
  - destruct Hn as (r & w & c' & [= <- <-] & Hn & _). apply next_access_inv in Hn.
    destruct (step_access _ _ _ _ _ I Hn) as [_ Hrd]. specialize (Hrd _ _ Ha).
    destruct (sg a) as [d'|] eqn:Hs; [|by right]. left. by rewrite (Hrd _ eq_refl).
  - by destruct Hn as (? & ? & _).
Qed.

(** Without crashes a read returns the latest write. *)
Lemma page_after_snoc c0 tr e a : page_after c0 (tr ++ [e]) a =
  match e with
  | CacheSys.Access _ w => match w !! a with Some d => Some d | None => page_after c0 tr a end
  | _ => page_after c0 tr a
  end.
Proof. unfold page_after. by rewrite fold_left_app. Qed.
Lemma calm_run `{Geometry} n c0 s0 tr s : CacheSys.init n s0 c0 → run (CacheSys.next true n) s0 tr s →
  CacheSys.Crash ∉ tr → cinv s (page_after c0 tr).
Proof.
  intros [Hi Hd] Hr. induction Hr as [s|s ls s1 l s2 Hr IH Hn]; intros Hnc.
  - destruct s as [c d]. cbn in *. subst d. by eapply init_cinv.
  - rewrite not_elem_of_app, elem_of_list_singleton in Hnc. destruct Hnc as [Hnc Hl].
    assert (I := cache_step _ _ _ _ _ (IH Hi Hd Hnc) Hn).
    assert (Heq : ∀ a, sg_next s2 l (page_after c0 ls) a = page_after c0 (ls ++ [l]) a).
    { intros a. rewrite page_after_snoc. by destruct l. }
    destruct I as [W I1 I2 I3 I4 I5 I6 I7 I8]. constructor; try done.
    + intros id r Hrr. destruct (I2 id r Hrr) as (k & Hk & Hm). exists k. split; [done|].
      destruct r; [|done]. destruct Hm as (a & Hm & Ha). exists a. split; [done|]. by rewrite <- Heq.
    + intros k a d. rewrite <- Heq. apply I5.
    + intros k a d. rewrite <- Heq. apply I6.
    + intros a. rewrite <- Heq. apply I7.
Qed.
Lemma cache_reads_calm `{Geometry} n c0 s0 tr s reads writes s' a d :
  CacheSys.init n s0 c0 → run (CacheSys.next true n) s0 tr s → CacheSys.Crash ∉ tr →
  CacheSys.next true n s s' (CacheSys.Access reads writes) → reads !! a = Some d →
  ∀ d', page_after c0 tr a = Some d' → d = d'.
Proof.
  intros Hi Hr Hc Hn Ha. assert (I := calm_run _ _ _ _ _ Hi Hr Hc).
  destruct Hn as [Hn|[Hn|[Hn|[Hn|[Hn|Hn]]]]]; try (by destruct Hn as [? _]).
  - destruct Hn as (r & w & c' & [= <- <-] & Hn & _). apply next_access_inv in Hn.
    exact (proj2 (step_access _ _ _ _ _ I Hn) _ _ Ha).
  - by destruct Hn as (? & ? & _).
Qed.

(** ** The shape of reachable states *)
Lemma reach_inv `{Geometry} n c0 s0 tr s : CacheSys.init n s0 c0 → run (CacheSys.next true n) s0 tr s → ∃ sg, cinv s sg.
Proof. intros Hi Hr. destruct (ginv_run _ _ _ _ _ Hi Hr) as (sg & I & _). eauto. Qed.

Lemma cache_slots `{Geometry} n c0 s0 tr s : CacheSys.init n s0 c0 → run (CacheSys.next true n) s0 tr s →
  (∀ a k, Cache.lookup_map (CacheSys.cache s) !! a = Some k ↔ slot_for (CacheSys.cache s) k a) ∧
  (∀ k1 k2 a, slot_for (CacheSys.cache s) k1 a → slot_for (CacheSys.cache s) k2 a → k1 = k2).
Proof.
  intros Hi Hr. destruct (reach_inv _ _ _ _ _ Hi Hr) as [sg I]. split; [apply (w_lookup _ (i_wf _ _ I))|].
  intros k1 k2 a. exact (slot_unique _ _ _ _ (i_wf _ _ I)).
Qed.
Lemma cache_writeback `{Geometry} n c0 s0 tr s id a d : CacheSys.init n s0 c0 → run (CacheSys.next true n) s0 tr s →
  AsyncDisk.requests (CacheSys.disk s) !! id = Some (WriteReq a d) →
  (∃ k, slot_holds (CacheSys.cache s) k a d) ∧
  (∀ id' d', AsyncDisk.requests (CacheSys.disk s) !! id' = Some (WriteReq a d') → id' = id).
Proof.
  intros Hi Hr Hq. destruct (reach_inv _ _ _ _ _ Hi Hr) as [sg I].
  destruct (i_req _ _ I _ _ Hq) as (k & Hk & He & _). split; [by exists k|].
  intros id' d' Hq'. destruct (i_req _ _ I _ _ Hq') as (k' & Hk' & He' & _).
  assert (k' = k) as -> by exact (slot_unique _ _ _ _ (i_wf _ _ I) (slot_for_filled _ _ _ _ He') (slot_for_filled _ _ _ _ He)).
  exact (w_inj _ (i_wf _ _ I) _ _ _ Hk' Hk).
Qed.

(** Only a clean page leaves the cache. *)
Lemma cache_evicts_clean `{Geometry} n c0 s0 tr s s' l k a d :
  CacheSys.init n s0 c0 → run (CacheSys.next true n) s0 tr s → CacheSys.next true n s s' l →
  slot_holds (CacheSys.cache s) k a d → ¬ slot_for (CacheSys.cache s') k a → l ≠ CacheSys.Crash →
  Cache.status_map (CacheSys.cache s) !! k = Some Clean ∧
  ∀ d', AsyncDisk.content (CacheSys.disk s) !! a = Some d' → d' = d.
Proof.
  intros Hi Hr Hn He Hno Hl. destruct (reach_inv _ _ _ _ _ Hi Hr) as [sg I].
  assert (W := i_wf _ _ I). unfold slot_holds in He.
  assert (Hlk : Cache.lookup_map (CacheSys.cache s) !! a = Some k)
    by (apply (w_lookup _ W); by eapply slot_for_filled).
  assert (W' := i_wf _ _ (cache_step _ _ _ _ _ I Hn)).
  assert (Hno' : Cache.lookup_map (CacheSys.cache s') !! a ≠ Some k) by (intros H'; by apply Hno, (w_lookup _ W')).
  assert (Hcl : Cache.status_map (CacheSys.cache s) !! k = Some Clean).
  { destruct Hn as [Hn|[Hn|[Hn|[Hn|[Hn|Hn]]]]].
    - destruct Hn as (r & w & c' & -> & Ha & ->). apply next_access_inv in Ha as (? & ? & _ & _ & _ & ->).
      by destruct Hno'.
    - by destruct Hn as (X & -> & _ & ->).
    - destruct Hn as (-> & q & r & c' & d' & Hc & _ & ->).
      apply next_ops_inv in Hc as [[m Hc]|[Hc|[Hc|Hc]]].
      + destruct Hc as (? & _ & _ & Hv & _ & _ & _ & inv & Hinv & ->). destruct Hno'. cbn.
        rewrite lookup_union_case. right. split; [|done].
        destruct (inv !! a) eqn:Hia; [|done]. apply (proj2 Hinv) in Hia.
        rewrite (proj1 (proj2 Hv) _ _ Hia) in Hlk. done.
      + destruct Hc as (? & _ & _ & _ & _ & ? & _ & ->). by destruct Hno'.
      + destruct Hc as (? & _ & _ & _ & _ & _ & ->). by destruct Hno'.
      + destruct Hc as (? & _ & _ & _ & _ & ->). by destruct Hno'.
    - destruct Hn as (-> & c' & Hc & ->). apply next_internal_inv in Hc as [[m Hc]|[[X Hc]| ->]].
      + destruct Hc as (_ & Hv & inv & Hinv & ->). destruct Hno'. cbn.
        rewrite lookup_union_case. right. split; [|done].
        destruct (inv !! a) eqn:Hia; [|done]. apply (proj2 Hinv) in Hia.
        rewrite (proj1 (proj2 Hv) _ _ Hia) in Hlk. done.
      + destruct Hc as (_ & _ & Hv & ->). destruct (decide (k ∈ X)) as [Hk|Hk]; [by apply Hv|].
        destruct Hno. exists (Filled a d). cbn. rewrite lookup_gset_union, decide_False by done. done.
      + by destruct Hno'.
    - destruct Hn as (-> & d' & _ & ->). by destruct Hno'.
    - by destruct Hn as [-> _]. }
  split; [done|]. intros d' Hd'. symmetry. apply (i_clean _ _ I _ _ _ He Hcl).
  rewrite <- Hd'. symmetry. apply (i_disk _ _ I). intros (k' & d2 & He' & Hs).
  assert (k' = k) as -> by exact (slot_unique _ _ _ _ W (slot_for_filled _ _ _ _ He') (slot_for_filled _ _ _ _ He)).
  destruct Hs; congruence.
Qed.
(** Every change of a page on disk writes the latest content. *)
Lemma cache_disk_changes `{Geometry} n c0 s0 tr s s' l a :
  CacheSys.init n s0 c0 → run (CacheSys.next true n) s0 tr s → CacheSys.Crash ∉ tr → CacheSys.next true n s s' l →
  AsyncDisk.content (CacheSys.disk s') !! a = AsyncDisk.content (CacheSys.disk s) !! a ∨
  AsyncDisk.content (CacheSys.disk s') !! a = page_after c0 tr a.
Proof.
  intros Hi Hr Hc Hn. destruct (content_step _ _ _ _ _ a (calm_run _ _ _ _ _ Hi Hr Hc) Hn) as [?|[_ ?]]; auto.
Qed.

(** ** Progress *)
Definition check_ok (s : CacheSys.State) (a : Address) : Prop :=
  ∀ k, Cache.lookup_map (CacheSys.cache s) !! a = Some k →
    (∃ a' d, Cache.entries (CacheSys.cache s) !! k = Some (Filled a' d)) ∧
    Cache.status_map (CacheSys.cache s) !! k = Some Clean.
(** Only slot [k] changes. *)
Definition only_slot (k : Slot) (s s' : CacheSys.State) : Prop := ∀ k', k' ≠ k →
  Cache.entries (CacheSys.cache s') !! k' = Cache.entries (CacheSys.cache s) !! k' ∧
  Cache.status_map (CacheSys.cache s') !! k' = Cache.status_map (CacheSys.cache s) !! k'.
Lemma only_slot_trans k s1 s2 s3 : only_slot k s1 s2 → only_slot k s2 s3 → only_slot k s1 s3.
Proof. intros H1 H2 k' Hk. destruct (H1 k' Hk), (H2 k' Hk). split; congruence. Qed.
Lemma only_slot_refl k s : only_slot k s s.
Proof. by intros k' _. Qed.
Section progress.
  Context `{Geometry} (b : bool) (n : SlotRange).
  Notation nx := (CacheSys.next b n).
  Definition calmly (s s' : CacheSys.State) : Prop := ∃ ls, only_internal ls ∧ run nx s ls s'.
  Lemma calmly_refl s : calmly s s.
  Proof. exists []. split; constructor. Qed.
  Lemma calmly_step s s1 s2 : nx s s1 CacheSys.Internal → calmly s1 s2 → calmly s s2.
  Proof.
    intros Hn (ls & Hi & Hr). exists (CacheSys.Internal :: ls). split; [by constructor|]. by eapply run_cons.
  Qed.
  Lemma ops_step s c' reqs resps :
    Cache.next b (CacheSys.cache s) c' (Cache.DiskOps reqs resps) →
    dom reqs ## dom (AsyncDisk.requests (CacheSys.disk s)) → dom reqs ## dom (AsyncDisk.responses (CacheSys.disk s)) →
    resps ⊆ AsyncDisk.responses (CacheSys.disk s) →
    nx s (CacheSys.mkState c' (AsyncDisk.mkState (reqs ∪ AsyncDisk.requests (CacheSys.disk s))
       (AsyncDisk.responses (CacheSys.disk s) ∖ resps) (AsyncDisk.content (CacheSys.disk s)))) CacheSys.Internal.
  Proof.
    intros Hc H1 H2 H3. right. right. left. split; [done|]. eexists reqs, resps, _, _. split; [exact Hc|].
    split; [|done]. left. eexists reqs, resps. done.
  Qed.
  Lemma disk_step_internal s d' : AsyncDisk.next (CacheSys.disk s) d' AsyncDisk.Internal →
    nx s (CacheSys.mkState (CacheSys.cache s) d') CacheSys.Internal.
  Proof. intros Hd. do 4 right. left. split; [done|]. eauto. Qed.

  Lemma finish_write s id k a d :
    AsyncDisk.responses (CacheSys.disk s) !! id = Some WriteResp →
    Cache.lookup_map (CacheSys.cache s) !! a = Some k →
    Cache.outstanding_reqs (CacheSys.cache s) !! id = Some k →
    Cache.entries (CacheSys.cache s) !! k = Some (Filled a d) →
    Cache.status_map (CacheSys.cache s) !! k = Some Writeback →
    ∃ s', nx s s' CacheSys.Internal ∧ check_ok s' a ∧
      Cache.lookup_map (CacheSys.cache s') !! a = Some k ∧ only_slot k s s'.
  Proof.
    intros Hr Hl Hk He Hs. set (resps := {[id := WriteResp]} : gmap ID DiskResponse).
    eexists. split; [|split; [|split]].
    - eapply (ops_step s _ ∅ resps).
      + do 5 right. left. exists resps. split; [done|]. split; [apply map_non_empty_singleton|]. split.
        { unfold resps. rewrite dom_singleton_L. apply singleton_subseteq_l, elem_of_dom. by eexists. }
        split; [|done]. intros id' r. unfold resps. rewrite lookup_singleton_Some. intros [<- <-].
        split; [done|]. exists k, a, d. done.
      + by rewrite dom_empty_L.
      + by rewrite dom_empty_L.
      + unfold resps. by apply map_singleton_subseteq_l.
    - intros k' Hl'. cbn in Hl'. assert (k' = k) as -> by congruence. cbn. split; [eauto|].
      rewrite lookup_gset_union, decide_True; [done|]. apply elem_of_map_values. exists id.
      apply lookup_restrict. split; [done|]. unfold resps. rewrite dom_singleton_L. set_solver.
    - cbn. done.
    - intros k' Hne. cbn. split; [done|]. rewrite lookup_gset_union, decide_False; [done|].
      intros [id' Hid]%elem_of_map_values. apply lookup_restrict in Hid as [Hid Hd]. unfold resps in Hd.
      rewrite dom_singleton_L, elem_of_singleton in Hd. subst id'. congruence.
  Qed.
  Lemma finish_write_request s id k a d : addr_wf a →
    AsyncDisk.requests (CacheSys.disk s) !! id = Some (WriteReq a d) →
    Cache.lookup_map (CacheSys.cache s) !! a = Some k →
    Cache.outstanding_reqs (CacheSys.cache s) !! id = Some k →
    Cache.entries (CacheSys.cache s) !! k = Some (Filled a d) →
    Cache.status_map (CacheSys.cache s) !! k = Some Writeback →
    ∃ s', calmly s s' ∧ check_ok s' a ∧
      Cache.lookup_map (CacheSys.cache s') !! a = Some k ∧ only_slot k s s'.
  Proof.
    intros Hwf Hq Hl Hk He Hs.
    edestruct (finish_write (CacheSys.mkState (CacheSys.cache s) (AsyncDisk.mkState
      (delete id (AsyncDisk.requests (CacheSys.disk s))) (<[id := WriteResp]> (AsyncDisk.responses (CacheSys.disk s)))
      (<[a := d]> (AsyncDisk.content (CacheSys.disk s)))))) as (s' & Hn & Hok); cbn; try done.
    { apply lookup_insert. }
    exists s'. split; [|done]. eapply calmly_step; [|eapply calmly_step; [exact Hn|apply calmly_refl]].
    apply disk_step_internal. right. right. left. exists id. split; [done|]. exists a, d. done.
  Qed.
  Lemma finish_load s id k a d :
    AsyncDisk.responses (CacheSys.disk s) !! id = Some (ReadResp d) →
    Cache.lookup_map (CacheSys.cache s) !! a = Some k →
    Cache.outstanding_reqs (CacheSys.cache s) !! id = Some k →
    Cache.entries (CacheSys.cache s) !! k = Some (Loading a) →
    ∃ s', nx s s' CacheSys.Internal ∧ check_ok s' a ∧
      Cache.lookup_map (CacheSys.cache s') !! a = Some k ∧ only_slot k s s'.
  Proof.
    intros Hr Hl Hk He. set (resps := {[id := ReadResp d]} : gmap ID DiskResponse).
    set (si := {[k := id]} : gmap Slot ID).
    assert (Hinv : inverts (restrict (Cache.outstanding_reqs (CacheSys.cache s)) (dom resps)) si).
    { unfold si, resps. rewrite dom_singleton_L. split.
      - intros id' k'. rewrite lookup_restrict. intros [Hk' ->%elem_of_singleton].
        assert (k' = k) as -> by congruence. rewrite lookup_singleton. by eexists.
      - intros k' id'. rewrite lookup_singleton_Some. intros [<- <-]. apply lookup_restrict.
        split; [done|]. set_solver. }
    eexists. split; [|split; [|split]].
    - eapply (ops_step s _ ∅ resps).
      + do 2 right. left. exists resps. split; [done|]. split; [apply map_non_empty_singleton|]. split.
        { unfold resps. rewrite dom_singleton_L. apply singleton_subseteq_l, elem_of_dom. by eexists. }
        split.
        { intros id' r. unfold resps. rewrite lookup_singleton_Some. intros [<- <-]. split; eauto. }
        exists si. split; [done|]. reflexivity.
      + by rewrite dom_empty_L.
      + by rewrite dom_empty_L.
      + unfold resps. by apply map_singleton_subseteq_l.
    - intros k' Hl'. cbn in Hl'. assert (k' = k) as -> by congruence. cbn. split.
      + exists a, d. apply lookup_union_Some_l. rewrite map_lookup_imap. unfold si.
        rewrite lookup_singleton. cbn. unfold Cache.loaded. rewrite He. unfold resps. by rewrite lookup_singleton.
      + apply lookup_union_Some_l. unfold si. by rewrite lookup_fmap, lookup_singleton.
    - cbn. done.
    - intros k' Hne. cbn. assert (Hsi : si !! k' = None) by (unfold si; by apply lookup_singleton_ne). split.
      + rewrite lookup_union_r; [done|]. rewrite map_lookup_imap, Hsi. done.
      + rewrite lookup_union_r; [done|]. rewrite lookup_fmap, Hsi. done.
  Qed.
  Lemma finish_load_request s id k a : addr_wf a →
    AsyncDisk.requests (CacheSys.disk s) !! id = Some (ReadReq a) →
    Cache.lookup_map (CacheSys.cache s) !! a = Some k →
    Cache.outstanding_reqs (CacheSys.cache s) !! id = Some k →
    Cache.entries (CacheSys.cache s) !! k = Some (Loading a) →
    ∃ s', calmly s s' ∧ check_ok s' a ∧
      Cache.lookup_map (CacheSys.cache s') !! a = Some k ∧ only_slot k s s'.
  Proof.
    intros Hwf Hq Hl Hk He. set (d := default [] (AsyncDisk.content (CacheSys.disk s) !! a)).
    edestruct (finish_load (CacheSys.mkState (CacheSys.cache s) (AsyncDisk.mkState
      (delete id (AsyncDisk.requests (CacheSys.disk s))) (<[id := ReadResp d]> (AsyncDisk.responses (CacheSys.disk s)))
      (AsyncDisk.content (CacheSys.disk s))))) as (s' & Hn & Hok); cbn; try done.
    { apply lookup_insert. }
    exists s'. split; [|done]. eapply calmly_step; [|eapply calmly_step; [exact Hn|apply calmly_refl]].
    apply disk_step_internal. right. left. exists id. split; [done|]. exists a, d. split; [done|]. split; [done|].
    split; [|done]. intros d' Hd'. unfold d. by rewrite Hd'.
  Qed.
  Lemma fresh_id (s : CacheSys.State) : ∃ id, AsyncDisk.requests (CacheSys.disk s) !! id = None ∧
    AsyncDisk.responses (CacheSys.disk s) !! id = None ∧ Cache.outstanding_reqs (CacheSys.cache s) !! id = None.
  Proof.
    set (X := dom (AsyncDisk.requests (CacheSys.disk s)) ∪ dom (AsyncDisk.responses (CacheSys.disk s)) ∪
              dom (Cache.outstanding_reqs (CacheSys.cache s)) : gset ID).
    assert (Hf := is_fresh X). exists (stdpp.base.fresh X). unfold X in *.
    rewrite !not_elem_of_union, !not_elem_of_dom in Hf. tauto.
  Qed.
  Lemma start_write s a d k : addr_wf a →
    Cache.lookup_map (CacheSys.cache s) !! a = Some k →
    Cache.entries (CacheSys.cache s) !! k = Some (Filled a d) →
    Cache.status_map (CacheSys.cache s) !! k = Some Dirty →
    ∃ s', calmly s s' ∧ check_ok s' a ∧
      Cache.lookup_map (CacheSys.cache s') !! a = Some k ∧ only_slot k s s'.
  Proof.
    intros Hwf Hl He Hs. destruct (fresh_id s) as (id & F1 & F2 & F3).
    set (reqs := {[id := WriteReq a d]} : gmap ID DiskRequest).
    set (upd := omap (λ r, Cache.lookup_map (CacheSys.cache s) !! req_addr r) reqs).
    assert (Hu : upd = {[id := k]}).
    { unfold upd, reqs. erewrite omap_singleton_Some; [done|]. exact Hl. }
    assert (HN : Cache.next b (CacheSys.cache s) (Cache.mkState (Cache.entries (CacheSys.cache s))
        (gset_to_gmap Writeback (map_values upd) ∪ Cache.status_map (CacheSys.cache s))
        (Cache.lookup_map (CacheSys.cache s)) (upd ∪ Cache.outstanding_reqs (CacheSys.cache s))) (Cache.DiskOps reqs ∅)).
    { do 4 right. left. exists reqs. split; [done|]. split; [apply map_non_empty_singleton|]. split.
      { unfold reqs. rewrite dom_singleton_L. apply disjoint_singleton_l, not_elem_of_dom. done. }
      split.
      { intros id' r. unfold reqs. rewrite lookup_singleton_Some. intros [<- <-]. eauto 10. }
      split; [|done]. intros _ i1 i2 v. unfold reqs. rewrite !lookup_singleton_Some. intros [<- _] [<- _]. done. }
    assert (HD1 : dom reqs ## dom (AsyncDisk.requests (CacheSys.disk s)))
      by (unfold reqs; rewrite dom_singleton_L; apply disjoint_singleton_l, not_elem_of_dom; done).
    assert (HD2 : dom reqs ## dom (AsyncDisk.responses (CacheSys.disk s)))
      by (unfold reqs; rewrite dom_singleton_L; apply disjoint_singleton_l, not_elem_of_dom; done).
    assert (HS := ops_step s _ reqs ∅ HN HD1 HD2 (map_empty_subseteq _)).
    match type of HS with CacheSys.next _ _ _ ?t _ =>
      edestruct (finish_write_request t id k a d Hwf) as (s' & Hc & Hok & Hl' & Hfr) end; cbn.
    { apply lookup_union_Some_l. unfold reqs. apply lookup_singleton. }
    { done. }
    { rewrite Hu. apply lookup_union_Some_l, lookup_singleton. }
    { done. }
    { rewrite lookup_gset_union, decide_True; [done|]. apply elem_of_map_values. exists id.
      rewrite Hu. apply lookup_singleton. }
    exists s'. split; [by eapply calmly_step|]. split; [done|]. split; [done|]. intros k' Hne. destruct (Hfr k' Hne) as [-> ->]. cbn.
    split; [done|]. rewrite lookup_gset_union, decide_False; [done|]. intros [id' Hid]%elem_of_map_values.
    rewrite Hu in Hid. apply lookup_singleton_Some in Hid as [_ ->]. done.
  Qed.
  Lemma start_load s a k : addr_wf a →
    Cache.lookup_map (CacheSys.cache s) !! a = None →
    Cache.entries (CacheSys.cache s) !! k = Some Empty →
    ∃ s', calmly s s' ∧ check_ok s' a ∧
      Cache.lookup_map (CacheSys.cache s') !! a = Some k ∧ only_slot k s s'.
  Proof.
    intros Hwf Hl He. destruct (fresh_id s) as (id & F1 & F2 & F3).
    set (reqs := {[id := ReadReq a]} : gmap ID DiskRequest).
    set (mapping := {[k := a]} : gmap Slot Address). set (inv := {[a := k]} : gmap Address Slot).
    assert (HN : ∃ c', Cache.next b (CacheSys.cache s) c' (Cache.DiskOps reqs ∅) ∧
      c' = Cache.mkState ((Loading <$> mapping) ∪ Cache.entries (CacheSys.cache s)) (Cache.status_map (CacheSys.cache s))
        (inv ∪ Cache.lookup_map (CacheSys.cache s))
        (omap (λ r, inv !! req_addr r) reqs ∪ Cache.outstanding_reqs (CacheSys.cache s))).
    { eexists. split; [|reflexivity]. do 1 right. left. exists mapping, reqs. split; [done|].
      split; [apply map_non_empty_singleton|]. split.
      { split; [|split].
        - intros i1 i2 v. unfold mapping. rewrite !lookup_singleton_Some. intros [<- _] [<- _]. done.
        - intros k' a'. unfold mapping. rewrite !lookup_singleton_Some. by intros [<- <-].
        - intros k' a'. unfold mapping. rewrite !lookup_singleton_Some. by intros [<- <-]. }
      split.
      { intros i1 i2 v. unfold reqs. rewrite !lookup_singleton_Some. intros [<- _] [<- _]. done. }
      split.
      { unfold reqs. rewrite dom_singleton_L. apply disjoint_singleton_l, not_elem_of_dom. done. }
      split.
      { split.
        - intros id' r. unfold reqs. rewrite lookup_singleton_Some. intros [<- <-]. eauto.
        - intros a'. unfold reqs, mapping. split.
          + intros [id' Hid]. apply lookup_singleton_Some in Hid as [_ [= ->]]. exists k. apply lookup_singleton.
          + intros [k' Hk]. apply lookup_singleton_Some in Hk as [_ ->]. exists id. apply lookup_singleton. }
      exists inv. split; [|done]. unfold inv, mapping. split.
      - intros k' v. rewrite lookup_singleton_Some. intros [<- <-]. rewrite lookup_singleton. by eexists.
      - intros v k'. rewrite !lookup_singleton_Some. intros [<- <-]. done. }
    destruct HN as (c' & HN & ->).
    assert (HD1 : dom reqs ## dom (AsyncDisk.requests (CacheSys.disk s)))
      by (unfold reqs; rewrite dom_singleton_L; apply disjoint_singleton_l, not_elem_of_dom; done).
    assert (HD2 : dom reqs ## dom (AsyncDisk.responses (CacheSys.disk s)))
      by (unfold reqs; rewrite dom_singleton_L; apply disjoint_singleton_l, not_elem_of_dom; done).
    assert (HS := ops_step s _ reqs ∅ HN HD1 HD2 (map_empty_subseteq _)).
    match type of HS with CacheSys.next _ _ _ ?t _ =>
      edestruct (finish_load_request t id k a Hwf) as (s' & Hc & Hok & Hl' & Hfr) end; cbn.
    { apply lookup_union_Some_l. unfold reqs. apply lookup_singleton. }
    { apply lookup_union_Some_l. unfold inv. apply lookup_singleton. }
    { apply lookup_union_Some_l. unfold reqs. erewrite omap_singleton_Some; [apply lookup_singleton|].
      cbn. unfold inv. apply lookup_singleton. }
    { apply lookup_union_Some_l. unfold mapping. by rewrite lookup_fmap, lookup_singleton. }
    exists s'. split; [by eapply calmly_step|]. split; [done|]. split; [done|]. intros k' Hne.
    destruct (Hfr k' Hne) as [-> ->]. cbn. split; [|done]. rewrite lookup_union_r; [done|].
    unfold mapping. by rewrite lookup_fmap, lookup_singleton_ne.
  Qed.
  Lemma check_step s a : check_ok s a → nx s s (CacheSys.EvictableCheck {[a]}).
  Proof.
    intros Hok. right. left. exists {[a]}. split; [done|]. split; [|done]. do 7 right. left.
    exists {[a]}. split; [done|]. split; [|done]. intros a' k ->%elem_of_singleton Hk. by apply Hok.
  Qed.
End progress.

(** A page that is in slot [k], not reserved, can be made clean there. *)
Lemma clean_slot `{Geometry} n s sg a k : cinv s sg → addr_wf a →
  Cache.lookup_map (CacheSys.cache s) !! a = Some k →
  Cache.entries (CacheSys.cache s) !! k ≠ Some (Reserved a) →
  ∃ s', calmly true n s s' ∧ check_ok s' a ∧
    Cache.lookup_map (CacheSys.cache s') !! a = Some k ∧ only_slot k s s'.
Proof.
  intros I Hwf Hl Hres. assert (W := i_wf _ _ I).
  assert (Hsf := Hl). apply (w_lookup _ W) in Hsf as (e & He & Ha).
  destruct e as [|b|b|b d]; [done|..]; cbn in Ha; injection Ha as ->.
  - done.
  - destruct (i_busy _ _ I _ _ He) as [id Hid]; [eauto|].
    destruct (i_out _ _ I _ _ Hid) as [[q Hq]|[r Hrr]].
    + destruct (i_req _ _ I _ _ Hq) as (k' & Hk' & Hm). assert (k' = k) as -> by congruence.
      destruct q as [b|b d]; [|destruct Hm; congruence]. rewrite He in Hm. injection Hm as <-.
      destruct (finish_load_request true n s id k a Hwf Hq Hl Hid He) as (s' & ? & ? & ? & ?). by exists s'.
    + destruct (i_resp _ _ I _ _ Hrr) as (k' & Hk' & Hm). assert (k' = k) as -> by congruence.
      destruct r as [d|]; [|destruct Hm as (? & ? & ? & _); congruence].
      destruct (finish_load true n s id k a d) as (s' & Hn & Hok & ? & ?); try done.
      exists s'. split; [|done]. eapply calmly_step; [done|]. apply calmly_refl.
  - destruct (filled_status _ _ _ _ W He) as (st & Hs & Hnf). destruct st; [done|..].
    + exists s. split; [apply calmly_refl|]. split; [|split; [done|apply only_slot_refl]].
      intros k' Hk'. assert (k' = k) as -> by congruence. eauto.
    + by apply (start_write true n s a d k).
    + destruct (i_busy _ _ I _ _ He) as [id Hid]; [by right|].
      destruct (i_out _ _ I _ _ Hid) as [[q Hq]|[r Hrr]].
      * destruct (i_req _ _ I _ _ Hq) as (k' & Hk' & Hm). assert (k' = k) as -> by congruence.
        destruct q as [b|b d']; [congruence|]. destruct Hm as [Hm _]. rewrite He in Hm. injection Hm as <- <-.
        by apply (finish_write_request true n s id k a d).
      * destruct (i_resp _ _ I _ _ Hrr) as (k' & Hk' & Hm). assert (k' = k) as -> by congruence.
        destruct r as [d'|]; [destruct Hm as (? & ? & _); congruence|].
        destruct (finish_write true n s id k a d) as (s' & Hn & Hok & ? & ?); try done.
        exists s'. split; [|done]. eapply calmly_step; [done|]. apply calmly_refl.
Qed.
Lemma cache_can_clean `{Geometry} n c0 s0 tr s a :
  CacheSys.init n s0 c0 → run (CacheSys.next true n) s0 tr s → addr_wf a →
  (∀ k, Cache.entries (CacheSys.cache s) !! k ≠ Some (Reserved a)) →
  ∃ ls s', only_internal ls ∧ run (CacheSys.next true n) s ls s' ∧
    CacheSys.next true n s' s' (CacheSys.EvictableCheck {[a]}).
Proof.
  intros Hi Hr Hwf Hres. destruct (reach_inv _ _ _ _ _ Hi Hr) as [sg I]. assert (W := i_wf _ _ I).
  cut (∃ s', calmly true n s s' ∧ check_ok s' a).
  { intros (s' & (ls & Hl & Hrr) & Hok). exists ls, s'. split; [done|]. split; [done|]. by apply check_step. }
  destruct (Cache.lookup_map (CacheSys.cache s) !! a) as [k|] eqn:Hl; cycle 1.
  { exists s. split; [apply calmly_refl|]. intros k Hk. congruence. }
  destruct (clean_slot n s sg a k I Hwf Hl (Hres k)) as (s' & ? & ? & _). by exists s'.
Qed.
(** Reading alone changes nothing. *)
Lemma read_step `{Geometry} b n s reads :
  (∀ a d, reads !! a = Some d → Cache.valid_read (CacheSys.cache s) a d) →
  CacheSys.next b n s s (CacheSys.Access reads ∅).
Proof.
  intros Hv. left. exists reads, ∅, (CacheSys.cache s). split; [done|]. split; [|by destruct s].
  do 3 right. left. exists reads, ∅. split; [done|]. split; [done|].
  split; [intros b' d0 Hb; by rewrite lookup_empty in Hb|].
  assert (Hws : map_values (restrict (Cache.lookup_map (CacheSys.cache s)) (dom (∅ : gmap Address RawPage))) = ∅).
  { apply set_eq. intros x. rewrite elem_of_map_values. split; [|set_solver]. intros [y Hy].
    apply lookup_restrict in Hy as [_ Hy]. set_solver. }
  cbv zeta. rewrite Hws. assert (Hg : gset_to_gmap Dirty (∅ : gset Slot) = ∅) by apply gset_to_gmap_empty.
  rewrite Hg, (left_id_L ∅ (∪)).
  assert (Hm : map_imap (Cache.written ∅ ∅) (Cache.entries (CacheSys.cache s)) = ∅).
  { apply map_eq. intros x. rewrite map_lookup_imap, lookup_empty.
    destruct (Cache.entries (CacheSys.cache s) !! x); [|done]. cbn. unfold Cache.written.
    by rewrite decide_False by set_solver. }
  rewrite Hm, (left_id_L ∅ (∪)). by destruct (CacheSys.cache s).
Qed.
Lemma cache_can_load `{Geometry} n c0 s0 tr s a k :
  CacheSys.init n s0 c0 → run (CacheSys.next true n) s0 tr s → addr_wf a →
  (∀ k', ¬ slot_for (CacheSys.cache s) k' a) → slot_empty (CacheSys.cache s) k →
  ∃ ls s' d, only_internal ls ∧ run (CacheSys.next true n) s ls s' ∧
    CacheSys.next true n s' s' (CacheSys.Access {[a := d]} ∅).
Proof.
  intros Hi Hr Hwf Hno He. destruct (reach_inv _ _ _ _ _ Hi Hr) as [sg I]. assert (W := i_wf _ _ I).
  destruct (start_load true n s a k Hwf) as (s' & (ls & Hl & Hrr) & Hok & Hlk & _); [|done|].
  { destruct (Cache.lookup_map (CacheSys.cache s) !! a) as [k'|] eqn:Hk; [|done].
    apply (w_lookup _ W) in Hk. by destruct (Hno k'). }
  destruct (Hok _ Hlk) as [(a' & d & He') _].
  exists ls, s', d. split; [done|]. split; [done|]. apply read_step.
  intros b d0 [<- <-]%lookup_singleton_Some. exists k, a'. done.
Qed.

(** ** How many pages the cache holds *)
Open Scope Z_scope.
Definition slots_within (n : SlotRange) (c : Cache.State) : Prop :=
  ∀ k, is_Some (Cache.entries c !! k) → first_slot n ≤ k ≤ slot_max ∧ k < Z.of_nat (slots n).
Lemma init_within n c : Cache.initialize c n → slots_within n c.
Proof. intros (E & _) k [e He]. rewrite E in He. by destruct (decide _). Qed.
Lemma cache_next_within b n c c' l : slots_within n c → Cache.next b c c' l → slots_within n c'.
Proof.
  intros W H k [e He]. cut (is_Some (Cache.entries c !! k)); [by apply W|].
  assert (U : ∀ m, (∀ x, m !! k = Some x → is_Some (Cache.entries c !! k)) →
    (m ∪ Cache.entries c) !! k = Some e → is_Some (Cache.entries c !! k)).
  { intros m Hm Hu. apply lookup_union_Some_raw in Hu as [Hu|[_ Hu]]; eauto. }
  destruct H as [[m H]|[[m H]|[H|[H|[H|[H|[[X H]|[H|H]]]]]]]].
  - destruct H as (_ & (_ & _ & Hv) & inv & _ & ->). cbn in He. apply U in He; [done|].
    intros x Hx. rewrite lookup_fmap in Hx. destruct (m !! k) eqn:Hk; [|done]. rewrite (Hv _ _ Hk). eauto.
  - destruct H as (q & _ & _ & (_ & _ & Hv) & _ & _ & _ & inv & _ & ->). cbn in He. apply U in He; [done|].
    intros x Hx. rewrite lookup_fmap in Hx. destruct (m !! k) eqn:Hk; [|done]. rewrite (Hv _ _ Hk). eauto.
  - destruct H as (r & _ & _ & _ & _ & m & _ & ->). cbn in He. apply U in He; [done|].
    intros x Hx. rewrite map_lookup_imap in Hx. destruct (m !! k) eqn:Hk; [|done]. cbn in Hx.
    unfold Cache.loaded in Hx. destruct (Cache.entries c !! k); eauto.
  - destruct H as (r & w & _ & _ & _ & ->). cbn in He. apply U in He; [done|].
    intros x Hx. rewrite map_lookup_imap in Hx. destruct (Cache.entries c !! k); eauto.
  - destruct H as (r & _ & _ & _ & _ & _ & ->). cbn in He. eauto.
  - destruct H as (r & _ & _ & _ & _ & ->). cbn in He. eauto.
  - destruct H as (_ & HX & _ & ->). cbn in He. rewrite lookup_gset_union in He.
    destruct (decide (k ∈ X)); [apply elem_of_dom; set_solver|eauto].
  - destruct H as (X & _ & _ & ->). eauto.
  - destruct H as (_ & ->). eauto.
Qed.
Lemma sys_within `{Geometry} b n s s' l : slots_within n (CacheSys.cache s) → CacheSys.next b n s s' l →
  slots_within n (CacheSys.cache s').
Proof.
  intros W [Hn|[Hn|[Hn|[Hn|[Hn|Hn]]]]].
  - destruct Hn as (r & w & c' & _ & Hn & ->). by eapply cache_next_within.
  - by destruct Hn as (X & _ & _ & ->).
  - destruct Hn as (_ & q & r & c' & d' & Hn & _ & ->). by eapply cache_next_within.
  - destruct Hn as (_ & c' & Hn & ->). by eapply cache_next_within.
  - by destruct Hn as (_ & d' & _ & ->).
  - destruct Hn as (_ & _ & Hi). by apply init_within.
Qed.
Lemma cache_capacity `{Geometry} n c0 s0 tr s X :
  CacheSys.init n s0 c0 → run (CacheSys.next true n) s0 tr s → in_cache (CacheSys.cache s) X →
  Z.of_nat (size X) ≤ Z.of_nat (slots n) `max` (first_slot n) - first_slot n.
Proof.
  intros Hi Hr HX. destruct (reach_inv _ _ _ _ _ Hi Hr) as [sg I]. assert (W := i_wf _ _ I).
  assert (HS : slots_within n (CacheSys.cache s)).
  { clear HX I W sg. induction Hr as [s|s ls s1 l s2 Hr IH Hn]; [apply init_within, Hi|].
    eapply sys_within; [by apply IH|done]. }
  set (f a := default 0 (Cache.lookup_map (CacheSys.cache s) !! a)).
  assert (Hf : ∀ a, a ∈ X → Cache.lookup_map (CacheSys.cache s) !! a = Some (f a)).
  { intros a Ha. destruct (HX a Ha) as [k Hk]. apply (w_lookup _ W) in Hk. unfold f. by rewrite Hk. }
  set (l := f <$> elements X).
  assert (Hnd : NoDup l).
  { apply NoDup_fmap_2_strong; [|apply NoDup_elements]. intros a b Ha Hb Hab.
    apply elem_of_elements in Ha, Hb. apply Hf in Ha, Hb. rewrite Hab in Ha.
    apply (w_lookup _ W) in Ha as (e1 & E1 & A1), Hb as (e2 & E2 & A2). congruence. }
  assert (Hsub : l ⊆+ seqZ (first_slot n) (Z.of_nat (slots n) - first_slot n)).
  { apply NoDup_submseteq; [done|]. intros k (a & -> & Ha)%elem_of_list_fmap. apply elem_of_elements in Ha.
    apply Hf, (w_lookup _ W) in Ha as (e & He & _). destruct (HS (f a)); [eauto|]. apply elem_of_seqZ. lia. }
  apply submseteq_length in Hsub. rewrite seqZ_length in Hsub. unfold l in Hsub. rewrite fmap_length in Hsub.
  change (length (elements X)) with (size X) in Hsub. lia.
Qed.
Lemma cache_capacity_zero `{Geometry} (n : nat) c0 s0 tr s X :
  CacheSys.init (from_zero n) s0 c0 → run (CacheSys.next true (from_zero n)) s0 tr s → in_cache (CacheSys.cache s) X →
  (size X ≤ n)%nat.
Proof. intros Hi Hr HX. assert (Hc := cache_capacity _ _ _ _ _ _ Hi Hr HX). cbn in Hc. lia. Qed.
Lemma cache_capacity_written `{Geometry} (n : nat) c0 s0 tr s X :
  CacheSys.init n s0 c0 → run (CacheSys.next true n) s0 tr s → in_cache (CacheSys.cache s) X →
  Z.of_nat (size X) ≤ Z.of_nat n + 2147483648.
Proof. intros Hi Hr HX. assert (Hc := cache_capacity _ _ _ _ _ _ Hi Hr HX). cbn in Hc. unfold slot_min in Hc. lia. Qed.
