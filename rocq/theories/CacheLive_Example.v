(** Concrete states of a page cache of one slot: a slot that is reserved, and a
    slot that waits for a page the disk does not have, never serve another page
    (C52). *)
From Verif Require Import Spec_Model Spec_Proof Disk_Model Cache_Model Cache_Spec Cache_Proof Cache_Live Cache_Example.
Open Scope Z_scope.

(** A slot that waits, for a write or for the disk, keeps waiting until the disk
    answers. *)
Lemma keeps_waiting b c c' l k e : Cache.next b c c' l → (∀ r w, l ≠ Cache.Access r w) →
  Cache.entries c !! k = Some e → e ≠ Empty → (∀ a d, e ≠ Filled a d) →
  (∀ q resps id a, l = Cache.DiskOps q resps → is_Some (resps !! id) → Cache.outstanding_reqs c !! id = Some k →
    e ≠ Loading a) →
  Cache.entries c' !! k = Some e.
Proof.
  intros H Hacc He Hne Hnf Hw.
  assert (Hmap : ∀ (C : Address → Entry) m, (∀ s a, m !! s = Some a → Cache.entries c !! s = Some Empty) →
    ((C <$> m) ∪ Cache.entries c) !! k = Some e).
  { intros C m Hv. rewrite lookup_union_r; [done|]. rewrite lookup_fmap. destruct (m !! k) eqn:Hk; [|done].
    apply Hv in Hk. congruence. }
  destruct H as [[m H]|[[m H]|[H|[H|[H|[H|[[X H]|[H|H]]]]]]]].
  - destruct H as (_ & (_ & _ & Hv) & inv & _ & ->). cbn. by apply Hmap.
  - destruct H as (q & _ & _ & (_ & _ & Hv) & _ & _ & _ & inv & _ & ->). cbn. by apply Hmap.
  - destruct H as (r & -> & _ & _ & Hval & m & [_ Hm] & ->). cbn. rewrite lookup_union_r; [done|].
    rewrite map_lookup_imap. destruct (m !! k) as [id|] eqn:Hk; [|done]. exfalso.
    apply Hm, lookup_restrict in Hk as [Hk Hd]. apply elem_of_dom in Hd as [x Hx].
    destruct (Hval _ _ Hx) as (_ & s & a & Hs & Ha). assert (s = k) as -> by congruence.
    eapply (Hw _ _ id a); [done|by eexists|done|congruence].
  - destruct H as (r & w & -> & _). by destruct (Hacc r w).
  - destruct H as (r & _ & _ & _ & _ & _ & ->). done.
  - destruct H as (r & _ & _ & _ & _ & ->). done.
  - destruct H as (_ & _ & Hc & ->). cbn. rewrite lookup_gset_union, decide_False; [done|].
    intros Hk. apply Hc in Hk as [(a & d & Hk) _]. rewrite He in Hk. injection Hk as ->. by eapply Hnf.
  - destruct H as (X & _ & _ & ->). done.
  - by destruct H as (_ & ->).
Qed.

Section one_slot.
  Context `{Geometry}.
  Notation nx := (CacheSys.next true (from_zero 1)).
  Implicit Types s : CacheSys.State.
  (** Slot 0 is reserved. *)
  Definition reserved0 (a : Address) s : Prop := Cache.entries (CacheSys.cache s) !! 0 = Some (Reserved a).
  Lemma reserved_step a s s' : reserved0 a s → nx s s' CacheSys.Internal → reserved0 a s'.
  Proof.
    intros Hs [Hn|[Hn|[Hn|[Hn|[Hn|Hn]]]]].
    - by destruct Hn as (r & w & c' & ? & _).
    - by destruct Hn as (X & ? & _).
    - destruct Hn as (_ & q & r & c' & d' & Hc & _ & ->). unfold reserved0. cbn. by eapply keeps_waiting.
    - destruct Hn as (_ & c' & Hc & ->). unfold reserved0. cbn. by eapply keeps_waiting.
    - by destruct Hn as (_ & d' & _ & ->).
    - by destruct Hn as (? & _).
  Qed.
  (** Slot 0 waits for a page that is not there. *)
  Definition hopeless (a : Address) s : Prop :=
    (∃ sg, cinv s sg) ∧ Cache.entries (CacheSys.cache s) !! 0 = Some (Loading a) ∧
    ∃ id, AsyncDisk.requests (CacheSys.disk s) !! id = Some (ReadReq a).
  Lemma hopeless_step a s s' : ¬ addr_wf a → hopeless a s → nx s s' CacheSys.Internal → hopeless a s'.
  Proof.
    intros Hwf ([sg I] & He & id & Hq) Hn.
    split; [exists (sg_next s' CacheSys.Internal sg); by eapply cache_step|].
    assert (Ho : Cache.outstanding_reqs (CacheSys.cache s) !! id = Some 0).
    { destruct (i_req _ _ I _ _ Hq) as (k & Hk & Hkk).
      assert (k = 0) as ->; [|done]. eapply slot_unique; [apply (i_wf _ _ I)|by apply slot_for_loading|by apply slot_for_loading]. }
    assert (Hdo : ∀ q r d', AsyncDisk.next (CacheSys.disk s) d' (AsyncDisk.DiskOps q r) →
      AsyncDisk.requests d' !! id = Some (ReadReq a) ∧ r !! id = None).
    { intros q r d' [Hd|[[i Hd]|[[i Hd]|Hd]]].
      - destruct Hd as (q' & r' & [= <- <-] & D1 & D2 & Hsub & ->). cbn. split.
        + rewrite lookup_union_r; [done|]. apply not_elem_of_dom. intros Hin. apply (D1 id Hin), elem_of_dom. by eexists.
        + destruct (r !! id) eqn:Hr; [|done]. exfalso. eapply (i_once _ _ I); [done|]. by eapply lookup_weaken.
      - by destruct Hd as (? & _).
      - by destruct Hd as (? & _).
      - by destruct Hd as (? & _). }
    destruct Hn as [Hn|[Hn|[Hn|[Hn|[Hn|Hn]]]]].
    - by destruct Hn as (r & w & c' & ? & _).
    - by destruct Hn as (X & ? & _).
    - destruct Hn as (_ & q & r & c' & d' & Hc & Hd & ->). cbn. destruct (Hdo _ _ _ Hd) as [Hq' Hr]. split; [|eauto].
      eapply keeps_waiting; try done. intros q' r' id' a' [= <- <-] [x Hx] Ho' _.
      assert (id' = id) as -> by (eapply (w_inj _ (i_wf _ _ I)); eauto). congruence.
    - destruct Hn as (_ & c' & Hc & ->). cbn. split; [|eauto]. by eapply keeps_waiting.
    - destruct Hn as (_ & d' & Hd & ->). cbn. split; [done|]. exists id.
      destruct Hd as [Hd|[[i Hd]|[[i Hd]|Hd]]].
      + by destruct Hd as (? & ? & ? & _).
      + destruct Hd as (_ & f & d & Hf & Hfw & _ & ->). cbn. rewrite lookup_delete_ne; [done|]. intros ->.
        rewrite Hq in Hf. injection Hf as <-. done.
      + destruct Hd as (_ & f & d & Hf & Hfw & ->). cbn. rewrite lookup_delete_ne; [done|]. intros ->. congruence.
      + by destruct Hd as (? & _).
    - by destruct Hn as (? & _).
  Qed.
  (** Slot 0 is the only one: if it waits, no page can be read. *)
  Lemma nothing_to_read s s' e a d : slots_within (from_zero 1) (CacheSys.cache s) →
    Cache.entries (CacheSys.cache s) !! 0 = Some e → (∀ a d, e ≠ Filled a d) →
    ¬ nx s s' (CacheSys.Access {[a := d]} ∅).
  Proof.
    intros Hw He Hnf Hn.
    assert (Hn' : Cache.valid_read (CacheSys.cache s) a d).
    { destruct Hn as [Hn|[Hn|[Hn|[Hn|[Hn|Hn]]]]].
      - destruct Hn as (r & w & c' & [= <- <-] & Ha & _). apply next_access_inv in Ha as (r & w & [= <- <-] & Hr & _).
        apply Hr, lookup_singleton.
      - by destruct Hn as (? & ? & _).
      - by destruct Hn as (? & _).
      - by destruct Hn as (? & _).
      - by destruct Hn as (? & _).
      - by destruct Hn as (? & _). }
    destruct Hn' as (k & a' & _ & Hk). destruct (Hw k) as [Hk1 Hk2]; [by eexists|]. cbn in Hk1, Hk2.
    assert (k = 0) as -> by lia. rewrite He in Hk. injection Hk as ->. by eapply Hnf.
  Qed.
  Lemma run_within s0 tr s c : CacheSys.init (from_zero 1) s0 c → run nx s0 tr s →
    slots_within (from_zero 1) (CacheSys.cache s).
  Proof.
    intros Hi Hr. induction Hr as [s|s ls s1 l s2 Hr IH Hn]; [apply init_within, Hi|].
    eapply sys_within; [by apply IH|done].
  Qed.
  Lemma internal_run (P : CacheSys.State → Prop) s ls s' :
    (∀ s1 s2, P s1 → nx s1 s2 CacheSys.Internal → P s2) → only_internal ls → run nx s ls s' → P s → P s'.
  Proof.
    intros HP Hl Hr Hs. induction Hr as [s|s ls s1 l s2 Hr IH Hn]; [done|].
    apply Forall_app in Hl as [Hl Hl1]. apply Forall_inv in Hl1 as ->. eauto.
  Qed.
End one_slot.

Lemma ex_init1 a : ∃ s0, CacheSys.init (from_zero 1) s0 c0 ∧ V a 0 s0 Empty NotFilled ∅ ∅ ∅ c0.
Proof.
  destruct (fresh_cache (from_zero 1)) as [c Hc]. exists (CacheSys.mkState c (AsyncDisk.mkState ∅ ∅ c0)). split; [done|].
  destruct Hc as (E & S & L & O). unfold V; cbn [CacheSys.cache CacheSys.disk].
  rewrite E, S, !decide_True by (unfold slot_max; vm_compute; intuition discriminate). done.
Qed.
(** Page [pg] cannot be read any more after a slot was reserved for page [other]. *)
Definition other : Address := mkAddr 1 3.
Lemma reserved_stuck : ∃ s0 s, CacheSys.init (from_zero 1) s0 c0 ∧
  run (@CacheSys.next geo true (from_zero 1)) s0 [CacheSys.Internal] s ∧ not_reserved (CacheSys.cache s) pg ∧
  ∀ ls s' s'' d, only_internal ls → run (@CacheSys.next geo true (from_zero 1)) s ls s' →
    ¬ @CacheSys.next geo true (from_zero 1) s' s'' (CacheSys.Access {[pg := d]} ∅).
Proof.
  destruct (ex_init1 other) as (s0 & Hi & W0).
  destruct (@v_reserve geo true (from_zero 1) _ _ _ _ _ _ _ _ W0) as (s1 & N1 & W1).
  assert (Hr : run (@CacheSys.next geo true (from_zero 1)) s0 [CacheSys.Internal] s1) by exact (run1 N1 run0).
  exists s0, s1. split; [done|]. split; [done|]. destruct W1 as (He & _). split.
  { intros k Hk. destruct (@run_within geo _ _ _ _ Hi Hr k) as [H1 H2]; [by eexists|]. cbn in H1, H2.
    assert (k = 0) as -> by lia. rewrite He in Hk. done. }
  intros ls s' s'' d Hl Hr'. eapply (@nothing_to_read geo s' s'' (Reserved other)); [|
    eapply (@internal_run geo (reserved0 other)); [apply reserved_step|done|done|exact He]|done].
  eapply (@run_within geo); [done|]. by eapply run_app.
Qed.
(** The same after the cache started to load a page beyond the disk. *)
Definition beyond : Address := mkAddr 4 0.
Lemma beyond_bad : ¬ @addr_wf geo beyond.
Proof. unfold addr_wf. cbn. lia. Qed.
Lemma loading_stuck : ∃ s0 s, CacheSys.init (from_zero 1) s0 c0 ∧
  run (@CacheSys.next geo true (from_zero 1)) s0 [CacheSys.Internal] s ∧ (∀ a, not_reserved (CacheSys.cache s) a) ∧
  ∀ ls s' s'' d, only_internal ls → run (@CacheSys.next geo true (from_zero 1)) s ls s' →
    ¬ @CacheSys.next geo true (from_zero 1) s' s'' (CacheSys.Access {[pg := d]} ∅).
Proof.
  destruct (ex_init1 beyond) as (s0 & Hi & W0).
  destruct (@v_load geo true (from_zero 1) _ _ _ _ _ _ _ _ 4%N W0 eq_refl eq_refl eq_refl) as (s1 & N1 & W1).
  assert (Hr : run (@CacheSys.next geo true (from_zero 1)) s0 [CacheSys.Internal] s1) by exact (run1 N1 run0).
  exists s0, s1. split; [done|]. split; [done|]. destruct W1 as (He & _ & _ & _ & Hd). split.
  { intros a k Hk. destruct (@run_within geo _ _ _ _ Hi Hr k) as [H1 H2]; [by eexists|]. cbn in H1, H2.
    assert (k = 0) as -> by lia. rewrite He in Hk. done. }
  intros ls s' s'' d Hl Hr'.
  assert (Hh : hopeless beyond s').
  { eapply (@internal_run geo (hopeless beyond)); [intros ? ?; apply hopeless_step, beyond_bad|done|exact Hr'|].
    split; [by eapply (@reach_inv geo)|]. split; [done|]. exists 4%N. rewrite Hd. cbn. apply lookup_insert. }
  destruct Hh as (_ & He' & _). eapply (@nothing_to_read geo s' s'' (Loading beyond)); [|done|done].
  eapply (@run_within geo); [done|]. by eapply run_app.
Qed.

Definition slots012 : gset Slot := {[0; 1; 2]}.
(** Three pages can be brought into a cache of three slots, one of which is dirty. *)
Lemma usable_example : ∃ s0 tr s, CacheSys.init (from_zero 3) s0 c0 ∧ run (@CacheSys.next geo true (from_zero 3)) s0 tr s ∧
  (∃ k, slot_holds (CacheSys.cache s) k pg [1%N] ∧ Cache.status_map (CacheSys.cache s) !! k = Some Dirty) ∧
  (∀ a, a ∈ three → @addr_wf geo a ∧ not_reserved (CacheSys.cache s) a) ∧
  (∀ k, k ∈ slots012 → @usable geo (CacheSys.cache s) k) ∧
  (size three ≤ size slots012)%nat.
Proof.
  destruct (fresh_cache (from_zero 3)) as [c Hc]. set (s0 := CacheSys.mkState c (AsyncDisk.mkState ∅ ∅ c0)).
  assert (Hi : CacheSys.init (from_zero 3) s0 c0) by done. destruct Hc as (E & S & L & O).
  assert (HE : ∀ k, 0 ≤ k ≤ 2 → Cache.entries (CacheSys.cache s0) !! k = Some Empty).
  { intros k Hk. cbn. rewrite E, decide_True; [done|]. unfold slot_max. cbn. lia. }
  assert (I0 : calm_inv s0) by (eapply (@reach_inv geo); [done|apply run_nil]).
  destruct (@load_slot geo (from_zero 3) s0 pg 0 I0 pg_wf) as (s1 & d & (ls & _ & R1) & H1 & S1 & O1).
  { intros k (e & He & Hg). cbn in He. rewrite E in He. destruct (decide _); [|done]. injection He as <-. done. }
  { apply HE. lia. }
  assert (R1' : run (@CacheSys.next geo true (from_zero 3)) s0 ls s1) by exact R1.
  destruct (@reach_inv geo _ _ _ _ _ Hi R1') as [sg I1]. assert (W := i_wf _ _ I1).
  assert (Hl : Cache.lookup_map (CacheSys.cache s1) !! pg = Some 0) by (apply (w_lookup _ W); by eapply slot_for_filled).
  set (w := {[pg := [1%N]]} : gmap Address RawPage).
  set (ws := map_values (restrict (Cache.lookup_map (CacheSys.cache s1)) (dom w))).
  assert (Hws : 0 ∈ ws).
  { apply elem_of_map_values. exists pg. apply lookup_restrict. split; [done|]. unfold w. rewrite dom_singleton_L. set_solver. }
  set (s2 := CacheSys.mkState (Cache.mkState
    (map_imap (Cache.written w ws) (Cache.entries (CacheSys.cache s1)) ∪ Cache.entries (CacheSys.cache s1))
    (gset_to_gmap Dirty ws ∪ Cache.status_map (CacheSys.cache s1)) (Cache.lookup_map (CacheSys.cache s1))
    (Cache.outstanding_reqs (CacheSys.cache s1))) (CacheSys.disk s1)).
  assert (N2 : @CacheSys.next geo true (from_zero 3) s1 s2 (CacheSys.Access ∅ w)).
  { left. exists ∅, w. eexists. split; [done|]. split; [|reflexivity]. do 3 right. left. exists ∅, w. split; [done|].
    split; [intros ? ? Hx; by rewrite lookup_empty in Hx|]. split; [|reflexivity].
    intros a x [<- <-]%lookup_singleton_Some. exists 0. split; [done|]. right. split; [unfold slot_holds in H1; eauto|].
    rewrite S1. done. }
  assert (E0 : Cache.entries (CacheSys.cache s2) !! 0 = Some (Filled pg [1%N])).
  { cbn. apply lookup_union_Some_l. rewrite map_lookup_imap. unfold slot_holds in H1. rewrite H1. cbn.
    unfold Cache.written. rewrite decide_True by done. reflexivity. }
  assert (E12 : ∀ k, k ≠ 0 → Cache.entries (CacheSys.cache s2) !! k =
    (if decide (0 ≤ k ≤ 2) then Some Empty else None)).
  { intros k Hk. cbn. destruct (O1 k Hk) as [Ek _].
    assert (Hk' : Cache.entries (CacheSys.cache s1) !! k = if decide (0 ≤ k ≤ 2) then Some Empty else None).
    { rewrite Ek. cbn. rewrite E. unfold slot_max. cbn. repeat destruct (decide _); try done; lia. }
    rewrite lookup_union_r; [done|]. rewrite map_lookup_imap, Hk'. destruct (decide _); [|done]. cbn.
    unfold Cache.written. by destruct (decide _). }
  exists s0, (ls ++ [CacheSys.Access ∅ w]), s2. split; [done|]. split; [by eapply run_snoc|]. split.
  { exists 0. split; [done|]. cbn. by rewrite lookup_gset_union, decide_True. }
  split; [|split; [|vm_compute; lia]].
  - intros a Ha. split.
    + unfold three in Ha. rewrite !elem_of_union, !elem_of_singleton in Ha.
      destruct Ha as [[-> | ->]| ->]; split; cbn; lia.
    + intros k Hk. destruct (decide (k = 0)) as [->|Hn]; [congruence|]. rewrite E12 in Hk by done. by destruct (decide _).
  - intros k Hk. destruct (decide (k = 0)) as [->|Hn].
    + exists (Filled pg [1%N]). split; [done|]. split; [done|]. intros a [= <-]. apply pg_wf.
    + exists Empty. rewrite E12, decide_True by (done || (unfold slots012 in Hk; rewrite !elem_of_union, !elem_of_singleton in Hk; lia)). done.
Qed.
Lemma reserved_example : ∃ s0 s, CacheSys.init (from_zero 1) s0 c0 ∧
  run (@CacheSys.next geo true (from_zero 1)) s0 [CacheSys.Internal] s ∧
  Cache.entries (CacheSys.cache s) !! 0 = Some (Reserved other).
Proof.
  destruct (ex_init1 other) as (s0 & Hi & W0).
  destruct (@v_reserve geo true (from_zero 1) _ _ _ _ _ _ _ _ W0) as (s1 & N1 & W1).
  exists s0, s1. split; [done|]. split; [exact (run1 N1 run0)|]. apply W1.
Qed.
