(** The page cache never gets stuck: any pages that fit into the slots that are
    not reserved can be brought into the cache together (C52). *)
From Verif Require Import Spec_Model Spec_Proof Disk_Model AsyncDisk_Proof Cache_Model Cache_Spec Cache_Proof.
Open Scope nat_scope.

Definition calm_inv (s : CacheSys.State) : Prop := ∃ sg, cinv s sg.
Lemma calmly_inv `{Geometry} n s s' : calm_inv s → calmly true n s s' → calm_inv s'.
Proof.
  intros Hi (ls & _ & Hr). induction Hr as [s|s ls s1 l s2 Hr IH Hn]; [done|].
  destruct (IH Hi) as [sg I]. exists (sg_next s2 l sg). by eapply cache_step.
Qed.
Lemma calmly_trans `{Geometry} b n s1 s2 s3 : calmly b n s1 s2 → calmly b n s2 s3 → calmly b n s1 s3.
Proof.
  intros (l1 & H1 & R1) (l2 & H2 & R2). exists (l1 ++ l2). split; [by apply Forall_app|]. by eapply run_app.
Qed.

(** Slots outside [L] are as they were. *)
Definition only_slots (L : list Slot) (s s' : CacheSys.State) : Prop := ∀ k, k ∉ L →
  Cache.entries (CacheSys.cache s') !! k = Cache.entries (CacheSys.cache s) !! k.
Lemma only_slots_one k s s' L : only_slot k s s' → k ∈ L → only_slots L s s'.
Proof. intros Ho Hk k' Hk'. apply Ho. by intros ->. Qed.
Lemma only_slots_trans L s1 s2 s3 : only_slots L s1 s2 → only_slots L s2 s3 → only_slots L s1 s3.
Proof. intros H1 H2 k Hk. by rewrite H2, H1. Qed.
Lemma only_slots_mono L L' s s' : only_slots L s s' → L ⊆ L' → only_slots L' s s'.
Proof. intros H1 HL k Hk. apply H1. set_solver. Qed.

(** ** One slot is emptied *)
Lemma evict_slot `{Geometry} n s k a d :
  Cache.entries (CacheSys.cache s) !! k = Some (Filled a d) → Cache.status_map (CacheSys.cache s) !! k = Some Clean →
  ∃ s', calmly true n s s' ∧ slot_empty (CacheSys.cache s') k ∧ only_slot k s s'.
Proof.
  intros He Hs. eexists. split; [|split].
  - eapply calmly_step; [|apply calmly_refl]. do 3 right. left. split; [done|]. eexists. split; [|reflexivity].
    do 6 right. left. exists {[k]}. split; [done|]. split.
    { apply singleton_subseteq_l, elem_of_dom. by eexists. }
    split; [|reflexivity]. intros k' ->%elem_of_singleton. eauto.
  - unfold slot_empty. cbn. rewrite lookup_gset_union. by rewrite decide_True by set_solver.
  - intros k' Hk'. cbn. rewrite !lookup_gset_union. by rewrite !decide_False by set_solver.
Qed.
Lemma empty_slot `{Geometry} n s k : calm_inv s → usable (CacheSys.cache s) k →
  ∃ s', calmly true n s s' ∧ slot_empty (CacheSys.cache s') k ∧ only_slot k s s'.
Proof.
  intros [sg I] (e & He & Hr & Hwf). assert (W := i_wf _ _ I).
  destruct (get_addr e) as [a|] eqn:Ha; cycle 1.
  { destruct e; try done. exists s. split; [apply calmly_refl|]. split; [done|]. apply only_slot_refl. }
  assert (Hl : Cache.lookup_map (CacheSys.cache s) !! a = Some k) by (apply (w_lookup _ W); by exists e).
  destruct (clean_slot n s sg a k I) as (s1 & C1 & Hok & Hl1 & O1); [by apply Hwf|done|by rewrite He; intros [= ->]; eapply Hr|].
  destruct (Hok k Hl1) as [(a' & d & He1) Hs1].
  destruct (evict_slot n s1 k a' d He1 Hs1) as (s2 & C2 & E2 & O2). exists s2.
  split; [by eapply calmly_trans|]. split; [done|]. by eapply only_slot_trans.
Qed.
(** A page is loaded into an empty slot. *)
Lemma load_slot `{Geometry} n s a k : calm_inv s → addr_wf a → (∀ k', ¬ slot_for (CacheSys.cache s) k' a) →
  slot_empty (CacheSys.cache s) k →
  ∃ s' d, calmly true n s s' ∧ slot_holds (CacheSys.cache s') k a d ∧
    Cache.status_map (CacheSys.cache s') !! k = Some Clean ∧ only_slot k s s'.
Proof.
  intros Hi Hwf Hno He. assert (Hi' := Hi). destruct Hi' as [sg I]. assert (W := i_wf _ _ I).
  destruct (start_load true n s a k Hwf) as (s' & C & Hok & Hlk & O); [|done|].
  { destruct (Cache.lookup_map (CacheSys.cache s) !! a) as [k'|] eqn:Hk; [|done].
    apply (w_lookup _ W) in Hk. by destruct (Hno k'). }
  destruct (Hok _ Hlk) as [(a' & d & He') Hs]. destruct (calmly_inv _ _ _ Hi C) as [sg' I'].
  apply (w_lookup _ (i_wf _ _ I')) in Hlk as (e & He2 & Ha). rewrite He' in He2. injection He2 as <-.
  injection Ha as ->. exists s', d. done.
Qed.

(** ** Many slots *)
Lemma usable_same `{Geometry} c c' k : Cache.entries c' !! k = Cache.entries c !! k → usable c k → usable c' k.
Proof. intros E (e & He & Hu). exists e. by rewrite E. Qed.
Lemma empty_slots `{Geometry} n (L : list Slot) : NoDup L → ∀ s, calm_inv s → (∀ k, k ∈ L → usable (CacheSys.cache s) k) →
  ∃ s', calmly true n s s' ∧ (∀ k, k ∈ L → slot_empty (CacheSys.cache s') k) ∧ only_slots L s s'.
Proof.
  intros Hnd. induction Hnd as [|k L Hk Hnd IH]; intros s Hi Hu.
  { exists s. split; [apply calmly_refl|]. split; [set_solver|]. by intros k _. }
  destruct (empty_slot n s k Hi) as (s1 & C1 & E1 & O1); [apply Hu; set_solver|].
  destruct (IH s1) as (s2 & C2 & E2 & O2).
  { by eapply calmly_inv. }
  { intros k' Hk'. eapply usable_same; [apply O1|apply Hu; set_solver]. by intros ->. }
  exists s2. split; [by eapply calmly_trans|]. split.
  - intros k' [->|Hk']%elem_of_cons; [|by apply E2]. unfold slot_empty. rewrite O2 by done. exact E1.
  - eapply only_slots_trans; [eapply only_slots_one; [done|set_solver]|]. eapply only_slots_mono; [done|set_solver].
Qed.
Lemma load_slots `{Geometry} n (P : list (Slot * Address)) : NoDup P.*1 → NoDup P.*2 → ∀ s, calm_inv s →
  (∀ k a, (k, a) ∈ P → addr_wf a ∧ slot_empty (CacheSys.cache s) k) →
  (∀ a k, a ∈ P.*2 → ¬ slot_for (CacheSys.cache s) k a) →
  ∃ s', calmly true n s s' ∧
    (∀ k a, (k, a) ∈ P → ∃ d, slot_holds (CacheSys.cache s') k a d ∧ Cache.status_map (CacheSys.cache s') !! k = Some Clean) ∧
    (∀ k, k ∉ P.*1 → Cache.entries (CacheSys.cache s') !! k = Cache.entries (CacheSys.cache s) !! k ∧
      Cache.status_map (CacheSys.cache s') !! k = Cache.status_map (CacheSys.cache s) !! k).
Proof.
  induction P as [|[k a] P IH]; intros Hk Ha s Hi HP Hno.
  { exists s. split; [apply calmly_refl|]. split; [set_solver|done]. }
  cbn in Hk, Ha. apply stdpp.list.NoDup_cons in Hk as [Hk1 Hk2], Ha as [Ha1 Ha2].
  destruct (HP k a) as [Hwf Hem]; [set_solver|].
  destruct (load_slot n s a k Hi Hwf) as (s1 & d & C1 & H1 & S1 & O1); [intros k'; apply Hno; set_solver|done|].
  destruct (IH Hk2 Ha2 s1) as (s2 & C2 & H2 & O2).
  { by eapply calmly_inv. }
  { intros k' a' Hin. destruct (HP k' a') as [? ?]; [set_solver|]. split; [done|].
    unfold slot_empty. destruct (O1 k') as [-> _]; [|done]. intros ->. apply Hk1, elem_of_list_fmap. by exists (k, a'). }
  { intros a' k' Hin (e & He & Hg). destruct (decide (k' = k)) as [->|Hne].
    - unfold slot_holds in H1. rewrite H1 in He. injection He as <-. injection Hg as ->. done.
    - destruct (O1 k' Hne) as [E _]. rewrite E in He. apply (Hno a' k'); [set_solver|]. by exists e. }
  exists s2. split; [by eapply calmly_trans|]. split.
  - intros k' a' [[= -> ->]|Hin]%elem_of_cons; [|by apply H2]. exists d. destruct (O2 k Hk1) as [E1 E2].
    unfold slot_holds. by rewrite E1, E2.
  - intros k' Hk'. cbn in Hk'. apply not_elem_of_cons in Hk' as [Hn1 Hn2]. destruct (O2 k' Hn2) as [-> ->]. by apply O1.
Qed.

(** Every slot is as it was, or empty, or holds a page of [X]. *)
Definition tame (X : gset Address) (s s' : CacheSys.State) : Prop := ∀ k,
  Cache.entries (CacheSys.cache s') !! k = Cache.entries (CacheSys.cache s) !! k ∨ slot_empty (CacheSys.cache s') k ∨
  ∃ a d, a ∈ X ∧ slot_holds (CacheSys.cache s') k a d.
Lemma tame_refl X s : tame X s s.
Proof. intros k. by left. Qed.
Lemma tame_reserved X s s' a : tame X s s' → not_reserved (CacheSys.cache s) a → not_reserved (CacheSys.cache s') a.
Proof.
  intros Ht Hn k Hk. destruct (Ht k) as [E|[E|(b & d & _ & E)]]; unfold slot_empty, slot_holds in *;
    rewrite Hk in E; [|done..]. symmetry in E. by apply Hn in E.
Qed.
Lemma tame_usable `{Geometry} X s s' k : tame X s s' → (∀ a, a ∈ X → addr_wf a) →
  usable (CacheSys.cache s) k → usable (CacheSys.cache s') k.
Proof.
  intros Ht HX Hu. destruct (Ht k) as [E|[E|(b & d & Hb & E)]].
  - by eapply usable_same.
  - exists Empty. done.
  - exists (Filled b d). split; [done|]. split; [done|]. intros c [= <-]. by apply HX.
Qed.
(** ** The pages of [X] *)
Lemma cache_pages `{Geometry} n s (X : gset Address) (K : gset Slot) : calm_inv s →
  (∀ a, a ∈ X → addr_wf a ∧ not_reserved (CacheSys.cache s) a) →
  (∀ k, k ∈ K → usable (CacheSys.cache s) k) → size X ≤ size K →
  ∃ s', calmly true n s s' ∧ tame X s s' ∧ ∀ a, a ∈ X → ∃ k d,
    slot_holds (CacheSys.cache s') k a d ∧ Cache.status_map (CacheSys.cache s') !! k = Some Clean.
Proof.
  intros Hi HX HK Hsz. assert (Hi' := Hi). destruct Hi' as [sg I]. assert (W := i_wf _ _ I).
  set (S := map_values (restrict (Cache.lookup_map (CacheSys.cache s)) X)).
  set (K' := K ∪ S).
  assert (HS : ∀ k, k ∈ K' → usable (CacheSys.cache s) k).
  { intros k [Hk|Hk]%elem_of_union; [by apply HK|]. apply elem_of_map_values in Hk as [a Ha].
    apply lookup_restrict in Ha as [Ha Hx]. destruct (HX a Hx) as [Hwf Hnr].
    apply (w_lookup _ W) in Ha as (e & He & Hg). exists e. split; [done|]. split.
    - intros b ->. injection Hg as ->. by eapply Hnr.
    - intros b Hb. rewrite Hg in Hb. by injection Hb as <-. }
  destruct (empty_slots n (elements K') (NoDup_elements _) s Hi) as (s1 & C1 & E1 & O1).
  { intros k Hk%elem_of_elements. by apply HS. }
  set (L := take (size X) (elements K')).
  assert (HL : length L = size X).
  { unfold L. rewrite take_length. change (length (elements K')) with (size K').
    assert (size K ≤ size K') by (apply subseteq_size; set_solver). lia. }
  assert (HL' : ∀ k, k ∈ L → k ∈ elements K') by (intros k Hk; eapply elem_of_take in Hk as (i & Hk & _); by eapply elem_of_list_lookup_2).
  destruct (load_slots n (zip L (elements X))) with (s := s1) as (s2 & C2 & H2 & O2).
  - rewrite fst_zip by (change (length (elements X)) with (size X); lia). unfold L.
    assert (Hnd := NoDup_elements K'). rewrite <- (take_drop (size X) (elements K')) in Hnd.
    by apply NoDup_app in Hnd as [? _].
  - rewrite snd_zip by (change (length (elements X)) with (size X); lia). apply NoDup_elements.
  - by eapply calmly_inv.
  - intros k a Hin. apply elem_of_zip_l in Hin as Hk. apply elem_of_zip_r in Hin as Ha.
    apply elem_of_elements in Ha. split; [by apply HX|]. by apply E1, HL'.
  - intros a k Ha (e & He & Hg). rewrite snd_zip in Ha by (change (length (elements X)) with (size X); lia).
    apply elem_of_elements in Ha. destruct (decide (k ∈ elements K')) as [Hk|Hk].
    + apply E1 in Hk. unfold slot_empty in Hk. rewrite He in Hk. injection Hk as ->. done.
    + rewrite O1 in He by done. apply Hk, elem_of_elements. unfold K'. apply elem_of_union_r.
      apply elem_of_map_values. exists a. apply lookup_restrict. split; [|done]. apply (w_lookup _ W). by exists e.
  - exists s2. split; [by eapply calmly_trans|]. split.
    { intros k. destruct (decide (k ∈ (zip L (elements X)).*1)) as [Hk|Hk].
      - right. right. apply elem_of_list_fmap in Hk as ([k' a] & -> & Hin). destruct (H2 _ _ Hin) as (d & Hd & _).
        exists a, d. split; [|done]. apply elem_of_zip_r in Hin. by apply elem_of_elements.
      - destruct (O2 k Hk) as [E2 _]. destruct (decide (k ∈ elements K')) as [Hk'|Hk'].
        + right. left. unfold slot_empty. rewrite E2. by apply E1.
        + left. rewrite E2. by apply O1. }
    intros a Ha.
    assert (Hin : a ∈ (zip L (elements X)).*2).
    { rewrite snd_zip by (change (length (elements X)) with (size X); lia). by apply elem_of_elements. }
    apply elem_of_list_fmap in Hin as ([k b] & -> & Hin). destruct (H2 _ _ Hin) as (d & Hd & Hst). exists k, d. done.
Qed.
Lemma cache_can_hold `{Geometry} n c0 s0 tr s (X : gset Address) (K : gset Slot) :
  CacheSys.init n s0 c0 → run (CacheSys.next true n) s0 tr s →
  (∀ a, a ∈ X → addr_wf a ∧ not_reserved (CacheSys.cache s) a) →
  (∀ k, k ∈ K → usable (CacheSys.cache s) k) → size X ≤ size K →
  ∃ ls s' reads, only_internal ls ∧ run (CacheSys.next true n) s ls s' ∧ dom reads = X ∧
    ∀ writes, dom writes ⊆ X → ∃ s'', CacheSys.next true n s' s'' (CacheSys.Access reads writes).
Proof.
  intros Hi0 Hr HX HK Hsz.
  assert (Hi : calm_inv s) by exact (reach_inv _ _ _ _ _ Hi0 Hr).
  destruct (cache_pages n s X K Hi HX HK Hsz) as (s' & C & _ & Hs').
  destruct (calmly_inv _ _ _ Hi C) as [sg I]. assert (W := i_wf _ _ I).
  set (f a := k ← Cache.lookup_map (CacheSys.cache s') !! a;
              match Cache.entries (CacheSys.cache s') !! k with Some (Filled _ d) => Some d | _ => None end).
  assert (Hlk : ∀ a, a ∈ X → ∃ k d, Cache.lookup_map (CacheSys.cache s') !! a = Some k ∧
    Cache.entries (CacheSys.cache s') !! k = Some (Filled a d) ∧ Cache.status_map (CacheSys.cache s') !! k = Some Clean ∧
    f a = Some d).
  { intros a Ha. destruct (Hs' a Ha) as (k & d & Hh & Hst).
    assert (Hk : Cache.lookup_map (CacheSys.cache s') !! a = Some k) by (apply (w_lookup _ W); by eapply slot_for_filled).
    exists k, d. split; [done|]. split; [done|]. split; [done|]. unfold f. rewrite Hk. cbn. by rewrite Hh. }
  set (reads := map_imap (λ a _, f a) (gset_to_gmap tt X) : gmap Address RawPage).
  assert (Hrd : ∀ a d, reads !! a = Some d ↔ a ∈ X ∧ f a = Some d).
  { intros a d. unfold reads. rewrite map_lookup_imap, lookup_gset_to_gmap, bind_Some. split.
    - intros (u & Hu & Hf). split; [|done]. destruct (decide (a ∈ X)); [done|].
      by rewrite option_guard_False in Hu.
    - intros [Ha Hf]. exists tt. split; [by rewrite option_guard_True|done]. }
  destruct C as (ls & Hint & Hrun). exists ls, s', reads. split; [done|]. split; [done|]. split.
  { apply set_eq. intros a. rewrite elem_of_dom. split.
    - intros [d Hd]. by apply Hrd in Hd as [? _].
    - intros Ha. destruct (Hlk a Ha) as (k & d & _ & _ & _ & Hf). exists d. by apply Hrd. }
  intros writes Hw. eexists. left. exists reads, writes. eexists. split; [done|]. split; [|reflexivity].
  do 3 right. left. exists reads, writes. split; [done|]. split; [|split; [|reflexivity]].
  - intros a d [Ha Hf]%Hrd. destruct (Hlk a Ha) as (k & d' & Hk & He & _ & Hf'). exists k, a. split; [done|]. congruence.
  - intros a d Hd. destruct (Hlk a) as (k & d' & Hk & He & Hst & _); [apply Hw, elem_of_dom; by eexists|].
    exists k. split; [done|]. right. split; [eauto|]. rewrite Hst. done.
Qed.
(** A reservation can be used at once. *)
Lemma cache_reserved `{Geometry} n c0 s0 tr s a k d :
  CacheSys.init n s0 c0 → run (CacheSys.next true n) s0 tr s →
  Cache.entries (CacheSys.cache s) !! k = Some (Reserved a) →
  ∃ s', CacheSys.next true n s s' (CacheSys.Access ∅ {[a := d]}) ∧ (addr_wf a → usable (CacheSys.cache s') k).
Proof.
  intros Hi Hr He. destruct (reach_inv _ _ _ _ _ Hi Hr) as [sg I]. assert (W := i_wf _ _ I).
  assert (Hl : Cache.lookup_map (CacheSys.cache s) !! a = Some k) by (apply (w_lookup _ W); by exists (Reserved a)).
  eexists. split.
  - left. exists ∅, {[a := d]}. eexists. split; [done|]. split; [|reflexivity]. do 3 right. left.
    exists ∅, {[a := d]}. split; [done|]. split; [intros ? ? Hx; by rewrite lookup_empty in Hx|]. split; [|reflexivity].
    intros b d' [<- <-]%lookup_singleton_Some. exists k. split; [done|]. left. eauto.
  - intros Hwf. exists (Filled a d). cbn. split; [|split; [done|by intros b [= <-]]].
    apply lookup_union_Some_l. rewrite map_lookup_imap, He. cbn. unfold Cache.written.
    rewrite decide_True; [cbn; by rewrite lookup_singleton|]. apply elem_of_map_values. exists a.
    apply lookup_restrict. split; [done|]. rewrite dom_singleton_L. set_solver.
Qed.
