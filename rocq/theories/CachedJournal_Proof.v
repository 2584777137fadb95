(** Proofs: the journal in the cache is the indexed journal over the newest
    content of its pages (C27). *)
From Verif Require Import Abs_Model Abs_Spec Abs_Proof Spec_Proof Journal_Model Journal_Spec Paged_Proof
  Linked_Proof AllocJournal_Model Likes_Proof Disk_Model Cache_Model Cache_Spec Cache_Proof
  CachedJournal_Model CachedJournal_Spec.
Open Scope nat_scope.

(** ** Walking the index and walking the pages *)
Lemma min_lsn_eq (X : gset nat) x : x ∈ X → (∀ y, y ∈ X → x ≤ y) → CachedJournal.min_lsn X = x.
Proof.
  intros Hx Hm. unfold CachedJournal.min_lsn.
  assert (∀ y, y ∈ elements X → x ≤ y) as Hm' by (intros y Hy; apply Hm; by apply elem_of_elements).
  apply elem_of_elements in Hx. destruct (elements X) as [|e es]; [by apply elem_of_nil in Hx|].
  clear Hm. revert Hx Hm'. generalize e. clear e. induction es as [|z es IH]; intros e Hx Hm.
  - by apply elem_of_list_singleton in Hx.
  - simpl. assert (x ≤ z) by (apply Hm; right; left). apply elem_of_cons in Hx as [->|[->|Hx]%elem_of_cons].
    + rewrite IH; [lia|by left|]. intros y Hy. apply Hm. apply elem_of_cons in Hy as [->|Hy]; [by left|by right; right].
    + clear IH. assert (∀ y, y ∈ es → z ≤ y) as Hy by (intros y ?; apply Hm; by right; right).
      assert (z ≤ e) as Hz by (apply Hm; by left). clear Hm. induction es as [|w es IH]; simpl; [lia|].
      assert (z ≤ w) by (apply Hy; by left). rewrite Nat.min_assoc, (Nat.min_l z w) by lia. apply IH.
      intros y ?. apply Hy. by right.
    + rewrite IH; [lia|by right|]. intros y Hy. apply Hm. apply elem_of_cons in Hy as [->|Hy]; [by left|by right; right].
Qed.
Lemma path_prior dv ptr l : path dv ptr l → ∀ a r p, (a, r) ∈ l →
  Linked.cropped_prior r (boundary_lsn dv) = Some p → ∃ q, (p, q) ∈ l.
Proof.
  induction 1 as [|a0 r0 l He Hp IH]; intros a r p Hin Hc; [by apply elem_of_nil in Hin|].
  apply elem_of_cons in Hin as [Heq|Hin].
  - simplify_eq. rewrite Hc in Hp. inversion Hp; subst. eexists. right. by left.
  - destruct (IH _ _ _ Hin Hc) as [q Hq]. exists q. by right.
Qed.
Lemma next_index_path s dv ptr l a r : Linked.dv_wf dv → path dv ptr l → Linked.block_in_bounds dv ptr →
  boundary_lsn dv = CachedJournal.boundary_lsn s →
  idx_ok id (CachedJournal.lsn_addr_index s) (boundary_lsn dv) l → (a, r) ∈ l →
  CachedJournal.next_index s (Some a) = Linked.cropped_prior r (boundary_lsn dv).
Proof.
  intros Hw Hp Hb Hbd Hok Hin. simpl.
  pose proof (path_chain _ _ _ Hw Hp Hb _ _ Hin) as [[Hlt _] Hne].
  pose proof (path_entries _ _ _ Hp _ _ Hin) as He.
  set (X := CachedJournal.addr_to_lsns _ _ _).
  assert (∀ k, k ∈ X ↔ boundary_lsn dv `max` seq_start (message_seq r) ≤ k < seq_end (message_seq r)) as HX.
  { intros k. unfold X, CachedJournal.addr_to_lsns. rewrite elem_of_dom. unfold is_Some.
    setoid_rewrite map_filter_lookup_Some. simpl. rewrite <- Hbd. split.
    - intros (v&Hv&Hbk&->). apply Hok in Hv as (a'&r'&Hin'&[H1 H2]&Ha). unfold id in Ha. subst a'.
      pose proof (path_entries _ _ _ Hp _ _ Hin'). simplify_eq. lia.
    - intros Hk. exists a. split; [|split; [lia|done]]. apply Hok. exists a, r. split_and!; [done|split; lia|done]. }
  assert (boundary_lsn dv `max` seq_start (message_seq r) ∈ X) as HmX by (apply HX; lia).
  rewrite decide_False by (intros Hem; rewrite Hem in HmX; by apply elem_of_empty in HmX).
  rewrite (min_lsn_eq X (boundary_lsn dv `max` seq_start (message_seq r)));
    [|done|intros y Hy; apply HX in Hy; lia].
  rewrite <- Hbd. unfold Linked.cropped_prior. case_decide as Hd.
  - assert (boundary_lsn dv < seq_start (message_seq r)) as Hs by lia. rewrite decide_True by done.
    rewrite Nat.max_r by lia. pose proof Hw as (Hew&Hnd&Hcc&Hlk).
    destruct (Hlk _ _ He Hs) as [p Hcp]. destruct (path_prior _ _ _ Hp _ _ _ Hin Hcp) as [q Hq].
    pose proof (path_entries _ _ _ Hp _ _ Hq) as Heq. pose proof (Hcc _ _ He _ _ Hcp Heq) as Hcan.
    unfold can_concat, can_follow in Hcan. pose proof (path_chain _ _ _ Hw Hp Hb _ _ Hq) as [_ Hne'].
    assert (prior_rec r = Some p) as ->.
    { unfold Linked.cropped_prior in Hcp. by rewrite decide_True in Hcp. }
    apply Hok. exists p, q. split_and!; [done|split; lia|done].
  - by rewrite decide_False by lia.
Qed.
Lemma crop_index_path s dv ptr l : Linked.dv_wf dv → path dv ptr l → Linked.block_in_bounds dv ptr →
  boundary_lsn dv = CachedJournal.boundary_lsn s →
  idx_ok id (CachedJournal.lsn_addr_index s) (boundary_lsn dv) l →
  ∀ d root l', path dv root l' → (∀ x, x ∈ l' → x ∈ l) →
    (CachedJournal.can_crop_index s root d ↔ Linked.dv_can_crop dv root d) ∧
    CachedJournal.pointer_after_crop_index s root d = Linked.pointer_after_crop dv root d.
Proof.
  intros Hw Hp Hb Hbd Hok. induction d as [|d IH]; intros root l' Hp' Hsub; [done|]. simpl.
  assert (CachedJournal.next_index s root = Linked.dv_next dv root) as ->.
  { inversion Hp' as [|a r l2 He Hp2]; subst; [done|]. rewrite (next_index_path s dv ptr l a r); try done.
    - simpl. by rewrite He.
    - apply Hsub. by left. }
  assert (∃ l2, path dv (Linked.dv_next dv root) l2 ∧ ∀ x, x ∈ l2 → x ∈ l) as (l2&Hp2&Hsub2).
  { inversion Hp' as [|a r l2 He Hp2]; subst; simpl.
    - exists []. split; [constructor|]. intros x Hx. by apply elem_of_nil in Hx.
    - rewrite He. exists l2. split; [done|]. intros x Hx. apply Hsub. by right. }
  destruct (IH _ _ Hp2 Hsub2) as [-> ->]. done.
Qed.
(** The pages that hold some number of a range of the index make a well formed view. *)
Lemma range_view_wf dv ptr l idx lo hi : Linked.dv_wf dv → path dv ptr l → Linked.block_in_bounds dv ptr →
  idx_ok id idx (boundary_lsn dv) l → boundary_lsn dv ≤ lo →
  ∀ E', (∀ a r, E' !! a = Some r ↔ a ∈ values (index_range idx lo hi) ∧ entries dv !! a = Some r) →
  Linked.dv_wf (mkDV lo E').
Proof.
  intros Hw Hp Hb Hok Hle E' HE. pose proof Hw as (Hew&Hnd&Hcc&Hlk). split_and!.
  - intros a r Ha. simpl in Ha. apply HE in Ha as [_ Ha]. by eapply Hew.
  - intros a r Ha p Hcp. simpl in *. apply HE in Ha as [Hv Ha].
    unfold Linked.cropped_prior in Hcp. case_decide as Hlo; [|done].
    assert (Linked.cropped_prior r (boundary_lsn dv) = Some p) as Hcp'.
    { unfold Linked.cropped_prior. by rewrite decide_True by lia. }
    apply elem_of_values in Hv as [k Hk]. apply lookup_index_range in Hk as [Hkr Hk].
    apply Hok in Hk as (a'&r'&Hin&[H1 H2]&Heq). unfold id in Heq. subst a'.
    pose proof (path_entries _ _ _ Hp _ _ Hin). simplify_eq.
    destruct (path_prior _ _ _ Hp _ _ _ Hin Hcp') as [q Hq].
    pose proof (path_entries _ _ _ Hp _ _ Hq) as Heq. pose proof (Hcc _ _ Ha _ _ Hcp' Heq) as Hcan.
    unfold can_concat, can_follow in Hcan. pose proof (path_chain _ _ _ Hw Hp Hb _ _ Hq) as [_ Hne'].
    exists q. apply HE. split; [|done]. apply elem_of_values. exists (seq_start (message_seq r) - 1).
    apply lookup_index_range. split; [lia|]. apply Hok. exists p, q. split_and!; [done|split; lia|done].
  - intros a r Ha p q Hcp Hq. simpl in *. apply HE in Ha as [_ Ha]. apply HE in Hq as [_ Hq].
    eapply Hcc; [exact Ha| |exact Hq]. unfold Linked.cropped_prior in *. case_decide as Hlo; [|done].
    by rewrite decide_True by lia.
  - intros a r Ha Hlo. simpl in *. apply HE in Ha as [_ Ha].
    assert (boundary_lsn dv < seq_start (message_seq r)) as Hs by lia. destruct (Hlk _ _ Ha Hs) as [p Hcp].
    exists p. unfold Linked.cropped_prior in *. rewrite decide_True in Hcp by done. by rewrite decide_True.
Qed.
Lemma build_reads_path reads bdy ptr l : Linked.dv_wf (mkDV bdy reads) → path (mkDV bdy reads) ptr l →
  Linked.block_in_bounds (mkDV bdy reads) ptr →
  ∀ n, Linked.dv_seq_end (mkDV bdy reads) ptr < n →
  CachedJournal.build_from_reads_fuel n reads bdy ptr (Linked.dv_seq_end (mkDV bdy reads) ptr) = idx_of id bdy l.
Proof.
  intros Hw Hp. induction Hp as [|a r l He Hp IH]; intros Hb n Hn.
  - simpl. by destruct n.
  - destruct n as [|n]; [lia|]. simpl in *. rewrite He in Hn |- *.
    pose proof Hw as (Hew&Hnd&Hcc&Hlk). destruct (Hew _ _ He) as [[Hrw _] Hne]. unfold mh_is_empty in Hne.
    destruct Hb as [Hbn Hbb]. pose proof (Hbb _ _ eq_refl He) as Hlt. simpl in Hlt.
    rewrite decide_True by lia. unfold id at 1. f_equal.
    destruct (Linked.cropped_prior r bdy) as [p|] eqn:Ecp.
    + destruct (Hnd _ _ He p Ecp) as [q Hq]. pose proof (Hcc _ _ He _ _ Ecp Hq) as Hcan.
      unfold can_concat, can_follow in Hcan. simpl in Hq. rewrite ?Ecp in IH. simpl in IH. rewrite Hq in IH.
      assert (bdy < seq_start (message_seq r)) as Hs.
      { unfold Linked.cropped_prior in Ecp. by case_decide. }
      rewrite Nat.max_r by lia. rewrite Hcan. apply IH.
      * split; [intros ? [= <-]; simpl; by eexists|]. intros ? ? [= <-] Hx. simpl in *. simplify_eq. lia.
      * lia.
    + rewrite ?Ecp in Hp. inversion Hp; subst. by destruct n.
Qed.

(** ** The newest content of the pages *)
Lemma page_now_sg st sg a d : cinv st sg → page_now st a d ↔ sg a = Some d.
Proof.
  intros I. assert (W := i_wf _ _ I). split.
  - intros [[k [He Hs]]|[Hn Hc]].
    + apply (i_dirty _ _ I _ _ _ He). destruct Hs; congruence.
    + rewrite <- (i_disk _ _ I a); [done|]. intros (k&d'&He&Hs). apply Hn. exists k, d'. by split.
  - intros Hs. destruct (Cache.lookup_map (CacheSys.cache st) !! a) as [k|] eqn:Hk.
    + apply (w_lookup _ W) in Hk as (e&He&Ha). destruct e as [|a'|a'|a' d']; simpl in Ha; simplify_eq.
      1,2: right; split; [|rewrite (i_disk _ _ I a); [done|]];
        intros (k'&d'&He'&_); assert (k = k') as <- by
          (eapply (slot_unique _ _ _ a W); eexists; split; [exact He|done|exact He'|done]); congruence.
      destruct (Cache.status_map (CacheSys.cache st) !! k) as [s|] eqn:Hst.
      2: { destruct (w_status _ W _ _ He) as (s&Hs'&_). congruence. }
      assert ((s = Dirty ∨ s = Writeback) ∨ ¬ (s = Dirty ∨ s = Writeback)) as [Hd|Hd]
        by (destruct s; intuition congruence).
      * left. exists k. assert (sg a = Some d') as Hsd by (apply (i_dirty _ _ I _ _ _ He); destruct Hd; congruence).
        rewrite Hs in Hsd. simplify_eq. split; [done|]. destruct Hd as [->| ->]; auto.
      * right. assert (¬ is_dirty (CacheSys.cache st) a) as Hnd.
        { intros (k'&d2&He'&Hs'). assert (k = k') as <- by
            (eapply (slot_unique _ _ _ a W); eexists; split; [exact He|done|exact He'|done]).
          destruct Hs'; rewrite Hst in *; simplify_eq; tauto. }
        split; [intros (k'&d2&Hu); apply Hnd; exists k', d2; exact Hu|]. by rewrite (i_disk _ _ I a).
    + right. assert (∀ k d', Cache.entries (CacheSys.cache st) !! k ≠ Some (Filled a d')) as Hno.
      { intros k d' He. assert (Cache.lookup_map (CacheSys.cache st) !! a = Some k) as Hk'
          by (apply (w_lookup _ W); by eexists). congruence. }
      split; [intros (k&d'&He&_); by eapply Hno|]. rewrite (i_disk _ _ I a); [done|].
      intros (k&d'&He&_). by eapply Hno.
Qed.

(** ** The cached journal over a given set of pages *)
Definition lk (j : CachedJournal.State) (E : gmap Address JournalRecord) : Likes.State :=
  Likes.mkState (Linked.mkState (mkTJ (CachedJournal.freshest_rec j) (mkDV (CachedJournal.boundary_lsn j) E))
                                (CachedJournal.unmarshalled_tail j))
                (CachedJournal.lsn_addr_index j).
Notation jdv j E := (mkDV (CachedJournal.boundary_lsn j) E).
Lemma in_path_index dv ptr l idx : Linked.dv_wf dv → path dv ptr l → Linked.block_in_bounds dv ptr →
  idx_ok id idx (boundary_lsn dv) l → ∀ a r, (a, r) ∈ l → idx !! (seq_end (message_seq r) - 1) = Some a.
Proof.
  intros Hw Hp Hb Hok a r Hin. pose proof (path_chain _ _ _ Hw Hp Hb _ _ Hin). apply Hok. exists a, r.
  split_and!; [done|split; lia|done].
Qed.
Lemma lk_facts j E : likes_inv (lk j E) →
  ∃ l, Linked.dv_wf (jdv j E) ∧ path (jdv j E) (CachedJournal.freshest_rec j) l ∧
    Linked.block_in_bounds (jdv j E) (CachedJournal.freshest_rec j) ∧
    idx_ok id (CachedJournal.lsn_addr_index j) (CachedJournal.boundary_lsn j) l.
Proof. intros [[((Hw&Hb)&_) _] (l&Hp&Hok)]. by exists l. Qed.

Lemma crop_ptr j E d : likes_inv (lk j E) → CachedJournal.can_crop_index j (CachedJournal.freshest_rec j) d →
  Linked.dv_can_crop (jdv j E) (CachedJournal.freshest_rec j) d ∧
  CachedJournal.pointer_after_crop_index j (CachedJournal.freshest_rec j) d =
    Linked.pointer_after_crop (jdv j E) (CachedJournal.freshest_rec j) d ∧
  ∀ a, CachedJournal.pointer_after_crop_index j (CachedJournal.freshest_rec j) d = Some a →
    ∃ r, E !! a = Some r ∧ CachedJournal.boundary_lsn j < seq_end (message_seq r) ∧
      seq_start (message_seq r) < seq_end (message_seq r) ∧
      CachedJournal.lsn_addr_index j !! (seq_end (message_seq r) - 1) = Some a.
Proof.
  intros Hi Hc. destruct (lk_facts _ _ Hi) as (l&Hw&Hp&Hb&Hok).
  destruct (crop_index_path j _ _ _ Hw Hp Hb eq_refl Hok d _ _ Hp (λ _ H, H)) as [Hiff Heq].
  apply Hiff in Hc. split; [done|]. split; [done|]. intros a Ha. rewrite Heq in Ha.
  destruct (can_crop_path _ _ _ _ Hw Hp Hb Hc) as (Hp'&_). rewrite Ha in Hp'. inversion Hp' as [|? r l' He Hl' Hx Hdr]; subst.
  assert ((a, r) ∈ l) as Hin.
  { rewrite <- (take_drop d l). apply elem_of_app. right. rewrite <- Hdr. by left. }
  exists r. split; [done|]. pose proof (path_chain _ _ _ Hw Hp Hb _ _ Hin) as [? ?]. split; [simpl in *; lia|].
  split; [done|]. exact (in_path_index _ _ _ _ Hw Hp Hb Hok _ _ Hin).
Qed.
Lemma value_of (j : CachedJournal.State) k a : CachedJournal.lsn_addr_index j !! k = Some a →
  a ∈ values (CachedJournal.lsn_addr_index j).
Proof. intros H. apply elem_of_values. by exists k. Qed.

Lemma read_sim j E m reads d : likes_inv (lk j E) →
  (∀ a r, reads !! a = Some r → a ∈ values (CachedJournal.lsn_addr_index j) → E !! a = Some r) →
  CachedJournal.read_for_recovery j j (CachedJournal.ReadForRecovery m reads) d →
  Likes.next (lk j E) (lk j E) (Linked.ReadForRecovery m).
Proof.
  intros Hi HE (m'&rd&[= <- <-]&Hc&a&r&Ha&Hr&->&_).
  destruct (crop_ptr _ _ _ Hi Hc) as (Hc'&Hptr&Hf). destruct (Hf a Ha) as (r'&He&Hlt&Hne&Hk).
  pose proof (HE _ _ Hr (value_of _ _ _ Hk)) as He'. rewrite He in He'. simplify_eq. rewrite Ha in Hptr.
  pose proof Hi as [Hli _]. left. split; [by eexists|]. split; [|done]. left. exists d. split; [apply Hli|].
  eexists. split; [reflexivity|].
  destruct Hli as [((Hw&Hb)&Hrest) Hac]. split.
  { destruct Hw as (Hew&_). destruct (Hew _ _ He) as [Hrw _]. unfold maybe_discard_old. case_decide as Hd; [|done].
    apply do_wf; [done|split; [done|simpl; lia]]. }
  split; [by split|]. split; [done|]. exists a, r. done.
Qed.
Definition only (X : gset Address) (E : gmap Address JournalRecord) : gmap Address JournalRecord :=
  filter (λ kv, kv.1 ∈ X) E.
Lemma lookup_only X E a r : only X E !! a = Some r ↔ a ∈ X ∧ E !! a = Some r.
Proof. unfold only. rewrite map_filter_lookup_Some. simpl. tauto. Qed.
Lemma only_sub X E : only X E ⊆ E.
Proof. apply map_subseteq_spec. intros a r. rewrite lookup_only. tauto. Qed.
Lemma acyclic_smaller dv dv' : Linked.acyclic dv → boundary_lsn dv ≤ boundary_lsn dv' →
  entries dv' ⊆ entries dv → Linked.acyclic dv'.
Proof.
  intros Hac Hle Hsub.
  apply (acyclic_sub (mkTJ None dv) (boundary_lsn dv') (mkTJ None dv') Hac Hle). by split.
Qed.

Lemma freeze_sim j E snap X reads d : likes_inv (lk j E) →
  dom E = values (CachedJournal.lsn_addr_index j) →
  (∀ a r, reads !! a = Some r → a ∈ values (CachedJournal.lsn_addr_index j) → E !! a = Some r) →
  CachedJournal.freeze_for_commit j j (CachedJournal.FreezeForCommit snap X reads) d →
  Likes.next (lk j E) (lk j E)
    (Linked.FreezeForCommit (mkTJ (snap_freshest snap) (mkDV (snap_boundary snap) (only X E)))) ∧
  X ⊆ values (index_discard_up_to (CachedJournal.lsn_addr_index j) (snap_boundary snap)).
Proof.
  intros Hi Hdom HE (sn&X'&rd&[= <- <- <-]&Hst&Hc&Hptr&Hrd&Hle&Hlt&HX&_).
  destruct (crop_ptr _ _ _ Hi Hc) as (Hc'&Hptr'&Hf). destruct (lk_facts _ _ Hi) as (l&Hw&Hp&Hb&Hok).
  set (fend := CachedJournal.frozen_seq_end j reads _) in *.
  assert (X ⊆ values (index_discard_up_to (CachedJournal.lsn_addr_index j) (snap_boundary snap))) as HXs.
  { intros a Ha. subst X. apply elem_of_values in Ha as [k Hk]. apply lookup_index_range in Hk as [Hk1 Hk].
    apply elem_of_values. exists k. apply lookup_discard_up_to. split; [lia|done]. }
  split; [|done]. unfold CachedJournal.seq_start in Hst.
  assert (fend = Linked.dv_seq_end (jdv j E) (snap_freshest snap)) as Hfe.
  { unfold fend. rewrite <- Hptr. destruct (CachedJournal.pointer_after_crop_index j _ d) as [a|] eqn:Ea; [|done].
    simpl. destruct (Hrd a eq_refl) as [r Hr]. destruct (Hf a eq_refl) as (r'&He&_&_&Hk).
    pose proof (HE _ _ Hr (value_of _ _ _ Hk)) as He'. rewrite He in He'. simplify_eq. by rewrite Hr, He. }
  clearbody fend.
  assert (Linked.dv_wf (mkDV (snap_boundary snap) (only X E))) as Hw'.
  { eapply (range_view_wf _ _ _ (CachedJournal.lsn_addr_index j) (snap_boundary snap) fend Hw Hp Hb Hok Hst).
    intros a r. rewrite lookup_only. by rewrite HX. }
  assert (Linked.tj_wf (mkTJ (snap_freshest snap) (mkDV (snap_boundary snap) (only X E)))) as Htw.
  { split; [done|]. simpl. split.
    - intros a Ha. simpl. rewrite Ha in Hptr, Hfe. destruct (Hf a Hptr) as (r&He&H1&H2&Hk).
      simpl in Hfe. rewrite He in Hfe. exists r. apply lookup_only. split; [|done]. rewrite HX. apply elem_of_values.
      eexists. apply lookup_index_range. split; [|exact Hk]. rewrite Hptr in Hlt. specialize (Hlt ltac:(by eexists)). lia.
    - intros a r Ha Hr. simpl in *. apply lookup_only in Hr as [_ Hr]. rewrite Ha in Hptr, Hfe. simpl in Hfe.
      rewrite Hr in Hfe. rewrite Hptr in Hlt. specialize (Hlt ltac:(by eexists)). lia. }
  assert (Linked.tj_wf (Linked.tj_crop (mkTJ (CachedJournal.freshest_rec j) (jdv j E)) d)) as Hcw.
  { eapply (crop_facts (mkTJ (CachedJournal.freshest_rec j) (jdv j E)) l); [by split|exact Hp|exact Hc']. }
  right. left. exists d. eexists. split; [reflexivity|]. cbv zeta. pose proof Hi as [[_ Hac] _].
  assert (Linked.tj_can_discard_to (Linked.tj_crop (Likes.tj (lk j E)) d) (snap_boundary snap)) as Hcd.
  { split; [exact Hst|]. unfold Linked.tj_seq_end. simpl. rewrite <- Hptr', Hptr, <- Hfe. exact Hle. }
  split. { split; [done|]. eapply acyclic_smaller; [exact Hac|exact Hst|apply only_sub]. }
  split; [exact Hc'|]. split; [exact Hst|]. split; [exact Hcd|]. split; [|done].
  assert (Linked.tj_seq_end (Linked.tj_crop (Likes.tj (lk j E)) d) = fend) as Hse.
  { unfold Linked.tj_seq_end. simpl. by rewrite <- Hptr', Hptr, <- Hfe. }
  split; [done|]. split; [done|]. split; [apply only_sub|]. split.
  - rewrite discard_seq_end by done. rewrite Hse. cbn [Linked.tj_seq_start disk_view boundary_lsn entries].
    intros a Ha. change (a ∈ values (index_range (CachedJournal.lsn_addr_index j) (snap_boundary snap) fend)) in Ha.
    rewrite <- HX in Ha. assert (a ∈ dom E) as [r Hr]%elem_of_dom.
    { rewrite Hdom. apply HXs in Ha. apply elem_of_values in Ha as [k Hk]. apply lookup_discard_up_to in Hk as [_ Hk].
      by eapply value_of. }
    apply elem_of_dom. exists r. by apply lookup_only.
  - simpl. rewrite Hse. case_decide as Hd.
    + destruct (snap_freshest snap) as [a|] eqn:Ea; [|done]. rewrite Hptr in Hlt.
      specialize (Hlt ltac:(by eexists)). unfold Linked.tj_seq_start in Hd. cbn in Hd. lia.
    + by rewrite <- Hptr, Hptr'.
Qed.

Lemma marshalled_end j E : likes_inv (lk j E) →
  Linked.tj_seq_end (Likes.tj (lk j E)) = CachedJournal.marshalled_seq_end j.
Proof. intros [[(_&_&_&He) _] _]. done. Qed.

Lemma put_sim j E j' m : likes_inv (lk j E) → CachedJournal.put j j' (CachedJournal.Put m) →
  Likes.next (lk j E) (lk j' E) (Linked.Put m).
Proof.
  intros [[Hwf _] _] (m'&[= <-]&Hm&Hs&->). do 3 right. left. eexists. split; [by eexists|]. split; [|reflexivity].
  do 3 right. left. split; [exact Hwf|]. exists m. done.
Qed.
Lemma discard_sim j E j' x y X : likes_inv (lk j E) → dom E = values (CachedJournal.lsn_addr_index j) →
  CachedJournal.seq_end j = y →
  CachedJournal.discard_old true j j' (CachedJournal.DiscardOld x y X) →
  Likes.next (lk j E) (lk j' (only (values (CachedJournal.lsn_addr_index j')) E)) (Linked.DiscardOld x y).
Proof.
  intros Hi Hdom Hy (x'&y'&X'&[= <- <- <-]&_&[H1 H2]&_&->). destruct (lk_facts _ _ Hi) as (l&Hw&Hp&Hb&Hok).
  unfold CachedJournal.seq_start in H1. rewrite <- (marshalled_end _ _ Hi) in H2.
  pose proof (marshalled_end _ _ Hi) as Hme. unfold Likes.tj in Hme. cbn [lk Likes.journal Linked.truncated_journal] in Hme.
  set (idx' := index_discard_up_to (CachedJournal.lsn_addr_index j) x).
  cbn [CachedJournal.lsn_addr_index]. fold idx'.
  assert (∀ a, a ∈ values idx' ↔ a ∈ values (index_range (CachedJournal.lsn_addr_index j) x
             (Linked.dv_seq_end (jdv j E) (CachedJournal.freshest_rec j)))) as Hv.
  { intros a. rewrite !elem_of_values. unfold idx'. setoid_rewrite lookup_discard_up_to.
    setoid_rewrite lookup_index_range. split; [|naive_solver]. intros (k&Hk1&Hk). exists k. split; [|done]. split; [done|].
    apply (idx_ok_dom id _ _ _ _ Hw Hp Hb Hok k). by eexists. }
  assert (Linked.dv_wf (mkDV x (only (values idx') E))) as Hw'.
  { eapply (range_view_wf _ _ _ (CachedJournal.lsn_addr_index j) x _ Hw Hp Hb Hok H1).
    intros a r. rewrite lookup_only. by rewrite Hv. }
  do 4 right. left. eexists. exists x, y. split; [reflexivity|]. split; [by symmetry|]. split; [by split|].
  cbv zeta. split; [|split; [|reflexivity]].
  - split.
    { split; [exact Hw'|]. cbn [lk Likes.journal Linked.truncated_journal freshest_rec disk_view
        CachedJournal.freshest_rec CachedJournal.boundary_lsn].
      case_decide as Hd; [split; [by intros ?|by intros ?]|].
      assert (x < Linked.dv_seq_end (jdv j E) (CachedJournal.freshest_rec j)) as Hlt.
      { unfold Linked.tj_seq_end in H2, Hme. cbn in H2, Hme. lia. }
      split.
      - intros a Ha. rewrite Ha in Hp, Hlt. inversion Hp as [|? r ? He Hp' Ex Ey]; subst.
        simpl in Hlt. simpl in He. rewrite He in Hlt. exists r. apply lookup_only. split; [|done].
        apply elem_of_values. exists (seq_end (message_seq r) - 1). apply lookup_discard_up_to. split; [lia|].
        rewrite Ha in Hb.
        eapply (in_path_index _ _ _ _ Hw Hp Hb Hok). by left.
      - intros a r Ha Hr. simpl in *. apply lookup_only in Hr as [_ Hr]. rewrite Ha in Hlt. simpl in Hlt.
        rewrite Hr in Hlt. done. }
    split; [done|]. split; [apply only_sub|]. split.
    + intros a Ha. change (a ∈ values idx') in Ha. assert (a ∈ dom E) as [r Hr]%elem_of_dom.
      { rewrite Hdom. apply elem_of_values in Ha as [k Hk]. apply lookup_discard_up_to in Hk as [_ Hk].
        by eapply value_of. }
      apply elem_of_dom. exists r. by apply lookup_only.
    + unfold Likes.tj. cbn [lk Likes.journal Linked.truncated_journal freshest_rec CachedJournal.freshest_rec].
      rewrite Hme. do 2 case_decide; congruence.
  - cbn [lk Likes.journal Linked.unmarshalled_tail CachedJournal.unmarshalled_tail].
    unfold Linked.bounded_discard. case_decide as Hd; [|done].
    assert (x = seq_start (CachedJournal.unmarshalled_tail j)) as ->.
    { unfold Likes.tj in H2. cbn [lk Likes.journal Linked.truncated_journal] in H2. rewrite Hme in H2.
      unfold CachedJournal.marshalled_seq_end in H2. lia. }
    symmetry. apply do_all. apply Hi.
Qed.
Lemma marshal_sim j E j' w cut a : likes_inv (lk j E) → dom E = values (CachedJournal.lsn_addr_index j) →
  CachedJournal.internal_journal_marshal j j' (CachedJournal.JournalMarshal w) cut a →
  ∃ r, w = {[a := r]} ∧ a ∉ values (CachedJournal.lsn_addr_index j) ∧
    (∀ b, b ∈ values (CachedJournal.lsn_addr_index j') ↔ b = a ∨ b ∈ values (CachedJournal.lsn_addr_index j)) ∧
    (∀ k b, CachedJournal.lsn_addr_index j !! k = Some b → CachedJournal.lsn_addr_index j' !! k = Some b) ∧
    Likes.next (lk j E) (lk j' (<[a := r]> E)) Linked.Internal.
Proof.
  intros Hi Hdom (w'&[= <-]&Ha&Hcut&Hcan&->&->). eexists. split; [reflexivity|]. split; [done|].
  destruct (lk_facts _ _ Hi) as (l&Hw&Hp&Hb&Hok). pose proof (marshalled_end _ _ Hi) as Hme.
  assert (∀ k b, CachedJournal.lsn_addr_index j !! k = Some b → k < CachedJournal.marshalled_seq_end j) as Hold.
  { intros k b Hk. assert (is_Some (CachedJournal.lsn_addr_index j !! k)) as Hs by (by eexists).
    apply (idx_ok_dom id _ _ _ _ Hw Hp Hb Hok k) in Hs. unfold Likes.tj, Linked.tj_seq_end in Hme. cbn in Hme. cbn in Hs. lia. }
  unfold CachedJournal.marshalled_seq_end in *. cbn [CachedJournal.lsn_addr_index].
  assert (∀ k b, CachedJournal.lsn_addr_index j !! k = Some b →
    index_append_record (CachedJournal.lsn_addr_index j) (discard_recent (CachedJournal.unmarshalled_tail j) cut) a !! k = Some b) as Hkeep.
  { intros k b Hk. unfold index_append_record. rewrite lookup_union_singleton. right. split; [|done].
    specialize (Hold _ _ Hk). simpl. lia. }
  split_and!.
  - intros b. rewrite !elem_of_values. split.
    + intros [k Hk]. unfold index_append_record in Hk. rewrite lookup_union_singleton in Hk.
      destruct Hk as [[_ ->]|[_ Hk]]; [by left|right; by eexists].
    + intros [->|[k Hk]]; [|exists k; by apply Hkeep].
      exists (seq_start (CachedJournal.unmarshalled_tail j)). unfold index_append_record.
      rewrite lookup_union_singleton. left. simpl. split; [lia|done].
  - exact Hkeep.
  - do 5 right. left. exists cut, a. eexists. split; [reflexivity|]. split; [|reflexivity].
    split. { unfold Linked.unused_addr. cbn. apply not_elem_of_dom. by rewrite Hdom. }
    split; [apply Hi|]. split; [done|]. split; [done|]. split; [done|]. done.
Qed.
