(** Proofs: the journal with allocation units (C14). *)
From Verif Require Import Abs_Model Abs_Spec Abs_Proof Spec_Proof Journal_Model Journal_Spec Paged_Proof
  Linked_Proof AllocJournal_Model Likes_Proof.

Section Alloc.
Context `{Geometry}.

(** ** Layout of a path inside allocation units *)
(** Between two pages of one AU on a path there are only pages of that AU. *)
Lemma path_contiguous dv ptr l : Linked.dv_wf dv → nonzero_pages_point_backward dv →
  pages_allocated_in_lsn_order dv → path dv ptr l →
  ∀ a r b q f rf, (a, r) ∈ l → (b, q) ∈ l → (f, rf) ∈ l → au a = au b →
    seq_start (message_seq q) ≤ seq_start (message_seq rf) ≤ seq_start (message_seq r) → au f = au a.
Proof.
  intros Hw Hback Hord Hp. induction Hp as [|x rx l He Hp IH]; intros a r b q f rf Ha Hb Hf Hau Hle.
  { by apply elem_of_nil in Ha. }
  assert (path dv (Some x) ((x, rx) :: l)) as Hfull by (by constructor).
  pose proof (path_entries _ _ _ Hfull) as Hent.
  assert (∀ y ry, (y, ry) ∈ (x, rx) :: l → seq_start (message_seq ry) < seq_end (message_seq ry)) as Hne.
  { intros y ry Hy. destruct Hw as (Hew&_). destruct (Hew _ _ (Hent _ _ Hy)) as [[Hrw _] Hn].
    unfold mh_is_empty in Hn. lia. }
  apply elem_of_cons in Ha as [Ha|Ha].
  - (* a is the head *)
    simplify_eq. apply elem_of_cons in Hf as [Hf|Hf]; [by simplify_eq|].
    apply elem_of_cons in Hb as [Hb|Hb].
    { simplify_eq. pose proof (path_older _ _ _ _ Hw Hfull _ _ Hf). 
      specialize (Hne f rf ltac:(by right)). lia. }
    pose proof (path_older _ _ _ _ Hw Hfull _ _ Hb) as [Hold Hbd].
    assert (page b < page x) as Hpg.
    { destruct (decide (page b < page x)) as [|Hge]; [done|].
      destruct (decide (page b = page x)) as [Heq|Hneq].
      - assert (b = x) as -> by (destruct b, x; simpl in *; by subst).
        pose proof (Hent x q ltac:(by right)). simplify_eq. specialize (Hne x rx ltac:(by left)). lia.
      - assert (page x < page b) by lia.
        pose proof (Hord x b rx q Hau ltac:(lia) He (Hent b q ltac:(by right))).
        pose proof (Hne b q ltac:(by right)). pose proof (Hne x rx ltac:(by left)). lia. }
    pose proof (Hback x rx ltac:(lia) He) as Hpr.
    unfold Linked.cropped_prior in Hp. rewrite decide_True in Hp by done. rewrite Hpr in Hp.
    inversion Hp as [|? rp l' Hep Hpp]; subst.
    assert (seq_start (message_seq rf) ≤ seq_start (message_seq rp)) as Hle2.
    { apply elem_of_cons in Hf as [Hf|Hf]; [by simplify_eq|].
      pose proof (path_older _ _ _ _ Hw Hp _ _ Hf).
      specialize (Hne f rf ltac:(right; by right)). lia. }
    rewrite (IH (addr_previous x) rp b q f rf); [done|by left|done|done|done|lia].
  - (* the head is newer than a *)
    pose proof (path_older _ _ _ _ Hw Hfull _ _ Ha) as [Hold Hbd].
    apply elem_of_cons in Hf as [Hf|Hf].
    { simplify_eq. specialize (Hne a r ltac:(by right)). lia. }
    apply elem_of_cons in Hb as [Hb|Hb].
    { simplify_eq. specialize (Hne a r ltac:(by right)). lia. }
    exact (IH a r b q f rf Ha Hb Hf Hau Hle).
Qed.

(** In an AU other than [first] the path walks back to page zero. *)
Lemma au_segment dv (first : AU) : Linked.dv_wf dv → nonzero_pages_point_backward dv →
  pages_allocated_in_lsn_order dv → has_unique_lsns dv → valid_first_au dv first →
  ∀ n a l, page a = n → au a ≠ first → path dv (Some a) l → Linked.block_in_bounds dv (Some a) →
  ∃ l1 l2 r b, l = l1 ++ l2 ∧ l1 ≠ [] ∧ entries dv !! a = Some r ∧ entries dv !! addr_first_page a = Some b ∧
    path dv (Linked.dv_next dv (Some (addr_first_page a))) l2 ∧
    Linked.block_in_bounds dv (Linked.dv_next dv (Some (addr_first_page a))) ∧
    boundary_lsn dv < seq_start (message_seq b) ∧
    seq_start (message_seq b) < seq_end (message_seq r) ∧
    (∀ x q, (x, q) ∈ l1 → au x = au a) ∧
    (∀ lsn, seq_start (message_seq b) ≤ lsn < seq_end (message_seq r) ↔
       ∃ x q, (x, q) ∈ l1 ∧ Linked.contains_lsn q (boundary_lsn dv) lsn).
Proof.
  intros Hw Hback Hord Huniq (fa&Hfau&Hfs). pose proof Hw as (Hew&Hnd&Hcc&Hlk).
  induction n as [|n IH]; intros a l Hpg Hau Hp Hb; inversion Hp as [|? r l' He Hp']; subst.
  all: pose proof (Hew _ _ He) as [[Hrw _] Hne]; unfold mh_is_empty in Hne;
    pose proof (proj2 Hb _ _ eq_refl He) as Hlt.
  all: assert (boundary_lsn dv < seq_start (message_seq r)) as Hs by
    (destruct (decide (boundary_lsn dv < seq_start (message_seq r))) as [|Hns]; [done|];
     exfalso; apply Hau; f_equal; apply (Huniq (boundary_lsn dv)); [|done];
     exists r; split; [done|split; lia]).
  - (* page 0 *)
    assert (addr_first_page a = a) as Efp by (destruct a; simpl in *; unfold addr_first_page; simpl; by subst).
    exists [(a, r)], l', r, r. rewrite Efp. simpl. rewrite He.
    split_and!; [done|done|done|done|done| |done|lia| |].
    + destruct (Linked.cropped_prior r (boundary_lsn dv)) as [p|] eqn:Ecp; [|by split].
      destruct (Hnd _ _ He p Ecp) as [q Hq]. split; [intros ? [= <-]; by eexists|].
      intros ?? [= <-] Hq'. simplify_eq. pose proof (Hcc _ _ He _ _ Ecp Hq) as Hcan.
      unfold can_concat, can_follow in Hcan. lia.
    + intros x q [Heq|Hin]%elem_of_cons; [by simplify_eq|by apply elem_of_nil in Hin].
    + intros lsn. split.
      * intros ?. exists a, r. split; [by left|split; lia].
      * intros (x&q&[Heq|Hin]%elem_of_cons&[? ?]); [simplify_eq; lia|by apply elem_of_nil in Hin].
  - (* walk back one page *)
    pose proof (Hback a r ltac:(lia) He) as Hpr.
    assert (Linked.cropped_prior r (boundary_lsn dv) = Some (addr_previous a)) as Ecp.
    { unfold Linked.cropped_prior. by rewrite decide_True. }
    rewrite Ecp in Hp'. destruct (Hnd _ _ He _ Ecp) as [rp Hrp].
    pose proof (Hcc _ _ He _ _ Ecp Hrp) as Hcan. unfold can_concat, can_follow in Hcan.
    destruct (IH (addr_previous a) l') as (l1&l2&r'&b&->&Hl1&Hr'&Hb'&Hp2&Hb2&Hbd&Hlt2&Hau1&Hlsn).
    + simpl. lia.
    + done.
    + done.
    + split; [intros ? [= <-]; by eexists|]. intros ?? [= <-] ?. simplify_eq. lia.
    + simplify_eq. change (addr_first_page (addr_previous a)) with (addr_first_page a) in *.
      exists ((a, r) :: l1), l2, r, b. split_and!; try done.
      * lia.
      * intros x q [Heq|Hin]%elem_of_cons; [by simplify_eq|]. by rewrite (Hau1 _ _ Hin).
      * intros lsn. split.
        -- intros Hr. destruct (decide (lsn < seq_start (message_seq r))) as [Hlo|Hhi].
           ++ destruct (proj1 (Hlsn lsn)) as (x&q&Hin&Hc); [lia|]. exists x, q. split; [by right|done].
           ++ exists a, r. split; [by left|split; lia].
        -- intros (x&q&[Heq|Hin]%elem_of_cons&Hc).
           ++ simplify_eq. destruct Hc. lia.
           ++ assert (seq_start (message_seq b) ≤ lsn < seq_end (message_seq rp)) as ?.
              { apply Hlsn. by exists x, q. } lia.
Qed.
Lemma au_walk_ok dv first : Linked.dv_wf dv → nonzero_pages_point_backward dv →
  pages_allocated_in_lsn_order dv → has_unique_lsns dv →
  ∀ n ptr l, (∀ a, ptr = Some a → valid_first_au dv first) →
    path dv ptr l → Linked.block_in_bounds dv ptr → length l ≤ n →
    idx_ok au (au_walk n dv ptr first) (boundary_lsn dv) l.
Proof.
  intros Hw Hback Hord Huniq. induction n as [|n IH]; intros ptr l Hvf Hp Hb Hlen.
  - destruct l; [|simpl in Hlen; lia]. inversion Hp; subst. simpl. exact (idx_of_ok au dv None [] Hw (path_nil dv)).
  - destruct ptr as [a|]; [|inversion Hp; subst; simpl; exact (idx_of_ok au dv None [] Hw (path_nil dv))].
    simpl. case_decide as Hd.
    + pose proof (page_walk_path _ _ _ Hp _ Hlen) as Hpw. simpl in Hpw. rewrite Hpw. by eapply idx_of_ok.
    + destruct (au_segment dv first Hw Hback Hord Huniq (Hvf _ eq_refl) (page a) a l eq_refl Hd Hp Hb)
        as (l1&l2&r&b&->&Hl1&Hr&Hb'&Hp2&Hb2&Hbd&Hlt&Hau&Hlsn).
      rewrite Hr, Hb'. simpl in Hp2, Hb2. rewrite Hb' in Hp2, Hb2.
      assert (idx_ok au (au_walk n dv (Linked.cropped_prior b (boundary_lsn dv)) first) (boundary_lsn dv) l2) as Hok.
      { apply IH; [intros; by eapply Hvf|done|done|]. rewrite app_length in Hlen. destruct l1; [done|]. simpl in Hlen. lia. }
      intros lsn v. rewrite lookup_union_singleton, (Hok lsn v). split.
      * intros [[Hr' ->]|[Hr' (x&q&Hin&Hc&<-)]].
        -- destruct (proj1 (Hlsn lsn) Hr') as (x&q&Hin&Hc). exists x, q.
           split_and!; [apply elem_of_app; by left|done|by eapply Hau].
        -- exists x, q. split_and!; [apply elem_of_app; by right|done|done].
      * intros (x&q&[Hin|Hin]%elem_of_app&Hc&<-).
        -- left. split; [|by eapply Hau]. apply Hlsn. by exists x, q.
        -- right. split; [|by exists x, q]. intros Hr'. destruct (proj1 (Hlsn lsn) Hr') as (y&q'&Hin'&Hc').
           destruct (path_unique_lsn _ _ _ Hw Hp x q y q' lsn) as [-> ->]; try done;
             try (apply elem_of_app; by (left + right)).
           pose proof (path_nodup _ _ _ Hp) as Hnd. rewrite fmap_app in Hnd.
           apply NoDup_app in Hnd as (_&Hnd&_). apply (Hnd y); apply elem_of_list_fmap; by exists (y, q').
Qed.

(** ** Invariant *)
Definition struct_inv (tj : TruncatedJournal) (idx : gmap LSN AU) (l : list (Address * JournalRecord)) : Prop :=
  tj_path tj l ∧ idx_ok au idx (boundary_lsn (disk_view tj)) l ∧ wf_addrs (disk_view tj) ∧
  domain_tight_wrt_index (disk_view tj) idx (freshest_rec tj) ∧
  nonzero_pages_point_backward (disk_view tj) ∧ pages_allocated_in_lsn_order (disk_view tj) ∧
  (∀ a r, entries (disk_view tj) !! a = Some r → boundary_lsn (disk_view tj) < seq_end (message_seq r) → (a, r) ∈ l).
Definition ma_inv (tj : TruncatedJournal) (m : MiniAllocator) : Prop :=
  ma_wf m ∧
  (∀ a p, is_Some (entries (disk_view tj) !! a) → allocs m !! au a = Some p → a ∈ reserved p) ∧
  (∀ u p, allocs m !! u = Some p → observed p ⊆ reserved p) ∧
  (∀ u, curr m = Some u → ∃ f, freshest_rec tj = Some f ∧ au f = u).
Definition alloc_inv (s : AllocJournal.State) : Prop :=
  linked_inv (AllocJournal.journal s) ∧
  (∃ l, struct_inv (AllocJournal.tj s) (AllocJournal.lsn_au_index s) l) ∧
  (is_Some (freshest_rec (AllocJournal.tj s)) →
    AllocJournal.lsn_au_index s !! boundary_lsn (disk_view (AllocJournal.tj s)) = Some (AllocJournal.first s)) ∧
  ma_inv (AllocJournal.tj s) (AllocJournal.mini_allocator s).

Lemma entry_nonempty dv a r : Linked.dv_wf dv → entries dv !! a = Some r →
  seq_start (message_seq r) < seq_end (message_seq r).
Proof. intros (Hew&_) He. destruct (Hew _ _ He) as [[? _] Hn]. unfold mh_is_empty in Hn. lia. Qed.

(** A valid image decodes to a good structure. *)
Lemma valid_image_struct img : valid_image img → Linked.tj_decodable (img_tj img) ∧
  (∃ l, struct_inv (img_tj img) (build_lsn_au_index (img_tj img) (img_first img)) l) ∧
  (is_Some (freshest_rec (img_tj img)) →
    build_lsn_au_index (img_tj img) (img_first img) !! boundary_lsn (disk_view (img_tj img)) = Some (img_first img)).
Proof.
  intros (Hwa&([Hw Hnd]&Hac&Hback&Hord&Huniq&Hup)&Htight&Hbi).
  set (tj := img_tj img) in *. set (idx := build_lsn_au_index tj (img_first img)) in *.
  assert (Linked.tj_wf tj) as Htw.
  { split; [done|]. split; [done|]. intros a r Hf Hr. destruct (Hup a Hf) as [_ (r'&Hr'&?)]. by simplify_eq. }
  assert (Linked.tj_decodable tj) as Hd by done. split; [done|].
  destruct (tj_path_exists _ Hd) as [l Hp].
  assert (idx_ok au idx (boundary_lsn (disk_view tj)) l) as Hok.
  { apply au_walk_ok; try done.
    - intros a Ha. by apply (Hup a).
    - apply Htw.
    - by eapply path_length. }
  split.
  - exists l. split_and!; try done. intros a r He Hlt.
    pose proof (entry_nonempty _ _ _ Hw He) as Hne.
    destruct (Htight a) as [Hav Haf]; [by eexists|].
    destruct (idx !! (seq_end (message_seq r) - 1)) as [v|] eqn:Ei.
    + apply Hok in Ei as (b&q&Hin&Hc&_).
      assert (a = b) as ->.
      { apply (Huniq (seq_end (message_seq r) - 1)).
        - exists r. split; [done|split; lia].
        - exists q. split; [by eapply path_entries|done]. }
      pose proof (path_entries _ _ _ Hp _ _ Hin) as He'. by simplify_eq.
    + assert (seq_end (message_seq r) - 1 < boundary_lsn (disk_view tj)); [|lia].
      eapply Hbi; [done| |done|done|done]. unfold mh_contains. lia.
  - intros [f Hf]. destruct (Hup f Hf) as [(b&Hbf&rb&Hrb&Hcb) _].
    destruct Htw as [_ Hb]. destruct (path_located _ _ _ Hw Hp Hb) as [_ Hloc].
    assert (boundary_lsn (disk_view tj) < Linked.dv_seq_end (disk_view tj) (freshest_rec tj)) as Hlt.
    { rewrite Hf. destruct Hb as [Hb1 Hb2]. destruct (Hb1 f Hf) as [rf Hrf]. simpl. rewrite Hrf. by eapply Hb2. }
    destruct (Hloc (boundary_lsn (disk_view tj))) as (a&r&Hin&Hc&_); [lia|].
    apply Hok. exists a, r. split_and!; [done|split; lia|]. rewrite <- Hbf. f_equal.
    apply (Huniq (boundary_lsn (disk_view tj))).
    + exists r. split; [by eapply path_entries|split; lia].
    + by exists rb.
Qed.
(** And conversely. *)
Lemma struct_valid_image tj first idx l : Linked.tj_decodable tj → struct_inv tj idx l →
  (is_Some (freshest_rec tj) → idx !! boundary_lsn (disk_view tj) = Some first) →
  valid_image (mkImage tj first) ∧ build_lsn_au_index tj first = idx.
Proof.
  intros [[Hw Hb] Hac] (Hp&Hok&Hwa&Htight&Hback&Hord&Hlive) Hfirst.
  assert (has_unique_lsns (disk_view tj)) as Huniq.
  { intros lsn a b (r&Hr&Hc) (q&Hq&Hc').
    assert ((a, r) ∈ l) by (apply Hlive; [done|destruct Hc; lia]).
    assert ((b, q) ∈ l) by (apply Hlive; [done|destruct Hc'; lia]).
    by destruct (path_unique_lsn _ _ _ Hw Hp a r b q lsn). }
  assert (∀ a, freshest_rec tj = Some a → valid_first_au (disk_view tj) first) as Hvf.
  { intros a Ha. destruct (proj1 (Hok _ _) (Hfirst (ex_intro _ a Ha))) as (b&r&Hin&Hc&Hbf).
    exists b. split; [done|]. exists r. split; [by eapply path_entries|done]. }
  assert (build_lsn_au_index tj first = idx) as Eidx.
  { eapply idx_ok_eq; [|exact Hok]. apply au_walk_ok; try done. by eapply path_length. }
  split; [|done]. unfold valid_image. simpl. rewrite Eidx. split_and!; [done| |done|].
  - unfold pointer_is_upstream. split; [split; [done|apply Hb]|]. split; [done|]. split; [done|]. split; [done|].
    split; [done|]. intros a Ha. split; [by eapply Hvf|]. destruct Hb as [Hb1 Hb2]. destruct (Hb1 a Ha) as [r Hr].
    exists r. split; [done|]. by eapply Hb2.
  - intros a r lsn He [Hlo Hhi] Hv Hnone Haf. destruct (decide (lsn < boundary_lsn (disk_view tj))) as [|Hge]; [done|].
    exfalso. assert (idx !! lsn = Some (au a)); [|congruence]. apply Hok. exists a, r.
    split_and!; [apply Hlive; [done|lia]|split; lia|done].
Qed.

(** Truncation of the structure. *)
Lemma struct_discard tj idx l lsn new keep : Linked.tj_wf tj → Linked.acyclic (disk_view tj) →
  struct_inv tj idx l → Linked.tj_can_discard_to tj lsn →
  (∀ a, a ∈ keep ↔ is_Some (entries (disk_view tj) !! a) ∧ au a ∈ values (index_discard_up_to idx lsn)) →
  discard_old_tight tj lsn keep new →
  Linked.valid_discard_old tj lsn new ∧
  ∃ l' rest, l = l' ++ rest ∧ struct_inv new (index_discard_up_to idx lsn) l' ∧
    (∀ a r, (a, r) ∈ rest → seq_end (message_seq r) ≤ lsn) ∧ (∀ a r, (a, r) ∈ l' → lsn < seq_end (message_seq r)).
Proof.
  intros Htw Hac (Hp&Hok&Hwa&Htight&Hback&Hord&Hlive) Hcd Hkeep [Hdc Hkd].
  destruct (tj_discard_split _ _ _ Htw Hp Hcd) as (l'&rest&Hp'&->&Hrest&Hl').
  assert (idx_ok au (index_discard_up_to idx lsn) lsn l') as Hok'.
  { eapply idx_discard_ok; [done|apply Hcd|done]. }
  destruct (discard_cond_valid _ _ _ _ _ Hp' Hdc) as [Hvd Hnp].
  { intros a r Hin. apply Hkeep. split.
    - exists r. apply (path_entries _ _ _ Hp). apply elem_of_app. by left.
    - apply elem_of_values. exists (seq_start (message_seq r) `max` lsn). apply Hok'. exists a, r.
      specialize (Hl' _ _ Hin). assert ((a, r) ∈ l' ++ rest) as Hin' by (apply elem_of_app; by left).
      pose proof (entry_nonempty _ _ _ (proj1 Htw) (path_entries _ _ _ Hp _ _ Hin')).
      split_and!; [done|split; lia|done]. }
  split; [done|]. exists l', rest. split; [done|].
  destruct Hdc as (Hnw&Hnb&Hsub&_&Hnf).
  split; [|done]. unfold struct_inv. rewrite Hnb. split_and!.
  - done.
  - done.
  - intros a [r Ha]. apply Hwa. exists r. by eapply lookup_weaken.
  - intros a Ha. apply elem_of_dom in Ha. rewrite <- Hkd in Ha. apply Hkeep in Ha as [He Hv]. split; [done|].
    intros f. rewrite Hnf. case_decide; [done|]. intros Hf. by apply (Htight a He).
  - intros a r Hpg Ha. eapply Hback; [done|]. by eapply lookup_weaken.
  - intros alo ahi rlo rhi ?? H1 H2. eapply Hord; [done|done| |]; by eapply lookup_weaken.
  - intros a r Ha Hlt. assert ((a, r) ∈ l' ++ rest) as [?|Hin]%elem_of_app; [|done|].
    + apply Hlive; [by eapply lookup_weaken|]. destruct Hcd as [Hc1 _]. unfold Linked.tj_seq_start in Hc1. lia.
    + specialize (Hrest _ _ Hin). lia.
Qed.

(** Freezing: the image is a truncation of the cropped journal. *)
Lemma struct_freeze tj idx l d new frozen : Linked.tj_wf tj → Linked.acyclic (disk_view tj) →
  struct_inv tj idx l →
  Linked.dv_can_crop (disk_view tj) (freshest_rec tj) d →
  let new_bdy := Linked.tj_seq_start new in
  let cropped := Linked.tj_crop tj d in
  Linked.tj_can_discard_to cropped new_bdy →
  let fidx := index_range idx new_bdy (Linked.tj_seq_end (Linked.tj_discard_old cropped new_bdy)) in
  (∀ a, a ∈ frozen ↔ in_tight_domain (disk_view cropped) fidx (freshest_rec new) a) →
  discard_old_tight cropped new_bdy frozen new →
  Linked.valid_discard_old cropped new_bdy new ∧ Linked.tj_decodable new ∧
  ∃ l', struct_inv new fidx l'.
Proof.
  intros Htw Hac (Hp&Hok&Hwa&Htight&Hback&Hord&Hlive) Hcc bdy cropped Hcd fidx Hfrozen [Hdc Hkd].
  destruct (crop_facts _ _ _ Htw Hp Hcc) as [Hcw Hcp]. fold cropped in Hcw, Hcp.
  destruct (tj_discard_split _ _ _ Hcw Hcp Hcd) as (l'&rest&Hp'&Heq&Hrest&Hl').
  pose proof Htw as [Hw Hb]. pose proof Hcw as [_ Hcb].
  assert (boundary_lsn (disk_view tj) ≤ bdy) as Hbl by apply Hcd.
  assert (idx_ok au fidx bdy l') as Hok'.
  { intros lsn v. unfold fidx. rewrite lookup_index_range, discard_seq_end, (Hok lsn v) by done. split.
    - intros ([Hlo Hhi]&a&r&Hin&Hc&<-).
      destruct (path_located _ _ _ Hw Hcp Hcb) as [_ Hloc].
      destruct (Hloc lsn) as (b&q&Hin'&Hc'&_); [unfold Linked.tj_seq_end in Hhi; simpl in *; lia|].
      destruct (path_unique_lsn _ _ _ Hw Hp a r b q lsn) as [-> ->]; [done| |done|split; lia|].
      { rewrite <- (take_drop d l). apply elem_of_app. by right. }
      exists b, q. rewrite Heq in Hin'. apply elem_of_app in Hin' as [Hin'|Hin'].
      + split_and!; [done|split; lia|done].
      + specialize (Hrest _ _ Hin'). lia.
    - intros (a&r&Hin&[H1 H2]&<-).
      assert ((a, r) ∈ drop d l) as Hdl by (rewrite Heq; apply elem_of_app; by left).
      pose proof (path_chain _ _ _ Hw Hcp Hcb _ _ Hdl) as [Hch _]. split.
      + unfold Linked.tj_seq_end. simpl in *. lia.
      + exists a, r. split_and!; [|split; lia|done]. rewrite <- (take_drop d l). apply elem_of_app. by right. }
  assert (freshest_rec new = freshest_rec (Linked.tj_discard_old cropped bdy)) as Hnf.
  { destruct Hdc as (_&_&_&_&Hnf). done. }
  (* live pages of the cropped journal are kept *)
  assert (∀ a r, (a, r) ∈ l' → a ∈ frozen) as Hkeep.
  { intros a r Hin.
    assert ((a, r) ∈ drop d l) as Hdl by (rewrite Heq; apply elem_of_app; by left).
    assert ((a, r) ∈ l) as Hinl by (rewrite <- (take_drop d l); apply elem_of_app; by right).
    pose proof (path_entries _ _ _ Hp _ _ Hinl) as He.
    pose proof (entry_nonempty _ _ _ Hw He) as Hne. specialize (Hl' _ _ Hin).
    apply Hfrozen. split_and!; [by eexists| |].
    - apply elem_of_values. exists (seq_start (message_seq r) `max` bdy). apply Hok'. exists a, r.
      split_and!; [done|split; lia|done].
    - intros f Hf (_&Haf&Hpf). rewrite Hnf in Hf.
      unfold tj_path in Hp'. rewrite Hf in Hp'. inversion Hp' as [|? rf lt Hrf Hlt]; subst.
      apply elem_of_cons in Hin as [Heqh|Hint]; [simplify_eq; lia|].
      assert ((f, rf) ∈ drop d l) as Hfl by (rewrite Heq; apply elem_of_app; left; by left).
      simpl in Hrf.
      pose proof (Hord f a rf r ltac:(done) Hpf Hrf He) as Hlo.
      pose proof (entry_nonempty _ _ _ Hw Hrf) as Hnef.
      assert (seq_end (message_seq r) ≤ seq_end (message_seq rf)).
      { assert (Linked.tj_seq_end cropped = seq_end (message_seq rf)) as <-.
        - unfold Linked.tj_seq_end. unfold Linked.tj_discard_old in Hf. simpl in Hf |- *. case_decide; [done|].
          rewrite Hf. simpl. by rewrite Hrf.
        - pose proof (path_chain _ _ _ Hw Hcp Hcb _ _ Hdl) as [Hch _]. unfold Linked.tj_seq_end. simpl in *. lia. }
      lia. }
  destruct (discard_cond_valid _ _ _ _ _ Hp' Hdc Hkeep) as [Hvd Hnp].
  split; [done|]. destruct Hdc as (Hnw&Hnb&Hsub&_&_). simpl in Hsub.
  split; [split; [done|]|].
  { eapply (acyclic_sub cropped bdy); [done|done|]. split; [done|done]. }
  exists l'. unfold struct_inv. change (boundary_lsn (disk_view new)) with bdy. split_and!.
  - done.
  - done.
  - intros a [r Ha]. apply Hwa. exists r. by eapply lookup_weaken.
  - intros a Ha. apply elem_of_dom in Ha. rewrite <- Hkd in Ha. by apply Hfrozen in Ha as (He&Hv&Haf).
  - intros a r Hpg Ha. eapply Hback; [done|]. by eapply lookup_weaken.
  - intros alo ahi rlo rhi ?? H1 H2. eapply Hord; [done|done| |]; by eapply lookup_weaken.
  - intros a r Ha Hlt. pose proof (lookup_weaken _ _ _ _ Ha Hsub) as He.
    assert ((a, r) ∈ l) as Hin by (apply Hlive; [done|lia]).
    assert (a ∈ frozen) as (_&Hv&Haf)%Hfrozen by (rewrite Hkd; apply elem_of_dom; by eexists).
    apply elem_of_values in Hv as [k (b&q&Hbin&_&Hau)%Hok'].
    assert ((b, q) ∈ drop d l) as Hbdl by (rewrite Heq; apply elem_of_app; by left).
    assert ((b, q) ∈ l) as Hbl' by (rewrite <- (take_drop d l); apply elem_of_app; by right).
    (* the frozen root *)
    unfold tj_path in Hp'. destruct l' as [|[f rf] lt]; [by apply elem_of_nil in Hbin|].
    inversion Hp' as [|? ? ? Hrf Hlt' Ef]; subst. simpl in Hrf.
    assert (freshest_rec cropped = Some f ∧ Linked.tj_seq_end cropped = seq_end (message_seq rf)) as [Hcf Hce].
    { unfold Linked.tj_discard_old in Ef. simpl in Ef. case_decide; [done|]. split; [done|].
      unfold Linked.tj_seq_end. simpl. rewrite <- Ef. simpl. by rewrite Hrf. }
    assert (freshest_rec new = Some f) as Hnf' by (etransitivity; [exact Hnf|symmetry; exact Ef]). specialize (Haf f Hnf').
    assert ((f, rf) ∈ drop d l) as Hfd by (rewrite Heq; apply elem_of_app; left; by left).
    assert ((f, rf) ∈ l) as Hfl by (rewrite <- (take_drop d l); apply elem_of_app; by right).
    pose proof (entry_nonempty _ _ _ Hw He) as Hne.
    pose proof (entry_nonempty _ _ _ Hw Hrf) as Hnef.
    destruct (decide (seq_start (message_seq r) < Linked.tj_seq_end cropped)) as [Hold|Hnew].
    + (* a is at or behind the frozen root *)
      assert ((a, r) ∈ drop d l) as Hadl.
      { destruct (path_located _ _ _ Hw Hcp Hcb) as [_ Hloc].
        destruct (Hloc (seq_start (message_seq r) `max` bdy)) as (c&rc&Hcin&Hcc'&_).
        { destruct Hcd as [_ Hcd]. unfold Linked.tj_seq_end in *. simpl in *.
          assert (bdy < seq_end (message_seq rf)) by (apply (Hl' f rf); by left). lia. }
        assert ((c, rc) ∈ l) by (rewrite <- (take_drop d l); apply elem_of_app; by right).
        destruct (path_unique_lsn _ _ _ Hw Hp a r c rc (seq_start (message_seq r) `max` bdy)) as [-> ->]; try done; split; lia. }
      rewrite Heq in Hadl. apply elem_of_app in Hadl as [?|Hr]; [done|]. specialize (Hrest _ _ Hr). lia.
    + exfalso.
      assert (au f = au a) as Hauf.
      { apply (path_contiguous _ _ _ Hw Hback Hord Hp a r b q f rf); try done.
        split; [|lia]. pose proof (path_chain _ _ _ Hw Hcp Hcb _ _ Hbdl) as [Hch _].
        pose proof (entry_nonempty _ _ _ Hw (path_entries _ _ _ Hp _ _ Hbl')).
        apply elem_of_cons in Hbin as [Hbe|Hbt]; [by simplify_eq|].
        (* b behind f in the original path *)
        assert (∃ lf, path (disk_view tj) (Some f) ((f, rf) :: lf) ∧ (b, q) ∈ lf) as (lf&Hpf&Hblf).
        { unfold tj_path in Hcp. simpl in Hcp. rewrite Heq in Hcp. simpl in Hcp, Hcf. rewrite Hcf in Hcp.
          exists (lt ++ rest). split; [done|]. apply elem_of_app. by left. }
        pose proof (path_older _ _ _ _ Hw Hpf _ _ Hblf). lia. }
      assert (¬ page f < page a) as Hnp'.
      { intros Hlt2. apply Haf. split_and!; [apply Hwa; by eexists|done|done]. }
      destruct (decide (page a = page f)) as [Epg|Npg].
      * assert (a = f) as -> by (destruct a, f; simpl in *; by subst). simplify_eq. lia.
      * pose proof (Hord a f r rf ltac:(done) ltac:(lia) He Hrf). lia.
Qed.

(** ** Mini allocator *)
Lemma lookup_add_aus m aus u p : allocs (add_aus m aus) !! u = Some p ↔
  allocs m !! u = Some p ∨ (allocs m !! u = None ∧ u ∈ aus ∧ p = pa_new u).
Proof.
  unfold add_aus. simpl. rewrite lookup_union_Some_raw.
  assert (set_to_map (λ u0, (u0, pa_new u0)) aus !! u = Some p ↔ u ∈ aus ∧ p = pa_new u) as ->; [|naive_solver].
  rewrite lookup_set_to_map; [|done]. naive_solver.
Qed.
Lemma lookup_prune m aus u p : allocs (prune m aus) !! u = Some p ↔ allocs m !! u = Some p ∧ u ∉ aus.
Proof. unfold prune. simpl. rewrite map_filter_lookup_Some. done. Qed.
Lemma dom_prune m aus : dom (allocs (prune m aus)) = dom (allocs m) ∖ aus.
Proof.
  apply set_eq. intros u. rewrite elem_of_difference, !elem_of_dom. split.
  - intros [p [? ?]%lookup_prune]. split; [by eexists|done].
  - intros [[p ?] ?]. exists p. by apply lookup_prune.
Qed.
Lemma dom_add_aus m aus : dom (allocs (add_aus m aus)) = dom (allocs m) ∪ aus.
Proof.
  apply set_eq. intros u. rewrite elem_of_union, !elem_of_dom. split.
  - intros [p [Hl|(?&?&?)]%lookup_add_aus]; [left; by eexists|by right].
  - intros [[p Hp]|Hu].
    + exists p. apply lookup_add_aus. by left.
    + destruct (allocs m !! u) as [p|] eqn:E; eexists; apply lookup_add_aus; [left; done|right]; done.
Qed.
Lemma lookup_alloc_observe m a p0 : allocs m !! au a = Some p0 → ∀ u p,
  allocs (ma_observe (allocate m a) a) !! u = Some p ↔
  (u = au a ∧ p = mkPA (observed p0 ∪ {[a]}) (reserved p0 ∪ {[a]}) (pa_au p0)) ∨ (u ≠ au a ∧ allocs m !! u = Some p).
Proof.
  intros H0 u p. unfold allocate. rewrite H0. unfold ma_observe. simpl. rewrite lookup_insert. simpl.
  rewrite insert_insert. destruct (decide (u = au a)) as [->|Hne].
  - rewrite lookup_insert. unfold pa_observe, reserve. simpl. naive_solver.
  - rewrite lookup_insert_ne by done. naive_solver.
Qed.
Lemma curr_alloc_observe m a p0 : allocs m !! au a = Some p0 →
  curr (ma_observe (allocate m a) a) = if all_pages_allocated (reserve p0 {[a]}) then None else Some (au a).
Proof. intros H0. unfold allocate. rewrite H0. unfold ma_observe. simpl. rewrite lookup_insert. done. Qed.
Lemma dom_alloc_observe m a p0 : allocs m !! au a = Some p0 →
  dom (allocs (ma_observe (allocate m a) a)) = dom (allocs m).
Proof.
  intros H0. apply set_eq. intros u. rewrite !elem_of_dom. split.
  - intros [p Hp]. apply (lookup_alloc_observe _ _ _ H0) in Hp as [[-> _]|[_ Hp]]; by eexists.
  - intros [p Hp]. destruct (decide (u = au a)) as [->|Hne].
    + eexists. apply (lookup_alloc_observe _ _ _ H0). left. done.
    + exists p. apply (lookup_alloc_observe _ _ _ H0). by right.
Qed.

Lemma idx_values_append idx dv ptr l (m : MsgHistory) u : Linked.dv_wf dv → path dv ptr l →
  Linked.block_in_bounds dv ptr → idx_ok au idx (boundary_lsn dv) l →
  seq_start m = Linked.dv_seq_end dv ptr → seq_start m < seq_end m →
  values (index_append_record idx m u) = values idx ∪ {[u]}.
Proof.
  intros Hw Hp Hb Hok Hs Hlt. apply set_eq. intros v. rewrite elem_of_union, elem_of_singleton, !elem_of_values. split.
  - intros [k [[_ ->]|[_ Hk]]%lookup_union_singleton]; [by right|left; by eexists].
  - intros [[k Hk]| ->].
    + exists k. apply lookup_union_singleton. right. split; [|done].
      pose proof (proj1 (idx_ok_dom au _ _ _ _ Hw Hp Hb Hok k) (ex_intro _ v Hk)). lia.
    + exists (seq_start m). apply lookup_union_singleton. left. split; [lia|done].
Qed.

(** A free address that is next in line is unused, and no page of its AU is at
    or past it. *)
Lemma tight_next_facts tj idx l m a : struct_inv tj idx l → ma_inv tj m → tight_next_addr m (freshest_rec tj) a →
  entries (disk_view tj) !! a = None ∧ addr_wf a ∧
  (∀ b, is_Some (entries (disk_view tj) !! b) → ¬ after_page a b) ∧
  (page a ≠ 0 → freshest_rec tj = Some (addr_previous a)).
Proof.
  intros (Hp&Hok&Hwa&Htight&_) (Hmw&Hres&Hobs&Hcurr) ((p&Hpa&Hfree)&Hnone&Hsome).
  destruct Hfree as (Hwf&Hau&Hnin).
  split; [|split; [done|split]].
  - destruct (entries (disk_view tj) !! a) as [r|] eqn:E; [|done]. exfalso. apply Hnin.
    apply elem_of_union. right. eapply Hres; [by eexists|done].
  - intros b Hb (Hbw&Hba&Hbp). destruct (curr m) as [u|] eqn:Ec.
    + destruct (Hcurr u eq_refl) as (f&Hf&Hfu).
      pose proof (Hsome ltac:(by eexists) f Hf) as ->. simpl in *.
      destruct (Htight b Hb) as [_ Haf]. apply (Haf f Hf). split_and!; [done|done|lia].
    + destruct (Hnone eq_refl) as [Hall _]. destruct (Hall p Hpa) as [_ Hr].
      unfold has_no_outstanding_refs in Hr.
      assert (b ∈ reserved p) by (eapply Hres; [done|by rewrite Hba]). set_solver.
  - intros Hpg. destruct (curr m) as [u|] eqn:Ec; [|by destruct (Hnone eq_refl)].
    destruct (Hcurr u eq_refl) as (f&Hf&Hfu). pose proof (Hsome ltac:(by eexists) f Hf) as ->.
    rewrite Hf. f_equal. unfold addr_previous, addr_next. simpl. destruct f as [fa fp]. simpl. f_equal. lia.
Qed.

Lemma struct_append s idx l a cut : Linked.wf s → struct_inv (Linked.truncated_journal s) idx l →
  seq_start (Linked.unmarshalled_tail s) < cut →
  entries (disk_view (Linked.truncated_journal s)) !! a = None → addr_wf a →
  (∀ b, is_Some (entries (disk_view (Linked.truncated_journal s)) !! b) → ¬ after_page a b) →
  (page a ≠ 0 → freshest_rec (Linked.truncated_journal s) = Some (addr_previous a)) →
  let m := discard_recent (Linked.unmarshalled_tail s) cut in
  struct_inv (Linked.append_record (Linked.truncated_journal s) a m) (index_append_record idx m (au a))
    ((a, mkRec m (freshest_rec (Linked.truncated_journal s))) :: l).
Proof.
  intros Hwf (Hp&Hok&Hwa&Htight&Hback&Hord&Hlive) Hcut Hun Haw Hafter Hprev m.
  pose proof Hwf as (Htw&Hmw&Hse&Hee). pose proof Htw as [Hw Hb].
  assert (values (index_append_record idx m (au a)) = values idx ∪ {[au a]}) as Hv.
  { eapply idx_values_append; [done|done|done|done|done|]. simpl. lia. }
  unfold struct_inv. simpl. split_and!.
  - by apply path_append.
  - by apply (idx_append_ok au).
  - intros b. simpl. destruct (decide (b = a)) as [->|Hne]; [done|]. rewrite lookup_insert_ne by done. apply Hwa.
  - intros b Hbs. simpl in Hbs. rewrite Hv. destruct (decide (b = a)) as [->|Hne].
    + split; [set_solver|]. intros f [= <-] (_&_&?). lia.
    + rewrite lookup_insert_ne in Hbs by done. destruct (Htight b Hbs) as [Hvb _].
      split; [set_solver|]. intros f [= <-]. by apply Hafter.
  - intros b r Hpg. simpl. destruct (decide (b = a)) as [->|Hne].
    + rewrite lookup_insert. intros [= <-]. simpl. by apply Hprev.
    + rewrite lookup_insert_ne by done. by apply Hback.
  - intros alo ahi rlo rhi Hau Hpg. simpl. intros Hlo Hhi.
    destruct (decide (ahi = a)) as [->|Hne].
    + rewrite lookup_insert in Hhi. simplify_eq. simpl.
      rewrite lookup_insert_ne in Hlo by (intros ->; lia).
      unfold Linked.tj_seq_start, Linked.tj_seq_end in *.
      destruct (decide (boundary_lsn (disk_view (Linked.truncated_journal s)) < seq_end (message_seq rlo))) as [Hlt|Hge]; [|lia].
      pose proof (path_chain _ _ _ Hw Hp Hb _ _ (Hlive _ _ Hlo Hlt)). lia.
    + rewrite lookup_insert_ne in Hhi by done. destruct (decide (alo = a)) as [->|Hne'].
      * exfalso. apply (Hafter ahi); [by eexists|]. split_and!; [apply Hwa; by eexists|done|done].
      * rewrite lookup_insert_ne in Hlo by done. by eapply (Hord alo ahi).
  - intros b r Hbr Hlt. destruct (decide (b = a)) as [->|Hne].
    + rewrite lookup_insert in Hbr. simplify_eq. by left.
    + rewrite lookup_insert_ne in Hbr by done. right. by apply Hlive.
Qed.

Lemma ma_inv_append tj m a msgs : ma_inv tj m → can_allocate m a →
  ma_inv (Linked.append_record tj a msgs) (ma_observe (allocate m a) a).
Proof.
  intros (Hmw&Hres&Hobs&Hcurr) (p0&Hp0&Hfree). destruct Hmw as [Hmw1 Hmw2].
  destruct (Hmw1 _ _ Hp0) as [Hpw Hpau]. destruct Hfree as (Haw&Hau&Hnin).
  pose proof (lookup_alloc_observe _ _ _ Hp0) as Hlk. split_and!; [split| | |].
  - intros u p [[-> ->]|[Hne Hp]]%Hlk; [|by apply Hmw1]. simpl. split; [|done].
    intros b Hb. simpl in *. destruct (decide (b = a)) as [->|Hne]; [done|]. apply Hpw. set_solver.
  - intros u. rewrite (curr_alloc_observe _ _ _ Hp0). case_match; [done|]. intros [= <-].
    eexists. apply Hlk. by left.
  - intros b p. simpl. destruct (decide (b = a)) as [->|Hne].
    + intros _ [[_ ->]|[? _]]%Hlk; [|done]. simpl. set_solver.
    + rewrite lookup_insert_ne by done. intros Hb [[Heq ->]|[? Hp]]%Hlk; simpl.
      * apply elem_of_union. left. eapply Hres; [done|]. by rewrite Heq.
      * by eapply Hres.
  - intros u p [[-> ->]|[Hne Hp]]%Hlk; [|by eapply Hobs]. simpl. specialize (Hobs _ _ Hp0). set_solver.
  - intros u. rewrite (curr_alloc_observe _ _ _ Hp0). case_match; [done|]. intros [= <-]. simpl. by exists a.
Qed.

Lemma alloc_next_sim pre post l : alloc_inv pre → AllocJournal.next pre post l →
  Linked.next (AllocJournal.journal pre) (AllocJournal.journal post) (AllocJournal.linked_lbl l) ∧ alloc_inv post.
Proof.
  intros Hinv Hn. pose proof Hinv as (Hi&(pl&Hst)&Hfirst&Hma). pose proof Hi as [Hwf Hac].
  pose proof Hwf as (Htw&Hmw&Hse&Hee).
  assert (Linked.next (AllocJournal.journal pre) (AllocJournal.journal post) (AllocJournal.linked_lbl l) ∧
    (linked_inv (AllocJournal.journal post) → alloc_inv post)) as [H1 H2].
  2: { split; [done|]. apply H2. by eapply linked_inv_next. }
  destruct Hn as [Hn|[[d Hn]|[Hn|[[nj Hn]|[[nj Hn]|[(cut&a&Hn)|[Hn|[Hn|Hn]]]]]]]].
  - destruct Hn as (_&Hn&->). by split.
  - destruct Hn as (img&frozen&->&Hcc&Hcd&Hfr&Hdt&Hnf&->). split; [|done].
    destruct (struct_freeze _ _ _ _ _ _ Htw Hac Hst Hcc Hcd Hfr Hdt) as (Hvd&Hdec&_).
    right; left. exists d. split; [done|]. exists (img_tj img).
    split; [done|]. split; [done|]. split; [by split|]. split; [done|]. split; [apply Hcd|]. split; [done|]. split; done.
  - destruct Hn as (_&Hn&->). by split.
  - destruct Hn as ([m ->]&Hn&->). split; [done|]. intros Hi'. simpl in *.
    assert (Linked.truncated_journal nj = AllocJournal.tj pre) as Etj.
    { destruct Hn as [[d' Hn]|[[d' Hn]|[Hn|[Hn|[[new Hn]|[(cut&b&Hn)|Hn]]]]]].
      + by destruct Hn as (_&?&?&_).
      + by destruct Hn as (_&?&?&_).
      + by destruct Hn as (_&?&_).
      + destruct Hn as (_&m'&_&_&_&->). done.
      + by destruct Hn as (_&?&?&?&_).
      + by destruct Hn as (_&_&?&_).
      + by destruct Hn as (_&?&_). }
    split; [done|]. unfold AllocJournal.tj. simpl. rewrite Etj. split_and!; [by exists pl|done|done].
  - destruct Hn as (lsn&re&deallocs&keep&nfirst&->&->&Hcd&Hnf&Hkeep&->&Hdt&Hut&->).
    destruct (struct_discard _ _ _ _ _ _ Htw Hac Hst Hcd Hkeep Hdt) as (Hvd&l'&rest&->&Hst'&Hrest&Hl').
    split.
    + do 4 right; left. exists (Linked.truncated_journal nj). split; [done|].
      exists lsn, (Linked.st_end (AllocJournal.journal pre)). split; [done|]. split; [done|]. split; [done|].
      split; [done|]. destruct nj as [ntj nt]. simpl in *. by rewrite Hut.
    + intros Hi'. split; [done|]. unfold AllocJournal.tj. simpl. split_and!; [by exists l'| |].
      * intros [f Hf]. pose proof Hdt as [(_&Hnb&_&_&Hnfr) _]. rewrite Hnb, Hnfr in *.
        case_decide as Hde; [done|]. destruct Hst as (Hp&Hok&_). pose proof Htw as [Hw Hb].
        assert (is_Some (AllocJournal.lsn_au_index pre !! lsn)) as [v Hv].
        { apply (idx_ok_dom au _ _ _ _ Hw Hp Hb Hok). destruct Hcd as [Hc1 Hc2].
          unfold AllocJournal.tj, Linked.tj_seq_start, Linked.tj_seq_end in *. lia. }
        apply lookup_discard_up_to. split; [done|]. rewrite Hv. f_equal. symmetry.
        apply (Hnf f v); [|done]. by rewrite decide_False.
      * destruct Hma as ([Hmw1 Hmw2]&Hres&Hobs&Hcurr). split_and!; [split| | |].
        -- intros u p [Hp _]%lookup_prune. by apply Hmw1.
        -- intros u. simpl. destruct (curr _) as [u'|] eqn:Ec; [|done]. case_decide; [done|]. intros [= <-].
           destruct (Hmw2 u' eq_refl) as [p Hp]. exists p. by apply lookup_prune.
        -- intros a p [r Ha] [Hp _]%lookup_prune. eapply Hres; [|done]. exists r.
           destruct Hdt as [(_&_&Hsub&_) _]. by eapply lookup_weaken.
        -- intros u p [Hp _]%lookup_prune. by eapply Hobs.
        -- intros u. simpl. destruct (curr _) as [u'|] eqn:Ec; [|done]. case_decide as Hdd; [done|]. intros [= <-].
           destruct (Hcurr u' eq_refl) as (f&Hf&Hfu). exists f. split; [|done].
           destruct Hdt as [(_&_&_&_&Hnfr) _]. rewrite Hnfr. case_decide as Hde; [|done]. exfalso. apply Hdd.
           (* everything was discarded, so the AU of [f] is discarded *)
           destruct Hst as (Hp&Hok&_). unfold tj_path in Hp. rewrite Hf in Hp.
           inversion Hp as [|? rf lt Hrf Hpt Heq1 Heq2]; subst.
           assert ((f, rf) ∈ l' ++ rest) as Hfin by (rewrite <- Heq2; by left).
           pose proof Htw as [Hw Hb].
           pose proof (entry_nonempty _ _ _ Hw Hrf) as Hne.
           unfold AllocJournal.tj in Hf. pose proof (proj2 Hb _ _ Hf Hrf) as Hbf.
           apply elem_of_difference. split.
           ++ apply elem_of_values. exists (seq_end (message_seq rf) - 1). apply Hok. exists f, rf.
              split_and!; [done|split; unfold AllocJournal.tj; lia|done].
           ++ intros [k Hk]%elem_of_values. apply lookup_discard_up_to in Hk as [Hk1 Hk2].
              assert (is_Some (AllocJournal.lsn_au_index pre !! k)) as Hks by (by eexists).
              unfold AllocJournal.tj in Hp. rewrite <- Hf in Hp.
              apply (idx_ok_dom au _ _ _ _ Hw Hp Hb Hok) in Hks.
              unfold AllocJournal.tj, Linked.tj_seq_end in *. lia.
  - destruct Hn as (->&Htn&Hcut&Hcan&->).
    destruct (tight_next_facts _ _ _ _ _ Hst Hma Htn) as (Hun&Haw&Hafter&Hprev).
    split.
    + do 5 right; left. exists cut, a. split; [done|]. split; [done|]. split; [done|]. split; [done|]. split; done.
    + intros Hi'. split; [done|]. unfold AllocJournal.tj. simpl. split_and!.
      * eexists. by apply struct_append.
      * intros _. unfold index_append_record. apply lookup_union_singleton. simpl.
        unfold AllocJournal.tj in Hfirst. pose proof Htw as [Hw Hb]. unfold Linked.tj_seq_start, Linked.tj_seq_end in *.
        destruct (freshest_rec (Linked.truncated_journal (AllocJournal.journal pre))) as [f|] eqn:Ef.
        -- right. split; [|apply Hfirst; by eexists]. destruct Hb as [Hb1 Hb2].
           destruct (Hb1 f eq_refl) as [rf Hrf]. specialize (Hb2 _ _ eq_refl Hrf). simpl in Hee. rewrite Hrf in Hee.
           lia.
        -- left. simpl in Hee. split; [lia|done].
      * apply ma_inv_append; [done|apply Htn].
  - destruct Hn as (alls&->&Hd1&Hd2&->). split; [by do 6 right|]. intros Hi'.
    split; [done|]. split; [by exists pl|]. split; [done|]. unfold AllocJournal.tj in *. simpl in *.
    destruct Hma as ([Hmw1 Hmw2]&Hres&Hobs&Hcurr). split_and!; [split| | |].
    + intros u p [Hp|(_&_&->)]%lookup_add_aus; [by apply Hmw1|]. split; [|done]. intros b Hb. simpl in Hb. set_solver.
    + intros u Hu. destruct (Hmw2 u Hu) as [p Hp]. exists p. apply lookup_add_aus. by left.
    + intros b p Hb [Hp|(_&Hin&->)]%lookup_add_aus; [by eapply Hres|]. exfalso.
      destruct Hst as (_&_&_&Ht&_). destruct (Ht b Hb) as [Hv _]. set_solver.
    + intros u p [Hp|(_&_&->)]%lookup_add_aus; [by eapply Hobs|]. done.
    + intros u Hu. by apply Hcurr.
  - destruct Hn as (deallocs&->&Hrm&->). split; [by do 6 right|]. intros Hi'.
    split; [done|]. split; [by exists pl|]. split; [done|]. unfold AllocJournal.tj in *. simpl in *.
    destruct Hma as ([Hmw1 Hmw2]&Hres&Hobs&Hcurr). split_and!; [split| | |].
    + intros u p [Hp _]%lookup_prune. by apply Hmw1.
    + intros u. simpl. destruct (curr _) as [u'|] eqn:Ec; [|done]. case_decide; [done|]. intros [= <-].
      destruct (Hmw2 u' eq_refl) as [p Hp]. exists p. by apply lookup_prune.
    + intros b p Hb [Hp _]%lookup_prune. by eapply Hres.
    + intros u p [Hp _]%lookup_prune. by eapply Hobs.
    + intros u. simpl. destruct (curr _) as [u'|] eqn:Ec; [|done]. case_decide; [done|]. intros [= <-]. by apply Hcurr.
  - destruct Hn as (->&->). split; [by do 6 right|done].
Qed.
Lemma alloc_init s j img : AllocJournal.initialize s j img →
  Linked.initialize (AllocJournal.journal s) (img_tj img) ∧ alloc_inv s.
Proof.
  intros (Hv&Hj&->). split; [done|]. pose proof (valid_image_struct _ Hv) as (Hd&(l&Hst)&Hf).
  destruct Hj as [Hj1 ->]. split; [by apply (linked_init_sim _ (img_tj img))|].
  split; [by exists l|]. split; [done|]. split_and!; [split; done|done|done|done].
Qed.
Lemma alloc_run s0 j img ls s : AllocJournal.initialize s0 j img → run AllocJournal.next s0 ls s →
  Linked.initialize (AllocJournal.journal s0) (img_tj img) ∧
  run Linked.next (AllocJournal.journal s0) (AllocJournal.linked_lbl <$> ls) (AllocJournal.journal s) ∧ alloc_inv s.
Proof.
  intros Hi Hr. destruct (alloc_init _ _ _ Hi) as [Hli Hinv]. split; [done|].
  clear Hi. induction Hr as [|s0 ls s1 l s2 Hr IH Hn]; [split; [constructor|done]|].
  destruct IH as [Hr1 Hi1]; [done|done|]. destruct (alloc_next_sim _ _ _ Hi1 Hn) as [Hn1 Hi2].
  split; [|done]. rewrite fmap_app. by eapply run_snoc.
Qed.
End Alloc.
