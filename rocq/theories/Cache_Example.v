(** Concrete runs of the page cache: a page written, written back, evicted and
    read again; the lost update of the cache as written; the invariant of the
    code that does not hold. *)
From Verif Require Import Spec_Model Spec_Proof Disk_Model Cache_Model Cache_Spec Cache_Proof.
Open Scope Z_scope.

(** A cache as [initialize] makes it exists. *)
Lemma fresh_cache (n : SlotRange) : ∃ c, Cache.initialize c n.
Proof.
  set (hi := Z.min (Z.of_nat (slots n)) (slot_max + 1)).
  set (X := list_to_set (seqZ (first_slot n) (hi - first_slot n)) : gset Z).
  assert (HX : ∀ s, s ∈ X ↔ first_slot n ≤ s ≤ slot_max ∧ s < Z.of_nat (slots n)).
  { intros s. unfold X. rewrite elem_of_list_to_set, elem_of_seqZ. unfold hi. lia. }
  clearbody X. exists (Cache.mkState (gset_to_gmap Empty X) (gset_to_gmap NotFilled X) ∅ ∅).
  split; [|split; [|done]]; intros s; cbn; destruct (decide _) as [Hd|Hd].
  - by apply lookup_gset_to_gmap_Some, conj; [apply HX|].
  - apply lookup_gset_to_gmap_None. by rewrite HX.
  - by apply lookup_gset_to_gmap_Some, conj; [apply HX|].
  - apply lookup_gset_to_gmap_None. by rewrite HX.
Qed.

(** What matters of a state in which only page [a] is cached, in slot [k]. *)
Section view.
  Context `{Geometry} (b : bool) (n : SlotRange) (a : Address) (k : Slot).
  Notation nx := (CacheSys.next b n).
  Definition lk (e : Entry) : gmap Address Slot := match e with Empty => ∅ | _ => {[a := k]} end.
  Definition V (s : CacheSys.State) e st out q r c : Prop :=
    Cache.entries (CacheSys.cache s) !! k = Some e ∧ Cache.status_map (CacheSys.cache s) !! k = Some st ∧
    Cache.lookup_map (CacheSys.cache s) = lk e ∧ Cache.outstanding_reqs (CacheSys.cache s) = out ∧
    CacheSys.disk s = AsyncDisk.mkState q r c.
  Lemma inj_single : injective ({[k := a]} : gmap Slot Address).
  Proof. intros k1 k2 v. rewrite !lookup_singleton_Some. by intros [<- _] [<- _]. Qed.
  Lemma inv_single : inverts ({[k := a]} : gmap Slot Address) ({[a := k]} : gmap Address Slot).
  Proof.
    split.
    - intros k' v. rewrite lookup_singleton_Some. intros [<- <-]. rewrite lookup_singleton. by eexists.
    - intros v k'. rewrite !lookup_singleton_Some. by intros [<- <-].
  Qed.
  Lemma new_single c : Cache.entries c !! k = Some Empty → Cache.lookup_map c = ∅ →
    Cache.valid_new_slots_mapping c {[k := a]}.
  Proof.
    intros He Hl. split; [apply inj_single|]. split.
    - intros s' a' _. by rewrite Hl, lookup_empty.
    - intros s' a'. rewrite lookup_singleton_Some. by intros [<- <-].
  Qed.
  Lemma v_reserve s st out q r c : V s Empty st out q r c →
    ∃ s', nx s s' CacheSys.Internal ∧ V s' (Reserved a) st out q r c.
  Proof.
    intros (He & Hs & Hl & Ho & Hd). destruct s as [ca d]. cbn in *. eexists. split.
    - do 3 right. left. split; [done|]. eexists. split; [|reflexivity]. left. exists {[k := a]}. split; [done|].
      split; [by apply new_single|]. exists {[a := k]}. split; [apply inv_single|reflexivity].
    - unfold V; cbn. rewrite map_fmap_singleton, Hl. cbn. rewrite (right_id_L ∅ (∪)).
      split; [|done]. apply lookup_union_Some_l, lookup_singleton.
  Qed.
  Lemma v_write s e st out q r c d : V s e st out q r c →
    get_addr e = Some a → (e = Reserved a ∨ (∃ d', e = Filled a d') ∧ st ≠ Writeback) →
    ∃ s', nx s s' (CacheSys.Access ∅ {[a := d]}) ∧ V s' (Filled a d) Dirty out q r c.
  Proof.
    intros (He & Hs & Hl & Ho & Hd) Ha Hc. destruct s as [ca di]. cbn in *. eexists. split.
    - left. exists ∅, {[a := d]}. eexists. split; [done|]. split; [|reflexivity]. do 3 right. left.
      exists ∅, {[a := d]}. split; [done|]. split; [intros ? ? Hx; by rewrite lookup_empty in Hx|]. split.
      + intros a' d' [<- <-]%lookup_singleton_Some. exists k. split.
        * cbn [CacheSys.cache]. rewrite Hl. destruct e; [done|..]; apply lookup_singleton.
        * destruct Hc as [->|[[d' ->] Hn]]; [left; eauto|right]. split; [eauto|]. cbn [CacheSys.cache]. congruence.
      + reflexivity.
    - unfold V; cbn.
      assert (Hws : map_values (restrict (Cache.lookup_map ca) (dom ({[a := d]} : gmap Address RawPage))) = {[k]}).
      { apply set_eq. intros x. rewrite elem_of_map_values, elem_of_singleton. rewrite Hl. split.
        - intros [y Hy]. apply lookup_restrict in Hy as [Hy _]. destruct e; cbn in Hy; [done|..]; by apply lookup_singleton_Some in Hy as [_ ->].
        - intros ->. exists a. apply lookup_restrict. split; [destruct e; [done|..]; apply lookup_singleton|].
          rewrite dom_singleton_L. set_solver. }
      rewrite Hws, lookup_gset_union, decide_True by set_solver. split; [|split; [done|split; [|done]]].
      + apply lookup_union_Some_l. rewrite map_lookup_imap, He. cbn. unfold Cache.written.
        rewrite decide_True by set_solver. rewrite Ha. cbn. by rewrite lookup_singleton.
      + rewrite Hl. by destruct e.
  Qed.
  Lemma v_writeback s out q r c d reqs : V s (Filled a d) Dirty out q r c →
    reqs ≠ ∅ → (∀ id x, reqs !! id = Some x → x = WriteReq a d) → (b = true → injective reqs) →
    dom reqs ## dom out → dom reqs ## dom q → dom reqs ## dom r →
    ∃ s', nx s s' CacheSys.Internal ∧ V s' (Filled a d) Writeback (((λ _, k) <$> reqs) ∪ out) (reqs ∪ q) r c.
  Proof.
    intros (He & Hs & Hl & Ho & Hd) Hne Hx Hi D1 D2 D3. destruct s as [ca di]. cbn in *. subst out di.
    assert (Hu : omap (λ x, Cache.lookup_map ca !! req_addr x) reqs = (λ _, k) <$> reqs).
    { apply map_eq. intros id. rewrite lookup_omap, lookup_fmap.
      destruct (reqs !! id) as [x|] eqn:Hxx; [|done]. cbn. rewrite (Hx _ _ Hxx), Hl. cbn. by rewrite lookup_singleton. }
    eexists. split.
    - do 2 right. left. split; [done|]. exists reqs, ∅. eexists _, _. split; [|split; [|reflexivity]].
      + do 4 right. left. exists reqs. do 3 (split; [done|]). split.
        { intros id x Hxx. exists a, d, k. cbn [CacheSys.cache]. rewrite (Hx _ _ Hxx), Hl. split; [done|]. split; [apply lookup_singleton|done]. }
        split; [done|]. reflexivity.
      + left. exists reqs, ∅. do 3 (split; [done|]). split; [apply map_empty_subseteq|]. reflexivity.
    - unfold V; cbn. rewrite Hu, map_difference_empty. split; [done|]. split; [|done].
      rewrite lookup_gset_union, decide_True; [done|]. apply elem_of_map_values.
      destruct (map_choose _ Hne) as (id & x & Hxx). exists id. by rewrite lookup_fmap, Hxx.
  Qed.
  Lemma v_disk_write s e st out q r c id d : V s e st out q r c → addr_wf a → q !! id = Some (WriteReq a d) →
    ∃ s', nx s s' CacheSys.Internal ∧ V s' e st out (delete id q) (<[id := WriteResp]> r) (<[a := d]> c).
  Proof.
    intros (He & Hs & Hl & Ho & Hd) Hwf Hq. destruct s as [ca di]. cbn in *. subst di. eexists. split.
    - do 4 right. left. split; [done|]. eexists. split; [|reflexivity]. right. right. left. exists id. split; [done|].
      exists a, d. split; [done|]. split; [done|]. reflexivity.
    - done.
  Qed.
  Lemma v_complete s d out q r c id : V s (Filled a d) Writeback out q r c →
    out !! id = Some k → r !! id = Some WriteResp →
    ∃ s', nx s s' CacheSys.Internal ∧ V s' (Filled a d) Clean (delete id out) q (delete id r) c.
  Proof.
    intros (He & Hs & Hl & Ho & Hd) Hid Hr. destruct s as [ca di]. cbn in *. subst out di. eexists. split.
    - do 2 right. left. split; [done|]. exists ∅, {[id := WriteResp]}. eexists _, _. split; [|split; [|reflexivity]].
      + do 5 right. left. exists {[id := WriteResp]}. split; [done|]. split; [apply map_non_empty_singleton|]. split.
        { rewrite dom_singleton_L. apply singleton_subseteq_l, elem_of_dom. by eexists. }
        split; [|reflexivity]. intros id' x [<- <-]%lookup_singleton_Some. split; [done|]. exists k, a, d. done.
      + left. exists ∅, {[id := WriteResp]}. split; [done|]. rewrite dom_empty_L. do 2 (split; [apply disjoint_empty_l|]).
        split; [by apply map_singleton_subseteq_l|]. reflexivity.
    - unfold V; cbn. rewrite dom_singleton_L. split; [done|]. split; [|split; [done|]].
      + rewrite lookup_gset_union, decide_True; [done|]. apply elem_of_map_values. exists id.
        apply lookup_restrict. set_solver.
      + split.
        * apply map_eq. intros x. apply option_eq. intros v. rewrite lookup_remove_keys, lookup_delete_Some. set_solver.
        * f_equal; [by rewrite (left_id_L ∅ (∪))|]. apply map_eq. intros x. apply option_eq. intros v.
          rewrite lookup_difference_Some, lookup_delete_Some, lookup_singleton_None. naive_solver.
  Qed.
  Lemma v_check s d out q r c : V s (Filled a d) Clean out q r c → nx s s (CacheSys.EvictableCheck {[a]}).
  Proof.
    intros (He & Hs & Hl & Ho & Hd). apply check_step. intros k' Hk'. rewrite Hl in Hk'. cbn in Hk'.
    apply lookup_singleton_Some in Hk' as [_ <-]. eauto.
  Qed.
  Lemma v_evict s d out q r c : V s (Filled a d) Clean out q r c →
    ∃ s', nx s s' CacheSys.Internal ∧ V s' Empty NotFilled out q r c.
  Proof.
    intros (He & Hs & Hl & Ho & Hd). destruct s as [ca di]. cbn in *. eexists. split.
    - do 3 right. left. split; [done|]. eexists. split; [|reflexivity]. do 6 right. left. exists {[k]}. split; [done|]. split.
      { apply singleton_subseteq_l, elem_of_dom. by eexists. }
      split; [|reflexivity]. intros k' ->%elem_of_singleton. eauto.
    - unfold V; cbn. rewrite !lookup_gset_union, !decide_True by set_solver. do 2 (split; [done|]). split; [|done].
      apply map_eq. intros x. rewrite lookup_empty. apply eq_None_not_Some. intros [v Hv].
      apply lookup_remove_keys in Hv as [Hv Hx]. rewrite Hl in Hv. cbn in Hv. apply lookup_singleton_Some in Hv as [<- <-].
      apply Hx, elem_of_map_values. exists k. apply lookup_omap_Some. exists (Filled a d). split; [done|].
      apply lookup_restrict. set_solver.
  Qed.
  Lemma v_load s st out q r c id : V s Empty st out q r c → out !! id = None → q !! id = None → r !! id = None →
    ∃ s', nx s s' CacheSys.Internal ∧ V s' (Loading a) st (<[id := k]> out) (<[id := ReadReq a]> q) r c.
  Proof.
    intros (He & Hs & Hl & Ho & Hd) H1 H2 H3. destruct s as [ca di]. cbn in *. subst out di. eexists. split.
    - do 2 right. left. split; [done|]. exists {[id := ReadReq a]}, ∅. eexists _, _. split; [|split; [|reflexivity]].
      + right. left. exists {[k := a]}, {[id := ReadReq a]}. split; [done|]. split; [apply map_non_empty_singleton|].
        split; [by apply new_single|]. split.
        { intros i1 i2 v. rewrite !lookup_singleton_Some. by intros [<- _] [<- _]. }
        split.
        { rewrite dom_singleton_L. by apply disjoint_singleton_l, not_elem_of_dom. }
        split.
        { split.
          - intros id' x [<- <-]%lookup_singleton_Some. eauto.
          - intros a'. split.
            + intros [id' Hid]. apply lookup_singleton_Some in Hid as [_ [= ->]]. exists k. apply lookup_singleton.
            + intros [k' Hk]. apply lookup_singleton_Some in Hk as [_ ->]. exists id. apply lookup_singleton. }
        exists {[a := k]}. split; [apply inv_single|reflexivity].
      + left. exists {[id := ReadReq a]}, ∅. split; [done|]. rewrite dom_singleton_L.
        split; [by apply disjoint_singleton_l, not_elem_of_dom|].
        split; [by apply disjoint_singleton_l, not_elem_of_dom|].
        split; [apply map_empty_subseteq|]. reflexivity.
    - unfold V; cbn. rewrite map_fmap_singleton, Hl, map_difference_empty. cbn. rewrite (right_id_L ∅ (∪)).
      split; [apply lookup_union_Some_l, lookup_singleton|]. split; [done|]. split; [done|].
      rewrite (omap_singleton_Some _ _ _ k); [|cbn; apply lookup_singleton]. by rewrite <- !insert_union_singleton_l.
  Qed.
  Lemma v_disk_read s e st out q r c id d : V s e st out q r c → addr_wf a → q !! id = Some (ReadReq a) →
    (∀ d', c !! a = Some d' → d = d') →
    ∃ s', nx s s' CacheSys.Internal ∧ V s' e st out (delete id q) (<[id := ReadResp d]> r) c.
  Proof.
    intros (He & Hs & Hl & Ho & Hd) Hwf Hq Hc. destruct s as [ca di]. cbn in *. subst di. eexists. split.
    - do 4 right. left. split; [done|]. eexists. split; [|reflexivity]. right. left. exists id. split; [done|].
      exists a, d. split; [done|]. split; [done|]. split; [done|]. reflexivity.
    - done.
  Qed.
  Lemma v_loaded s st d out q r c id : V s (Loading a) st out q r c →
    out !! id = Some k → r !! id = Some (ReadResp d) →
    ∃ s', nx s s' CacheSys.Internal ∧ V s' (Filled a d) Clean (delete id out) q (delete id r) c.
  Proof.
    intros (He & Hs & Hl & Ho & Hd) Hid Hr. destruct s as [ca di]. cbn in *. subst out di.
    set (resps := {[id := ReadResp d]} : gmap ID DiskResponse). eexists. split.
    - do 2 right. left. split; [done|]. exists ∅, resps. eexists _, _. split; [|split; [|reflexivity]].
      + do 2 right. left. exists resps. split; [done|]. split; [apply map_non_empty_singleton|]. split.
        { unfold resps. rewrite dom_singleton_L. apply singleton_subseteq_l, elem_of_dom. by eexists. }
        split.
        { intros id' x. unfold resps. rewrite lookup_singleton_Some. intros [<- <-]. split; eauto. }
        exists {[k := id]}. split; [|reflexivity]. unfold resps. rewrite dom_singleton_L. split.
        * intros id' k'. rewrite lookup_restrict. intros [Hk' ->%elem_of_singleton].
          cbn [CacheSys.cache] in Hk'. assert (k' = k) as -> by congruence. rewrite lookup_singleton. by eexists.
        * intros k' id'. rewrite lookup_singleton_Some. intros [<- <-]. apply lookup_restrict. set_solver.
      + left. exists ∅, resps. split; [done|]. rewrite dom_empty_L. do 2 (split; [apply disjoint_empty_l|]).
        split; [by apply map_singleton_subseteq_l|]. reflexivity.
    - unfold V; cbn. split; [|split; [|split; [done|split]]].
      + apply lookup_union_Some_l. rewrite map_lookup_imap, lookup_singleton. cbn. unfold Cache.loaded.
        rewrite He. unfold resps. by rewrite lookup_singleton.
      + apply lookup_union_Some_l. by rewrite lookup_fmap, lookup_singleton.
      + unfold resps. rewrite dom_singleton_L. apply map_eq. intros x. apply option_eq. intros v. rewrite lookup_remove_keys, lookup_delete_Some. set_solver.
      + f_equal; [by rewrite (left_id_L ∅ (∪))|]. apply map_eq. intros x. apply option_eq. intros v. unfold resps.
        rewrite lookup_difference_Some, lookup_delete_Some, lookup_singleton_None. naive_solver.
  Qed.
  Lemma v_read s d st out q r c : V s (Filled a d) st out q r c → nx s s (CacheSys.Access {[a := d]} ∅).
  Proof.
    intros (He & Hs & Hl & Ho & Hd). left. exists {[a := d]}, ∅, (CacheSys.cache s). split; [done|].
    split; [|by destruct s]. do 3 right. left. exists {[a := d]}, ∅. split; [done|]. split.
    { intros b' d0 [<- <-]%lookup_singleton_Some. exists k, a. cbn [CacheSys.cache]. rewrite Hl. split; [apply lookup_singleton|done]. }
    split; [intros ? ? Hb; by rewrite lookup_empty in Hb|]. cbv zeta.
    assert (Hws : map_values (restrict (Cache.lookup_map (CacheSys.cache s)) (dom (∅ : gmap Address RawPage))) = ∅).
    { apply set_eq. intros x. rewrite elem_of_map_values. split; [|set_solver]. intros [y Hy].
      apply lookup_restrict in Hy as [_ Hy]. set_solver. }
    rewrite Hws, gset_to_gmap_empty, (left_id_L ∅ (∪)).
    assert (Hm : map_imap (Cache.written ∅ ∅) (Cache.entries (CacheSys.cache s)) = ∅).
    { apply map_eq. intros x. rewrite map_lookup_imap, lookup_empty.
      destruct (Cache.entries (CacheSys.cache s) !! x); [|done]. cbn. unfold Cache.written.
      by rewrite decide_False by set_solver. }
    rewrite Hm, (left_id_L ∅ (∪)). by destruct (CacheSys.cache s).
  Qed.
  Lemma v_crash s e st out q r c : V s e st out q r c → first_slot n ≤ k ≤ slot_max → k < Z.of_nat (slots n) →
    ∃ s', nx s s' CacheSys.Crash ∧ V s' Empty NotFilled ∅ ∅ ∅ c.
  Proof.
    intros (He & Hs & Hl & Ho & Hd) Hk Hn. destruct (fresh_cache n) as [c' Hc'].
    exists (CacheSys.mkState c' (AsyncDisk.mkState ∅ ∅ c)). split.
    - do 5 right. split; [done|]. split; [|done]. do 3 right. split; [done|]. cbn. by rewrite Hd.
    - destruct Hc' as (E & S & L & O). unfold V; cbn [CacheSys.cache CacheSys.disk].
      rewrite E, S, !decide_True by done. done.
  Qed.
End view.


(** ** Concrete runs *)
Definition geo : Geometry := Build_Geometry 4 4.
Definition pg : Address := mkAddr 1 2.
Lemma pg_wf : @addr_wf geo pg.
Proof. split; cbn; lia. Qed.

(** The initial state: an empty cache with 2 slots over a disk that holds [[0]] at
    page [pg]. *)
Definition c0 : gmap Address RawPage := {[pg := [0%N]]}.
Lemma ex_init : ∃ s0, CacheSys.init 2%nat s0 c0 ∧ V pg 0 s0 Empty NotFilled ∅ ∅ ∅ c0.
Proof.
  destruct (fresh_cache 2%nat) as [c Hc]. exists (CacheSys.mkState c (AsyncDisk.mkState ∅ ∅ c0)). split; [done|].
  destruct Hc as (E & S & L & O). unfold V; cbn [CacheSys.cache CacheSys.disk].
  rewrite E, S, !decide_True by (unfold slot_max; vm_compute; intuition discriminate). done.
Qed.

Ltac dec := apply (bool_decide_eq_true_1 _); vm_compute; reflexivity.
Notation run1 N r := (run_cons _ _ _ _ _ _ N r).
Notation run0 := (run_nil _ _).
Notation I := CacheSys.Internal.
Notation wr d := (CacheSys.Access ∅ {[pg := d]}).
Notation rd d := (CacheSys.Access {[pg := d]} ∅).

(** The code as written: two requests of one batch write the same page back. The
    second is still in flight when the page is written again, written back,
    checked and evicted; it then overwrites the newer content. *)
Definition lost_trace : trace :=
  [I; wr [1%N]; I; I; I; wr [2%N]; I; I; I; CacheSys.EvictableCheck {[pg]}; I; I; I; I; I].
Lemma lost_run : ∃ s0 s s', CacheSys.init 2%nat s0 c0 ∧ run (@CacheSys.next geo false 2%nat) s0 lost_trace s ∧
  @CacheSys.next geo false 2%nat s s' (rd [1%N]).
Proof.
  destruct ex_init as (s0 & Hi & W0). assert (Hg := pg_wf).
  destruct (@v_reserve geo false 2%nat _ _ _ _ _ _ _ _ W0) as (s1 & N1 & W1).
  destruct (@v_write geo false 2%nat _ _ _ _ _ _ _ _ _ [1%N] W1 eq_refl (or_introl eq_refl)) as (s2 & N2 & W2).
  destruct (@v_writeback geo false 2%nat _ _ _ _ _ _ _ _ {[1%N := WriteReq pg [1%N]; 2%N := WriteReq pg [1%N]]} W2)
    as (s3 & N3 & W3); [dec| |done|dec..|].
  { intros id x. rewrite lookup_insert_Some, lookup_singleton_Some. naive_solver. }
  destruct (@v_disk_write geo false 2%nat _ _ _ _ _ _ _ _ _ 1%N [1%N] W3 Hg eq_refl) as (s4 & N4 & W4).
  destruct (@v_complete geo false 2%nat _ _ _ _ _ _ _ _ 1%N W4 eq_refl eq_refl) as (s5 & N5 & W5).
  destruct (@v_write geo false 2%nat _ _ _ _ _ _ _ _ _ [2%N] W5 eq_refl) as (s6 & N6 & W6); [right; eauto|].
  destruct (@v_writeback geo false 2%nat _ _ _ _ _ _ _ _ {[3%N := WriteReq pg [2%N]]} W6)
    as (s7 & N7 & W7); [dec| |done|dec..|].
  { intros id x. rewrite lookup_singleton_Some. naive_solver. }
  destruct (@v_disk_write geo false 2%nat _ _ _ _ _ _ _ _ _ 3%N [2%N] W7 Hg eq_refl) as (s8 & N8 & W8).
  destruct (@v_complete geo false 2%nat _ _ _ _ _ _ _ _ 3%N W8 eq_refl eq_refl) as (s9 & N9 & W9).
  assert (N10 := @v_check geo false 2%nat _ _ _ _ _ _ _ _ W9).
  destruct (@v_evict geo false 2%nat _ _ _ _ _ _ _ _ W9) as (s11 & N11 & W11).
  destruct (@v_disk_write geo false 2%nat _ _ _ _ _ _ _ _ _ 2%N [1%N] W11 Hg eq_refl) as (s12 & N12 & W12).
  destruct (@v_load geo false 2%nat _ _ _ _ _ _ _ _ 4%N W12 eq_refl eq_refl eq_refl) as (s13 & N13 & W13).
  destruct (@v_disk_read geo false 2%nat _ _ _ _ _ _ _ _ _ 4%N [1%N] W13 Hg eq_refl) as (s14 & N14 & W14).
  { intros d'. vm_compute. congruence. }
  destruct (@v_loaded geo false 2%nat _ _ _ _ [1%N] _ _ _ _ 4%N W14 eq_refl eq_refl) as (s15 & N15 & W15).
  assert (N16 := @v_read geo false 2%nat _ _ _ _ _ _ _ _ _ W15).
  exists s0, s15, s15. split; [done|]. split; [|done].
  exact (run1 N1 (run1 N2 (run1 N3 (run1 N4 (run1 N5 (run1 N6 (run1 N7 (run1 N8 (run1 N9 (run1 N10
    (run1 N11 (run1 N12 (run1 N13 (run1 N14 (run1 N15 run0))))))))))))))).
Qed.

(** The repaired cache: the page is written, written back, checked, written again;
    a crash loses the second write and keeps the first; the page is loaded again. *)
Definition good_trace : trace :=
  [I; wr [1%N]; I; I; I; CacheSys.EvictableCheck {[pg]}; wr [2%N]; CacheSys.Crash; I; I; I].
Lemma good_run : ∃ s0 s, CacheSys.init 2%nat s0 c0 ∧ run (@CacheSys.next geo true 2%nat) s0 (good_trace ++ [rd [1%N]]) s.
Proof.
  destruct ex_init as (s0 & Hi & W0). assert (Hg := pg_wf).
  destruct (@v_reserve geo true 2%nat _ _ _ _ _ _ _ _ W0) as (s1 & N1 & W1).
  destruct (@v_write geo true 2%nat _ _ _ _ _ _ _ _ _ [1%N] W1 eq_refl (or_introl eq_refl)) as (s2 & N2 & W2).
  destruct (@v_writeback geo true 2%nat _ _ _ _ _ _ _ _ {[1%N := WriteReq pg [1%N]]} W2)
    as (s3 & N3 & W3); [dec| | |dec..|].
  { intros id x. rewrite lookup_singleton_Some. naive_solver. }
  { intros _ i1 i2 v. rewrite !lookup_singleton_Some. naive_solver. }
  destruct (@v_disk_write geo true 2%nat _ _ _ _ _ _ _ _ _ 1%N [1%N] W3 Hg eq_refl) as (s4 & N4 & W4).
  destruct (@v_complete geo true 2%nat _ _ _ _ _ _ _ _ 1%N W4 eq_refl eq_refl) as (s5 & N5 & W5).
  assert (N6 := @v_check geo true 2%nat _ _ _ _ _ _ _ _ W5).
  destruct (@v_write geo true 2%nat _ _ _ _ _ _ _ _ _ [2%N] W5 eq_refl) as (s6 & N7 & W6); [right; eauto|].
  destruct (@v_crash geo true 2%nat _ _ _ _ _ _ _ _ _ W6) as (s7 & N8 & W7); [unfold slot_max; vm_compute; intuition discriminate..|].
  destruct (@v_load geo true 2%nat _ _ _ _ _ _ _ _ 4%N W7 eq_refl eq_refl eq_refl) as (s8 & N9 & W8).
  destruct (@v_disk_read geo true 2%nat _ _ _ _ _ _ _ _ _ 4%N [1%N] W8 Hg eq_refl) as (s9 & N10 & W9).
  { intros d'. vm_compute. congruence. }
  destruct (@v_loaded geo true 2%nat _ _ _ _ [1%N] _ _ _ _ 4%N W9 eq_refl eq_refl) as (s10 & N11 & W10).
  assert (N12 := @v_read geo true 2%nat _ _ _ _ _ _ _ _ _ W10).
  exists s0, s10. split; [done|].
  exact (run1 N1 (run1 N2 (run1 N3 (run1 N4 (run1 N5 (run1 N6 (run1 N7 (run1 N8 (run1 N9 (run1 N10
    (run1 N11 (run1 N12 run0)))))))))))).
Qed.
(** A crash-free run that reads the last write, with a write back in flight. *)
Definition calm_trace : trace := [I; wr [1%N]; I].
Lemma calm_ex : ∃ s0 s, CacheSys.init 2%nat s0 c0 ∧ run (@CacheSys.next geo true 2%nat) s0 calm_trace s ∧
  @CacheSys.next geo true 2%nat s s (rd [1%N]) ∧
  AsyncDisk.requests (CacheSys.disk s) !! 1%N = Some (WriteReq pg [1%N]).
Proof.
  destruct ex_init as (s0 & Hi & W0).
  destruct (@v_reserve geo true 2%nat _ _ _ _ _ _ _ _ W0) as (s1 & N1 & W1).
  destruct (@v_write geo true 2%nat _ _ _ _ _ _ _ _ _ [1%N] W1 eq_refl (or_introl eq_refl)) as (s2 & N2 & W2).
  destruct (@v_writeback geo true 2%nat _ _ _ _ _ _ _ _ {[1%N := WriteReq pg [1%N]]} W2)
    as (s3 & N3 & W3); [dec| | |dec..|].
  { intros id x. rewrite lookup_singleton_Some. naive_solver. }
  { intros _ i1 i2 v. rewrite !lookup_singleton_Some. naive_solver. }
  assert (N12 := @v_read geo true 2%nat _ _ _ _ _ _ _ _ _ W3).
  exists s0, s3. split; [done|]. split; [exact (run1 N1 (run1 N2 (run1 N3 run0)))|]. split; [done|].
  destruct W3 as (_ & _ & _ & _ & ->). vm_compute. reflexivity.
Qed.
(** A clean page about to be evicted. *)
Lemma evict_ex : ∃ s0 tr s s', CacheSys.init 2%nat s0 c0 ∧ run (@CacheSys.next geo true 2%nat) s0 tr s ∧
  @CacheSys.next geo true 2%nat s s' I ∧ slot_holds (CacheSys.cache s) 0 pg [0%N] ∧ ¬ slot_for (CacheSys.cache s') 0 pg.
Proof.
  destruct ex_init as (s0 & Hi & W0). assert (Hg := pg_wf).
  destruct (@v_load geo true 2%nat _ _ _ _ _ _ _ _ 4%N W0 eq_refl eq_refl eq_refl) as (s8 & N9 & W8).
  destruct (@v_disk_read geo true 2%nat _ _ _ _ _ _ _ _ _ 4%N [0%N] W8 Hg eq_refl) as (s9 & N10 & W9).
  { intros d'. vm_compute. congruence. }
  destruct (@v_loaded geo true 2%nat _ _ _ _ [0%N] _ _ _ _ 4%N W9 eq_refl eq_refl) as (s10 & N11 & W10).
  destruct (@v_evict geo true 2%nat _ _ _ _ _ _ _ _ W10) as (s11 & N12 & W11).
  exists s0, [I; I; I], s10, s11. split; [done|]. split; [exact (run1 N9 (run1 N10 (run1 N11 run0)))|]. split; [done|].
  destruct W10 as (W10 & _). split; [done|]. destruct W11 as (W11 & _). intros (e & He & Ha).
  rewrite W11 in He. injection He as <-. done.
Qed.

(** The code's invariant [Cache.inv] says that the lookup table is built from the
    filled slots; reserving a slot breaks it. *)
Lemma init_declared n c : Cache.initialize c n → Cache.inv c.
Proof.
  intros (E & S & L & O).
  assert (HE : ∀ k e, Cache.entries c !! k = Some e → e = Empty) by (intros k e; rewrite E; destruct (decide _); congruence).
  assert (HS : ∀ k e, Cache.status_map c !! k = Some e → e = NotFilled) by (intros k e; rewrite S; destruct (decide _); congruence).
  split; [|split; [|split; [|split; [|split; [|split]]]]].
  - intros k1 k2 e1 e2 H1 _ N1. by destruct N1, (HE _ _ H1).
  - apply set_eq. intros k. rewrite !elem_of_dom, E, S. destruct (decide _); split; intros [? ?]; eauto; done.
  - rewrite L. split.
    + intros k v Hv. apply lookup_omap_Some in Hv as (e & Hf & He). rewrite (HE _ _ He) in Hf. done.
    + intros k v Hv. by rewrite lookup_empty in Hv.
  - intros k st Hst. rewrite (HS _ _ Hst). split; [|done]. intros _ (a & d & He). by apply HE in He.
  - rewrite O. set_solver.
  - rewrite O. intros k1 k2 v Hv. by rewrite lookup_empty in Hv.
  - rewrite O. intros id k Hv. by rewrite lookup_empty in Hv.
Qed.
Lemma reserve_breaks strict : ∃ c c', Cache.initialize c 2%nat ∧ Cache.inv c ∧ Cache.next strict c c' Cache.Internal ∧ ¬ Cache.inv c'.
Proof.
  destruct (fresh_cache 2%nat) as [c Hc]. exists c. eexists. split; [done|]. split; [by eapply init_declared|]. split.
  - left. exists {[0 := pg]}. split; [done|]. split.
    + destruct Hc as (E & _ & L & _). apply new_single; [|done].
      rewrite E, decide_True; [done|unfold slot_max; vm_compute; intuition discriminate].
    + exists {[pg := 0]}. split; [apply inv_single|reflexivity].
  - intros (_ & _ & [_ Hb] & _). cbn [Cache.lookup_map Cache.entries] in Hb.
    specialize (Hb pg 0 (lookup_union_Some_l _ _ _ _ (lookup_singleton _ _))).
    apply lookup_omap_Some in Hb as (e & Hf & He).
    rewrite map_fmap_singleton in He. erewrite lookup_union_Some_l in He by apply lookup_singleton.
    injection He as <-. done.
Qed.

(** Three pages, in the slots from [d] on. *)
Definition three : gset Address := {[mkAddr 1 1; mkAddr 1 2; mkAddr 1 3]}.
Lemma three_fit strict (r : SlotRange) d : first_slot r ≤ d → d + 2 < Z.of_nat (slots r) → d + 2 ≤ slot_max →
  ∃ s0 s, CacheSys.init r s0 c0 ∧ run (@CacheSys.next geo strict r) s0 [I] s ∧ in_cache (CacheSys.cache s) three.
Proof.
  intros H1 H2 H3. destruct (fresh_cache r) as [c Hc]. exists (CacheSys.mkState c (AsyncDisk.mkState ∅ ∅ c0)). eexists. split; [done|].
  set (m := {[d := mkAddr 1 1; d + 1 := mkAddr 1 2; d + 2 := mkAddr 1 3]} : gmap Slot Address).
  set (inv := {[mkAddr 1 1 := d; mkAddr 1 2 := d + 1; mkAddr 1 3 := d + 2]} : gmap Address Slot).
  assert (Hm : ∀ k a, m !! k = Some a → inv !! a = Some k ∧ first_slot r ≤ k ≤ slot_max ∧ k < Z.of_nat (slots r)).
  { intros k a. unfold m. rewrite !lookup_insert_Some, lookup_singleton_Some.
    intros [[<- <-]|[_ [[<- <-]|[_ [<- <-]]]]]; (split; [reflexivity|lia]). }
  assert (Hv : ∀ a k, inv !! a = Some k → m !! k = Some a).
  { intros a k. unfold inv, m. rewrite !lookup_insert_Some, !lookup_singleton_Some.
    intros [[<- <-]|[_ [[<- <-]|[_ [<- <-]]]]]; [by left|right; split; [lia|by left]|right; split; [lia|right; split; [lia|done]]]. }
  destruct Hc as (E & S & L & O). split.
  - apply run_one. do 3 right. left. split; [done|]. eexists. split; [|reflexivity]. left. exists m. split; [done|].
    split; [split; [|split]|].
    + intros k1 k2 v Hk1 Hk2. apply Hm in Hk1 as [Hk1 _], Hk2 as [Hk2 _]. congruence.
    + intros k a _. cbn. by rewrite L, lookup_empty.
    + intros k a Ha. cbn. rewrite E, decide_True; [done|]. apply Hm in Ha. lia.
    + exists inv. split; [|reflexivity]. split; [|exact Hv].
      intros k a Ha. apply Hm in Ha as [-> _]. eauto.
  - intros a Ha. assert (Hi : is_Some (inv !! a)).
    { unfold three in Ha. rewrite !elem_of_union, !elem_of_singleton in Ha.
      destruct Ha as [[-> | ->]| ->]; vm_compute; eauto. }
    destruct Hi as [k Hk]. apply Hv in Hk. exists k, (Reserved a). split; [|done]. cbn [CacheSys.cache Cache.entries].
    apply lookup_union_Some_l, lookup_fmap_Some. exists a. done.
Qed.
(** Slot numbers are signed, and a negative one is below any number of slots: a
    cache of two slots holds three pages. *)
Lemma three_in_two strict : ∃ s0 s, CacheSys.init 2%nat s0 c0 ∧
  run (@CacheSys.next geo strict 2%nat) s0 [I] s ∧ in_cache (CacheSys.cache s) three.
Proof. apply (three_fit _ _ (-1)); vm_compute; congruence. Qed.
Lemma three_in_three strict : ∃ s0 s, CacheSys.init (from_zero 3) s0 c0 ∧
  run (@CacheSys.next geo strict (from_zero 3)) s0 [I] s ∧ in_cache (CacheSys.cache s) three.
Proof. apply (three_fit _ _ 0); vm_compute; congruence. Qed.
Lemma calm_no_crash : CacheSys.Crash ∉ calm_trace.
Proof. unfold calm_trace. rewrite !elem_of_cons, elem_of_nil. intuition discriminate. Qed.
Lemma lost_no_crash : CacheSys.Crash ∉ lost_trace.
Proof. unfold lost_trace. rewrite !elem_of_cons, elem_of_nil. intuition discriminate. Qed.
