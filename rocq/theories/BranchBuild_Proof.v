(** Proofs for the branch builder (C39, C40). *)
From Verif Require Import Spec_Model Spec_Proof Betree_Model Route_Proof Branch_Model Branch_Spec Branch_Proof BranchPages_Proof.
From Coq Require Import Sorting.Sorted Lia ZifyBool ZifyNat ZifyN.
Section build.
Context `{Geometry}.
Notation reach dv := (rtc (names dv)).
Notation B := ABranch.Branch.
Implicit Types (b : B) (s : ABranch.t) (ls : list ABranch.Label) (m : MiniAllocator).

(** ** The allocator *)
Definition aus_ok m : Prop := ∀ u p, allocs m !! u = Some p → pa_au p = u ∧ ∀ a, a ∈ reserved p → au a = u.
Lemma elem_reserved_aus m u : u ∈ reserved_aus m ↔ ∃ p, allocs m !! u = Some p ∧ reserved p ≠ ∅.
Proof.
  unfold reserved_aus. rewrite elem_of_dom. split.
  - intros [p Hp]. apply map_filter_lookup_Some in Hp as [H1 H2]. by exists p.
  - intros (p & H1 & H2). exists p. by apply map_filter_lookup_Some.
Qed.
Lemma elem_removable_aus m u : u ∈ removable_aus m ↔ ∃ p, allocs m !! u = Some p ∧ reserved p = ∅.
Proof.
  unfold removable_aus. rewrite elem_of_dom. split.
  - intros [p Hp]. apply map_filter_lookup_Some in Hp as [H1 H2]. by exists p.
  - intros (p & H1 & H2). exists p. by apply map_filter_lookup_Some.
Qed.
Lemma all_reserved m : all_aus m ∖ removable_aus m = reserved_aus m.
Proof.
  apply set_eq. intros u. rewrite elem_of_difference, elem_removable_aus, elem_reserved_aus. unfold all_aus. rewrite elem_of_dom. split.
  - intros [[p Hp] Hn]. exists p. split; [done|]. intros E. apply Hn. eauto.
  - intros (p & Hp & Hr). split; [by eexists|]. intros (p' & Hp' & Hr'). congruence.
Qed.
Lemma reserved_page m u : aus_ok m → u ∈ reserved_aus m ↔ ∃ a, page_is_reserved m a ∧ au a = u.
Proof.
  intros Hok. rewrite elem_reserved_aus. split.
  - intros (p & Hp & Hr). apply set_choose_L in Hr as [a Ha]. destruct (Hok u p Hp) as [_ Hau]. exists a.
    split; [|by apply Hau]. exists p. by rewrite (Hau a Ha).
  - intros (a & (p & Hp & Ha) & <-). exists p. split; [done|]. intros E. rewrite E in Ha. by apply elem_of_empty in Ha.
Qed.
Lemma allocate_reserved m a x : can_allocate m a →
  page_is_reserved (allocate m a) x ↔ page_is_reserved m x ∨ x = a.
Proof.
  intros (p & Hp & Hf). unfold page_is_reserved, allocate. rewrite Hp. cbn [allocs].
  destruct (decide (au x = au a)) as [E|Hne].
  - rewrite E, lookup_insert, Hp. split.
    + intros (q & [= <-] & Hx). simpl in Hx. apply elem_of_union in Hx as [Hx| ->%elem_of_singleton]; [left; by exists p|by right].
    + intros [(q & [= <-] & Hx)| ->]; eexists; (split; [done|]); simpl; set_solver.
  - rewrite lookup_insert_ne by done. split; [by left|]. intros [?| ->]; done.
Qed.
Lemma allocate_all m a : can_allocate m a → all_aus (allocate m a) = all_aus m.
Proof.
  intros (p & Hp & Hf). unfold all_aus, allocate. rewrite Hp. cbn [allocs]. rewrite dom_insert_L.
  assert (au a ∈ dom (allocs m)) by (apply elem_of_dom; by eexists). set_solver.
Qed.
Lemma allocate_ok m a : aus_ok m → can_allocate m a → aus_ok (allocate m a).
Proof.
  intros Hok (p & Hp & Hf & Hau & Hn) u q. unfold allocate. rewrite Hp. cbn [allocs]. intros Hq.
  apply lookup_insert_Some in Hq as [[<- <-]|[Hne Hq]]; [|by apply Hok]. destruct (Hok _ _ Hp) as [H1 H2].
  split; [done|]. intros x. simpl. rewrite elem_of_union, elem_of_singleton. intros [Hx| ->]; auto.
Qed.
Lemma add_lookup m aus u : allocs (add_aus m aus) !! u =
  match allocs m !! u with Some p => Some p | None => if decide (u ∈ aus) then Some (pa_new u) else None end.
Proof.
  unfold add_aus. cbn [allocs]. destruct (allocs m !! u) as [p|] eqn:E; [by apply lookup_union_Some_l|].
  rewrite lookup_union_r by done. destruct (decide (u ∈ aus)) as [Hin|Hout].
  - apply lookup_set_to_map; [done|]. by exists u.
  - apply eq_None_not_Some. intros [p Hp]. apply lookup_set_to_map in Hp as (v & Hv & [= -> _]); [done|done].
Qed.
Lemma add_all m aus : all_aus (add_aus m aus) = all_aus m ∪ aus.
Proof.
  apply set_eq. intros u. unfold all_aus. rewrite elem_of_union, !elem_of_dom, add_lookup.
  destruct (allocs m !! u) as [p|]; [split; [left; by eexists|intros _; by eexists]|].
  destruct (decide (u ∈ aus)); split.
  - by right.
  - intros _. by eexists.
  - by intros [? [=]].
  - intros [[? [=]]|?]; done.
Qed.
Lemma add_reserved m aus a : page_is_reserved (add_aus m aus) a ↔ page_is_reserved m a.
Proof.
  unfold page_is_reserved. rewrite add_lookup. destruct (allocs m !! au a) as [p|]; [done|].
  split; [|by intros (p & [=] & _)]. intros (p & Hp & Ha). destruct (decide _); [|done]. injection Hp as <-.
  by apply elem_of_empty in Ha.
Qed.
Lemma add_ok m aus : aus_ok m → aus_ok (add_aus m aus).
Proof.
  intros Hok u p. rewrite add_lookup. destruct (allocs m !! u) as [q|] eqn:E; [intros [= <-]; by apply Hok|].
  destruct (decide _); [|done]. intros [= <-]. split; [done|]. intros a Ha. by apply elem_of_empty in Ha.
Qed.
Lemma prune_lookup m aus u : allocs (prune m aus) !! u = if decide (u ∈ aus) then None else allocs m !! u.
Proof.
  unfold prune. cbn [allocs]. destruct (decide (u ∈ aus)).
  - apply map_filter_lookup_None. right. intros p _. simpl. tauto.
  - destruct (allocs m !! u) eqn:E.
    + by apply map_filter_lookup_Some.
    + apply map_filter_lookup_None. by left.
Qed.
Lemma prune_all m aus : all_aus (prune m aus) = all_aus m ∖ aus.
Proof.
  apply set_eq. intros u. unfold all_aus. rewrite elem_of_difference, !elem_of_dom, prune_lookup.
  destruct (decide (u ∈ aus)); [|tauto]. split; [by intros [? [=]]|by intros []].
Qed.
Lemma prune_ok m aus : aus_ok m → aus_ok (prune m aus).
Proof. intros Hok u p. rewrite prune_lookup. destruct (decide _); [done|]. apply Hok. Qed.
Lemma prune_reserved m aus a : aus ⊆ removable_aus m → page_is_reserved (prune m aus) a ↔ page_is_reserved m a.
Proof.
  intros Hsub. unfold page_is_reserved. rewrite prune_lookup. destruct (decide _) as [Hin|]; [|done].
  split; [by intros (? & [=] & _)|]. intros (p & Hp & Ha). apply Hsub, elem_removable_aus in Hin as (q & Hq & Hr).
  assert (p = q) as -> by congruence. rewrite Hr in Ha. by apply elem_of_empty in Ha.
Qed.
Lemma can_allocate_fresh m a : can_allocate m a → ¬ page_is_reserved m a.
Proof. intros (p & Hp & _ & _ & Hn) (q & Hq & Ha). assert (p = q) as -> by congruence. apply Hn. set_solver. Qed.

(** ** Sealing *)
Lemma seal_pages b n a sm : holds b n → tight b → LBranch.disk b !! a = None → ABranch.is_index (LBranch.root_node b) →
  let b' := ABranch.seal b a sm in
  holds b' n ∧ ABranch.get_summary b' = sm ∧ summary_page b' a ∧
  (∀ x, is_Some (LBranch.disk b' !! x) ↔ is_Some (LBranch.disk b !! x) ∨ x = a) ∧
  (∀ x, is_Some (LBranch.disk b' !! x) ↔ reach (LBranch.disk b') (LBranch.root b') x ∨ summary_page b' x).
Proof.
  intros ([Hw1 Hw2] & Hs & Hn) Htight Ha Hidx b'. pose proof Hn as Ht. apply wf_iff in Ht.
  destruct n as [pivots children|keys msgs].
  2: { unfold LBranch.root_node in Hidx. apply stores_leaf_inv in Hs. by rewrite Hs in Hidx. }
  pose proof Hs as Hs0. apply stores_index_inv in Hs as (addrs & aux & Hd & Hl & Hc).
  assert (Hra : LBranch.root b ≠ a) by (intros <-; congruence).
  assert (Hrn : LBranch.root_node b = LBranch.Index pivots addrs aux) by (unfold LBranch.root_node; by rewrite Hd).
  set (dv := LBranch.disk b) in *.
  set (dv' := <[LBranch.root b := LBranch.Index pivots addrs (Some a)]> (<[a := LBranch.Auxiliary sm]> dv)).
  assert (Eb : b' = LBranch.mk (LBranch.root b) dv') by (unfold b', ABranch.seal; by rewrite Hrn).
  rewrite Eb. cbn [LBranch.disk LBranch.root]. clear b' Eb.
  assert (Hdr : dv' !! LBranch.root b = Some (LBranch.Index pivots addrs (Some a))) by apply lookup_insert.
  assert (Hda : dv' !! a = Some (LBranch.Auxiliary sm)) by (unfold dv'; rewrite lookup_insert_ne by done; apply lookup_insert).
  assert (Hoth : ∀ x, x ≠ LBranch.root b → x ≠ a → dv' !! x = dv !! x) by (intros x H1 H2; unfold dv'; by rewrite !lookup_insert_ne).
  assert (Hdom : ∀ x, is_Some (dv' !! x) ↔ is_Some (dv !! x) ∨ x = a).
  { intros x. destruct (decide (x = LBranch.root b)) as [->|H1]; [rewrite Hdr, Hd; split; [intros _; left; by eexists|intros _; by eexists]|].
    destruct (decide (x = a)) as [->|H2]; [rewrite Hda; split; [by right|by eexists]|]. rewrite Hoth by done. tauto. }
  assert (Hkid : ∀ j c, addrs !! j = Some c → ∀ x, reach dv c x → dv' !! x = dv !! x).
  { intros j c Hj x Hx. apply Hoth.
    - intros ->. by eapply (child_not_up dv (LBranch.root b)) in Hx.
    - intros ->. assert (reach dv (LBranch.root b) a) as Hr by (apply (reach_index _ _ _ _ _ _ Hd); eauto).
      destruct (reach_entry _ _ _ _ _ _ Hs0 Ht Hr). congruence. }
  assert (Hreach : ∀ x, reach dv' (LBranch.root b) x ↔ reach dv (LBranch.root b) x).
  { intros x. rewrite (reach_index _ _ _ _ _ _ Hdr), (reach_index _ _ _ _ _ _ Hd). split.
    - intros [->|(j & c & Hj & Hx)]; [tauto|]. right. exists j, c. split; [done|].
      apply (reach_change dv) in Hx; [done|by eapply Hkid].
    - intros [->|(j & c & Hj & Hx)]; [tauto|]. right. exists j, c. split; [done|].
      apply (reach_change dv); [by eapply Hkid|done]. }
  assert (Hsp : ∀ x, summary_page (LBranch.mk (LBranch.root b) dv') x ↔ x = a).
  { intros x. split.
    - intros (p & cs & s & H1 & _). cbn in H1. rewrite Hdr in H1. by injection H1 as _ _ <-.
    - intros ->. exists pivots, addrs, sm. done. }
  split; [split; [split|split]|split; [|split; [|split]]].
  - intros x nd Hnd. cbn [LBranch.disk] in Hnd. destruct (decide (x = LBranch.root b)) as [->|H1].
    { rewrite Hdr in Hnd. injection Hnd as <-. exact (Hw1 _ _ Hd). }
    destruct (decide (x = a)) as [->|H2]; [rewrite Hda in Hnd; by injection Hnd as <-|].
    rewrite Hoth in Hnd by done. by eapply Hw1.
  - intros x nd i c Hnd Hci. cbn [LBranch.disk] in *.
    assert (Hkeep : ∀ y q, dv !! y = Some q → ¬ LBranch.is_aux q → ∃ q', dv' !! y = Some q' ∧ ¬ LBranch.is_aux q').
    { intros y q Hy Hq. destruct (decide (y = LBranch.root b)) as [->|H1]; [eexists; split; [exact Hdr|by intros []]|].
      destruct (decide (y = a)) as [->|H2]; [congruence|]. exists q. by rewrite Hoth. }
    destruct (decide (x = LBranch.root b)) as [->|H1].
    { rewrite Hdr in Hnd. injection Hnd as <-. destruct (Hw2 _ _ i c Hd Hci) as (q & Hq & Hna). by eapply Hkeep. }
    destruct (decide (x = a)) as [->|H2]; [rewrite Hda in Hnd; by injection Hnd as <-|].
    rewrite Hoth in Hnd by done. destruct (Hw2 _ _ i c Hnd Hci) as (q & Hq & Hna). by eapply Hkeep.
  - cbn [LBranch.disk LBranch.root]. apply (stores_index _ _ _ addrs (Some a)); [done|done|].
    intros i c m Hi Hm. apply (stores_change dv); [by eapply Hc|by eapply Hkid].
  - done.
  - unfold ABranch.get_summary. rewrite (root_node_at _ _ _ Hdr). simpl. by rewrite Hda.
  - by apply Hsp.
  - done.
  - intros x. rewrite Hdom, Hreach, Hsp. unfold tight in Htight. fold dv in Htight. by rewrite (Htight x).
Qed.

(** ** Histories *)
Lemma built_snoc ls l : built (ls ++ [l]) = built ls ++ built_by l.
Proof. unfold built. rewrite map_app, concat_app. simpl. by rewrite app_nil_r. Qed.
Lemma taken_snoc ls l : units_taken (ls ++ [l]) = units_taken ls ∪ l.1.2.
Proof. unfold units_taken. rewrite map_app, union_list_app_L. simpl. set_solver. Qed.
Lemma returned_snoc ls l : units_returned (ls ++ [l]) = units_returned ls ∪ l.2.
Proof. unfold units_returned. rewrite map_app, union_list_app_L. simpl. set_solver. Qed.
Record good (free : gset AU) ls s : Prop := {
  g_ok : aus_ok (ABranch.mini_allocator s);
  g_units : all_aus (ABranch.mini_allocator s) = (free ∪ units_taken ls) ∖ units_returned ls;
  g_open : ABranch.sealed s = false → units_returned ls = ∅;
  g_none : ABranch.branch s = None →
    ABranch.sealed s = false ∧ built ls = [] ∧ ∀ a, ¬ page_is_reserved (ABranch.mini_allocator s) a;
  g_branch : ∀ b, ABranch.branch s = Some b →
    (∀ a, is_Some (LBranch.disk b !! a) ↔ page_is_reserved (ABranch.mini_allocator s) a) ∧
    (∃ n, holds b n ∧ ∀ k, PBranch.query n k = last_written (built ls) k) ∧
    (ABranch.sealed s = false → tight b) ∧
    (ABranch.sealed s = true →
       (∀ a, is_Some (LBranch.disk b !! a) ↔ reach (LBranch.disk b) (LBranch.root b) a ∨ summary_page b a) ∧
       ABranch.get_summary b = all_aus (ABranch.mini_allocator s) ∧
       ∀ u, u ∈ ABranch.get_summary b ↔ units_with_pages b u);
}.
Lemma good_new free : good free [] (ABranch.new free).
Proof.
  split.
  - apply add_ok. intros u p Hp. simpl in Hp. by rewrite lookup_empty in Hp.
  - unfold units_taken, units_returned. simpl. rewrite add_all. unfold all_aus. simpl. rewrite dom_empty_L. set_solver.
  - done.
  - intros _. split; [done|]. split; [done|]. intros a Ha. apply add_reserved in Ha as (p & Hp & _).
    simpl in Hp. by rewrite lookup_empty in Hp.
  - done.
Qed.
Lemma fresh_of m b a : (∀ a, is_Some (LBranch.disk b !! a) ↔ page_is_reserved m a) → can_allocate m a → LBranch.disk b !! a = None.
Proof. intros Hd Ha. apply eq_None_not_Some. rewrite Hd. by apply can_allocate_fresh. Qed.
(** A call that takes no page, or the page given. *)
Lemma good_call free ls s b b' lc l m' :
  good free ls s → ABranch.sealed s = false → ABranch.branch s = Some b →
  LBranch.next b b' lc → writes_of (erase lc) = built_by l → l.1.2 = ∅ → l.2 = ∅ →
  (∀ a, takes lc = Some a → can_allocate (ABranch.mini_allocator s) a ∧ m' = allocate (ABranch.mini_allocator s) a ∧
     ∀ x, is_Some (LBranch.disk b' !! x) ↔ is_Some (LBranch.disk b !! x) ∨ x = a) →
  (takes lc = None → m' = ABranch.mini_allocator s ∧ ∀ x, is_Some (LBranch.disk b' !! x) ↔ is_Some (LBranch.disk b !! x)) →
  good free (ls ++ [l]) (ABranch.mk (ABranch.sealed s) (Some b') m').
Proof.
  intros [Hok Hun Hop Hno Hbr] Hs Hb Hn Hw Hl1 Hl2 Ht1 Ht2.
  destruct (Hbr b Hb) as (Hd & (n & Hh & Hq) & Htight & _).
  destruct (pages_step b b' n lc Hh Hn) as (n' & Hn' & Hh' & Ht').
  assert (Hm' : aus_ok m' ∧ all_aus m' = all_aus (ABranch.mini_allocator s) ∧
    ∀ x, is_Some (LBranch.disk b' !! x) ↔ page_is_reserved m' x).
  { destruct (takes lc) as [a|].
    - destruct (Ht1 a eq_refl) as (Hc & -> & Hx). split; [by apply allocate_ok|]. split; [by apply allocate_all|].
      intros x. by rewrite Hx, allocate_reserved, Hd.
    - destruct (Ht2 eq_refl) as (-> & Hx). split; [done|]. split; [done|]. intros x. by rewrite Hx, Hd. }
  destruct Hm' as (Hok' & Hall' & Hd').
  split; cbn [ABranch.sealed ABranch.branch ABranch.mini_allocator]; rewrite ?built_snoc, ?taken_snoc, ?returned_snoc, ?Hl1, ?Hl2.
  - done.
  - rewrite Hall', Hun. by rewrite !(right_id_L ∅ (∪)).
  - intros E. rewrite (Hop E). set_solver.
  - done.
  - intros b0 [= <-]. split; [done|]. split; [|split; [auto|congruence]].
    exists n'. split; [done|]. intros k. destruct Hh as (_ & _ & Hwf).
    destruct (call_step n n' (erase lc) Hwf Hn') as (_ & _ & H3 & _). rewrite H3, <- Hw, last_written_app, Hq. done.
Qed.
Lemma append_dom b ks ms d x : LBranch.can_append b ks ms d →
  (∃ n, holds b n) → is_Some (LBranch.disk (LBranch.append b ks ms d) !! x) ↔ is_Some (LBranch.disk b !! x).
Proof.
  intros Hcan [n Hh]. apply (can_append_iff b n ks ms d Hh) in Hcan.
  unfold PBranch.can_append in Hcan. unfold LBranch.append. destruct ks as [|first ks]; [done|].
  destruct (stdpp.list.last (first :: ks)); [|done]. destruct Hcan as (Hv & _).
  destruct (target_at b n first d Hh Hv) as (a' & nd & Ht & Hd & _). unfold LBranch.append_leaf, LBranch.substitute, LBranch.modify_disk.
  rewrite Ht. cbn [LBranch.disk LBranch.root]. rewrite lookup_insert_is_Some'. split; [|by right]. intros [<-|?]; [by eexists|done].
Qed.
Lemma split_dom b sp a d x : LBranch.can_split b sp a d → (∃ n, holds b n) →
  is_Some (LBranch.disk (LBranch.split b sp a d) !! x) ↔ is_Some (LBranch.disk b !! x) ∨ x = a.
Proof.
  intros Hc [n Hh]. destruct (proj1 (can_split_iff b n sp a d Hh) Hc) as [(_ & Hv & Hcan) Hf].
  destruct (focus_at b n _ d Hh Hv) as (a' & Ht & Hsa & _). pose proof Hh as (Hwf & Hs & Hn). apply wf_iff in Hn.
  destruct (focus_exists d None None n _ Hn (within_none _) Hv) as (lo & hi & L & R & F).
  unfold LBranch.split, LBranch.substitute. rewrite Ht. cbn [LBranch.disk].
  apply (split_child_pages _ a' _ lo hi sp a Hwf Hsa (f_tree _ _ _ _ _ _ _ _ _ F) (f_key _ _ _ _ _ _ _ _ _ F) Hcan Hf).
Qed.
Lemma good_next free ls s s' l : good free ls s → ABranch.build_next_grow s s' l → good free (ls ++ [l]) s'.
Proof.
  intros G Hn. pose proof G as [Hok Hun Hop Hno Hbr].
  destruct Hn as [Hn|(a & -> & (Hs & b & Hb & Hal & Hg) & ->)].
  2: { unfold ABranch.branch_grow. rewrite Hb. destruct (Hbr b Hb) as (Hd & (n & Hh & _) & _).
       eapply (good_call free ls s b _ (LBranch.Grow a)); [done|done|done|by split|done|done|done| |done].
       intros a' [= <-]. split; [done|]. split; [done|]. intros x. unfold LBranch.grow, LBranch.modify_disk. cbn [LBranch.disk]. rewrite lookup_insert_is_Some'.
       split; [intros [->|?]; tauto|intros [?| ->]; tauto]. }
  destruct l as [[e alls] deallocs]. destruct e as [a keys msgs|keys msgs d|a d sp| |ptr|]; [| | | | |done]; simpl in Hn.
  - (* Initialize *)
    destruct Hn as (-> & -> & (Hs & Hr & Hal & Hk & Hl & Hsort) & ->).
    assert (Hnone : ABranch.branch s = None).
    { destruct (ABranch.branch s) as [b|] eqn:Hb; [|done]. destruct (Hbr b eq_refl) as (Hd & (n & (_ & Hst & _) & _) & _).
      destruct (stores_entry _ _ _ Hst) as (nd & Hnd & _).
      assert (page_is_reserved (ABranch.mini_allocator s) (LBranch.root b)) as Hp by (apply Hd; by eexists).
      assert (au (LBranch.root b) ∈ reserved_aus (ABranch.mini_allocator s)) as Hin by (apply (reserved_page _ _ Hok); eauto).
      rewrite Hr in Hin. by apply elem_of_empty in Hin. }
    destruct (Hno Hnone) as (_ & Hbu & Hnp).
    assert (Hfl : first_leaf keys msgs) by (split; [by destruct keys; [simpl in Hk; lia|]|split; [done|by apply sorted_strong]]).
    destruct (first_page_holds (T:=gset AU) a keys msgs Hfl) as [Hh Htight].
    split; cbn; rewrite ?built_snoc, ?taken_snoc, ?returned_snoc; cbn.
    + by apply allocate_ok.
    + rewrite allocate_all, Hun by done. set_solver.
    + intros E. rewrite (Hop E). set_solver.
    + done.
    + intros b [= <-]. split; [|split; [|split]].
      * intros x. rewrite allocate_reserved by done. cbn. split.
        -- intros [nd Hnd]. apply lookup_singleton_Some in Hnd as [-> _]. by right.
        -- intros [Hx| ->]; [by destruct (Hnp x)|]. rewrite lookup_singleton. by eexists.
      * exists (PBranch.Leaf keys msgs). split; [done|]. intros k. rewrite Hbu. rewrite (left_id_L [] (++)).
        destruct (branch_run keys msgs [] (PBranch.Leaf keys msgs) Hfl (run_nil _ _)) as (_ & _ & Hq & _).
        rewrite Hq. unfold writes. simpl. by rewrite app_nil_r.
      * done.
      * congruence.
  - (* Append *)
    destruct Hn as (-> & -> & (Hs & b & Hb & Hcan) & ->). unfold ABranch.branch_append. rewrite Hb.
    destruct (Hbr b Hb) as (Hd & (n & Hh & _) & _).
    eapply (good_call free ls s b _ (LBranch.Append keys msgs d)); [done|done|done|by split|done|done|done|done|].
    intros _. split; [done|]. intros x. apply append_dom; [done|by exists n].
  - (* Split *)
    destruct Hn as (-> & -> & (Hs & b & Hb & Hal & Hcan) & ->). unfold ABranch.branch_split. rewrite Hb.
    destruct (Hbr b Hb) as (Hd & (n & Hh & _) & _).
    eapply (good_call free ls s b _ (LBranch.Split sp a d)); [done|done|done|by split|done|done|done| |done].
    intros a' [= <-]. split; [done|]. split; [done|]. intros x. apply split_dom; [done|by exists n].
  - (* AllocFill *)
    destruct Hn as (-> & (Hs & Hdis) & ->). unfold ABranch.mini_allocator_fill.
    split; cbn [ABranch.sealed ABranch.branch ABranch.mini_allocator]; rewrite ?built_snoc, ?taken_snoc, ?returned_snoc; cbn [built_by fst snd]; rewrite ?app_nil_r.
    + by apply add_ok.
    + rewrite add_all, Hun, (Hop Hs). set_solver.
    + intros E. rewrite (Hop E). set_solver.
    + intros E. destruct (Hno E) as (H1 & H2 & H3). split; [done|]. split; [done|]. intros x. by rewrite add_reserved.
    + intros b Hb. destruct (Hbr b Hb) as (Hd & Hq & Ht & Hse). split; [intros x; by rewrite add_reserved|].
      split; [done|]. split; [done|congruence].
  - (* Seal *)
    destruct Hn as (-> & (Hs & b & Hb & Hptr & Hal & Hrem) & ->).
    destruct (Hbr b Hb) as (Hd & (n & Hh & Hq) & Ht & _). specialize (Ht Hs). specialize (Hop Hs).
    destruct ptr as [a|]; unfold ABranch.branch_seal; rewrite ?Hb; cbn [fmap option_fmap option_map].
    + destruct (Hal a eq_refl) as [Hca Hnd]. pose proof (fresh_of _ _ _ Hd Hca) as Hfr.
      destruct (seal_pages b n a (reserved_aus (ABranch.mini_allocator s)) Hh Ht Hfr) as (Hh' & Hsum & Hsp & Hdom & Htight').
      { apply Hptr. by eexists. }
      assert (Hrem' : removable_aus (allocate (ABranch.mini_allocator s) a) = removable_aus (ABranch.mini_allocator s)).
      { apply set_eq. intros u. destruct Hca as (p & Hp & Hf). rewrite !elem_removable_aus. unfold allocate. rewrite Hp. cbn [allocs].
        destruct (decide (u = au a)) as [->|Hne]; [|by rewrite lookup_insert_ne].
        rewrite lookup_insert. split.
        - intros (q & [= <-] & Hq'). simpl in Hq'. set_solver.
        - intros (q & Hq1 & Hq2). destruct Hnd. rewrite <- Hrem. apply elem_removable_aus. eauto. }
      set (b' := ABranch.seal b a (reserved_aus (ABranch.mini_allocator s))) in *.
      assert (Hall : all_aus (prune (allocate (ABranch.mini_allocator s) a) deallocs) = reserved_aus (ABranch.mini_allocator s)).
      { by rewrite prune_all, allocate_all, <- Hrem, all_reserved. }
      split; cbn [ABranch.sealed ABranch.branch ABranch.mini_allocator]; rewrite ?built_snoc, ?taken_snoc, ?returned_snoc; cbn [built_by fst snd]; rewrite ?app_nil_r.
      * by apply prune_ok, allocate_ok.
      * rewrite prune_all, allocate_all, Hun, Hop by done. set_solver.
      * done.
      * done.
      * intros b0 [= <-]. split; [|split; [|split]].
        -- intros x. rewrite Hdom, prune_reserved, allocate_reserved, Hd by (done || by rewrite Hrem', Hrem). done.
        -- by exists n.
        -- done.
        -- intros _. split; [done|]. split; [by rewrite Hsum, Hall|]. intros u. rewrite Hsum. rewrite (reserved_page _ _ Hok). split.
           ++ intros (x & Hx & <-). exists x. split; [|done]. apply Hdom. left. by apply Hd.
           ++ intros (x & Hx & <-). apply Hdom in Hx as [Hx| ->].
              ** exists x. split; [by apply Hd|done].
              ** destruct Hca as (p & Hp & Hf).
                 assert (au a ∈ reserved_aus (ABranch.mini_allocator s)) as Hin.
                 { apply elem_reserved_aus. exists p. split; [done|]. intros E. apply Hnd. rewrite <- Hrem.
                   apply elem_removable_aus. eauto. }
                 by apply (reserved_page _ _ Hok).
    + pose proof Hh as (_ & Hst & _).
      assert (Hleaf : ∃ keys msgs, LBranch.disk b !! LBranch.root b = Some (LBranch.Leaf keys msgs)).
      { inversion Hst as [? keys msgs Hx|? p ad au ch Hx]; subst; [eauto|]. exfalso.
        destruct (proj2 Hptr) as [? [=]]. unfold LBranch.root_node. by rewrite Hx. }
      destruct Hleaf as (keys & msgs & Hleaf).
      assert (Hsum : ABranch.get_summary b = {[au (LBranch.root b)]}).
      { unfold ABranch.get_summary, LBranch.root_node. by rewrite Hleaf. }
      assert (Hone : ∀ x, is_Some (LBranch.disk b !! x) ↔ x = LBranch.root b).
      { intros x. rewrite (Ht x). by apply (reach_leaf _ _ keys msgs). }
      assert (Hall : all_aus (prune (ABranch.mini_allocator s) deallocs) = {[au (LBranch.root b)]}).
      { rewrite prune_all, <- Hrem, all_reserved. apply set_eq. intros u. rewrite (reserved_page _ _ Hok), elem_of_singleton. split.
        - intros (x & Hx & <-). apply Hd, Hone in Hx. by subst x.
        - intros ->. exists (LBranch.root b). split; [|done]. apply Hd, Hone. done. }
      split; cbn [ABranch.sealed ABranch.branch ABranch.mini_allocator]; rewrite ?built_snoc, ?taken_snoc, ?returned_snoc; cbn [built_by fst snd]; rewrite ?app_nil_r.
      * by apply prune_ok.
      * rewrite prune_all, Hun, Hop by done. set_solver.
      * done.
      * congruence.
      * intros b0 [= <-]. rewrite Hb in *. split; [|split; [|split]].
        -- intros x. rewrite prune_reserved, Hd by (by rewrite Hrem). done.
        -- by exists n.
        -- done.
        -- intros _. split; [|split; [by rewrite Hsum, Hall|]].
           ++ intros x. rewrite (Ht x). split; [by left|]. intros [?|(p & cs & sm & Hx & _)]; [done|congruence].
           ++ intros u. rewrite Hsum, elem_of_singleton. split.
              ** intros ->. exists (LBranch.root b). split; [by apply Hone|done].
              ** intros (x & Hx & <-). apply Hone in Hx. by subst x.
Qed.
Lemma good_run free ls s : run ABranch.build_next_grow (ABranch.new free) ls s → good free ls s.
Proof.
  intros Hr. remember (ABranch.new free) as s0 eqn:E.
  induction Hr as [s|s ls s1 l s2 Hr IH Hn]; subst; [apply good_new|]. eapply good_next; [by apply IH|done].
Qed.
Lemma build_grow_run s0 ls s : run ABranch.build_next s0 ls s → run ABranch.build_next_grow s0 ls s.
Proof. induction 1 as [s|s ls s1 l s2 Hr IH Hn]; [constructor|]. eapply run_snoc; [exact IH|by left]. Qed.

(** ** As written, a branch is one page *)
Lemma written_single free ls s b : run ABranch.build_next (ABranch.new free) ls s → ABranch.branch s = Some b →
  ∃ a keys msgs, b = LBranch.mk a {[a := LBranch.Leaf keys msgs]}.
Proof.
  intros Hr. remember (ABranch.new free) as s0 eqn:E. revert b.
  induction Hr as [s|s ls s1 l s2 Hr IH Hn]; subst; intros b Hb; [done|]. specialize (IH eq_refl).
  destruct l as [[e alls] deallocs]. destruct e as [a keys msgs|keys msgs d|a d sp| |ptr|]; simpl in Hn; [| | | | |done].
  - destruct Hn as (_ & _ & _ & ->). simpl in Hb. injection Hb as <-. by eexists _, _, _.
  - destruct Hn as (_ & _ & (Hs & b1 & Hb1 & Hcan) & ->). unfold ABranch.branch_append in Hb. rewrite Hb1 in Hb. simpl in Hb. injection Hb as <-.
    destruct (IH b1 Hb1) as (a & k0 & m0 & ->). unfold LBranch.can_append in Hcan. destruct keys as [|first keys]; [done|].
    destruct (stdpp.list.last (first :: keys)); [|done]. destruct Hcan as (Hv & _). destruct d as [|d].
    + cbn [LBranch.append LBranch.target]. unfold LBranch.append_leaf, LBranch.substitute, LBranch.modify_disk.
      cbn [LBranch.root LBranch.disk]. rewrite insert_singleton. by eexists _, _, _.
    + destruct Hv as [_ Hv]. rewrite (root_node_at _ _ (LBranch.Leaf k0 m0)) in Hv by apply lookup_singleton. done.
  - destruct Hn as (_ & _ & (Hs & b1 & Hb1 & Hal & Hv & Hcan) & ->). destruct (IH b1 Hb1) as (a1 & k0 & m0 & ->).
    assert (Hrn : LBranch.root_node (LBranch.mk a1 {[a1 := LBranch.Leaf (T:=gset AU) k0 m0]}) = LBranch.Leaf k0 m0).
    { apply root_node_at, lookup_singleton. }
    destruct d as [|d].
    + destruct Hcan as (_ & _ & Hcan). cbn [LBranch.target] in Hcan. by rewrite Hrn in Hcan.
    + destruct Hv as [_ Hv]. by rewrite Hrn in Hv.
  - destruct Hn as (_ & _ & ->). by apply IH.
  - destruct Hn as (_ & (Hs & b1 & Hb1 & Hptr & _) & ->). destruct (IH b1 Hb1) as (a1 & k0 & m0 & ->).
    assert (Hrn : LBranch.root_node (LBranch.mk a1 {[a1 := LBranch.Leaf (T:=gset AU) k0 m0]}) = LBranch.Leaf k0 m0).
    { apply root_node_at, lookup_singleton. }
    destruct ptr as [a|]; simpl in Hb.
    + pose proof (proj1 Hptr ltac:(by eexists)) as Hi. by rewrite Hrn in Hi.
    + rewrite Hb1 in Hb. injection Hb as <-. by eexists _, _, _.
Qed.
Lemma written_no_split free ls s s' a d sp x y :
  run ABranch.build_next (ABranch.new free) ls s → ¬ ABranch.build_next s s' (ABranch.Split a d sp, x, y).
Proof.
  intros Hr (_ & _ & (_ & b & Hb & _ & Hv & Hcan) & _). destruct (written_single free ls s b Hr Hb) as (a1 & k0 & m0 & ->).
  assert (Hrn : LBranch.root_node (LBranch.mk a1 {[a1 := LBranch.Leaf (T:=gset AU) k0 m0]}) = LBranch.Leaf k0 m0).
  { apply root_node_at, lookup_singleton. }
  destruct d as [|d].
  - destruct Hcan as (_ & _ & Hcan). cbn [LBranch.target] in Hcan. by rewrite Hrn in Hcan.
  - destruct Hv as [_ Hv]. by rewrite Hrn in Hv.
Qed.

(** ** Containment *)
Lemma contains_corrected b n k : holds b n →
  ABranch.linked_contains' b k ↔ ∃ x, (k, x) ∈ contents n ∧ x ≠ Update nop_delta.
Proof.
  intros Hh. unfold ABranch.linked_contains', ABranch.linked_query. rewrite (query_iff b n k _ Hh).
  destruct Hh as (_ & _ & Hwf). split.
  - intros Hne. destruct (decide (k ∈ (contents n).*1)) as [Hk|Hk].
    + apply elem_of_list_fmap in Hk as ([k' m] & Hk' & Hk). simpl in Hk'. subst k'. exists m. split; [done|].
      intros ->. apply Hne. symmetry. by apply query_has.
    + destruct Hne. symmetry. apply query_none; [done|]. intros m Hm. apply Hk, elem_of_list_fmap. by exists (k, m).
  - intros (m & Hm & Hne) E. apply Hne. rewrite <- (query_has n k m Hwf Hm). done.
Qed.
Lemma contains_written b n k : holds b n →
  ABranch.linked_contains b k ↔ ¬ ∃ x, (k, x) ∈ contents n ∧ x ≠ Update nop_delta.
Proof.
  intros Hh. rewrite <- (contains_corrected b n k Hh). unfold ABranch.linked_contains, ABranch.linked_contains'.
  rewrite (query_iff b n k _ Hh). split; [tauto|]. intros Hn.
  destruct (decide (Update nop_delta = PBranch.query n k)); [done|]. by destruct Hn.
Qed.
End build.
