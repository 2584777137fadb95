(** The invariant of the be-tree whose buffers are branches, and its steps
    (C42, C43). *)
From Verif Require Import Spec_Model Spec_Proof Abs_Model Betree_Model Betree_Spec Route_Proof Branch_Spec Branch_Proof BranchPages_Proof BranchBuild_Proof.
From Verif Require Import LinkedBetree_Model LinkedBetree_Spec LikesBetree_Model LikesBetree_Spec LinkedBetree_Proof LinkedBetree_Facts
  LikesTree_Proof LikesOps_Proof LikesBetree_Proof LikesBetree_Facts BranchSkel_Proof BranchCompact_Proof
  BranchBetree_Model BranchBetree_Spec BranchBuffer_Proof BranchForest_Proof.
From Coq Require Import ZifyBool ZifyNat ZifyN Lia.
Implicit Types (s : ABB.State) (σ : LikesBetree.State) (r a : Address).

(** ** Sets of units *)
Lemma elem_alloc_aus `{Geometry} (ws : list ABranch.t) u :
  u ∈ ABB.alloc_aus ws ↔ ∃ i w, ws !! i = Some w ∧ u ∈ all_aus (ABranch.mini_allocator w).
Proof.
  unfold ABB.alloc_aus. rewrite elem_of_union_list. split.
  - intros (X & (w & -> & [i Hi]%elem_of_list_lookup)%elem_of_list_fmap & Hu). eauto.
  - intros (i & w & Hi & Hu). eexists. split; [|exact Hu]. apply elem_of_list_fmap. exists w. split; [done|]. by eapply elem_of_list_lookup_2.
Qed.
Definition apart_list `{Geometry} (ws : list ABranch.t) : Prop :=
  ∀ i j w w', ws !! i = Some w → ws !! j = Some w' → i ≠ j →
    all_aus (ABranch.mini_allocator w) ## all_aus (ABranch.mini_allocator w').
Lemma delete_lookup {A} (l : list A) i j x : delete i l !! j = Some x → ∃ j', l !! j' = Some x ∧ j' ≠ i ∧ (j' = if decide (j < i) then j else S j).
Proof.
  destruct (decide (j < i)) as [Hlt|Hge].
  - rewrite lookup_delete_lt by done. exists j. split; [done|]. split; [lia|done].
  - rewrite lookup_delete_ge by lia. exists (S j). split; [done|]. split; [lia|done].
Qed.
Lemma delete_lookup_2 {A} (l : list A) i j x : l !! j = Some x → j ≠ i → ∃ j', delete i l !! j' = Some x.
Proof.
  intros Hj Hne. destruct (decide (j < i)) as [Hlt|Hge].
  - exists j. by rewrite lookup_delete_lt.
  - exists (j - 1). rewrite lookup_delete_ge by lia. by replace (S (j - 1)) with j by lia.
Qed.
Lemma delete_alloc `{Geometry} (ws : list ABranch.t) i w : ws !! i = Some w → apart_list ws →
  apart_list (delete i ws) ∧ ABB.alloc_aus (delete i ws) = ABB.alloc_aus ws ∖ all_aus (ABranch.mini_allocator w) ∧
  all_aus (ABranch.mini_allocator w) ⊆ ABB.alloc_aus ws.
Proof.
  intros Hi Hap. split; [|split].
  - intros j k x y (j' & Hj & _ & Ej)%delete_lookup (k' & Hk & _ & Ek)%delete_lookup Hne.
    apply (Hap j' k'); [done|done|]. repeat case_decide; lia.
  - apply set_eq. intros u. rewrite elem_of_difference, !elem_alloc_aus. split.
    + intros (j & x & (j' & Hj & Hne & _)%delete_lookup & Hu). split; [eauto|]. intros Hw. exact (Hap _ _ _ _ Hj Hi Hne _ Hu Hw).
    + intros ((j & x & Hj & Hu) & Hn). destruct (decide (j = i)) as [->|Hne]; [naive_solver|].
      destruct (delete_lookup_2 _ _ _ _ Hj Hne) as [j' Hj']. eauto.
  - intros u Hu. apply elem_alloc_aus. eauto.
Qed.

(** ** The branches the state keeps *)
Definition tracked (bl : gmultiset Address) (cs : list CompactorInput) : gset Address := mdom bl ∪ input_roots cs.
Lemma elem_tracked bl cs r : r ∈ tracked bl cs ↔ r ∈ mdom bl ∨ r ∈ input_roots cs.
Proof. unfold tracked. apply elem_of_union. Qed.
Lemma elem_inputs cs r : r ∈ input_roots cs ↔ ∃ c, c ∈ cs ∧ r ∈ input_buffers c.
Proof.
  unfold input_roots. rewrite elem_of_union_list. split.
  - intros (X & (c & -> & Hc)%elem_of_list_fmap & Hr). exists c. split; [done|]. by apply elem_of_list_to_set in Hr.
  - intros (c & Hc & Hr). exists (list_to_set (input_buffers c)). split; [|by apply elem_of_list_to_set].
    apply elem_of_list_fmap. eauto.
Qed.
Lemma inputs_delete cs i : input_roots (delete i cs) ⊆ input_roots cs.
Proof.
  intros r (c & [j (j' & Hj & _)%delete_lookup]%elem_of_list_lookup & Hr)%elem_inputs. apply elem_inputs. exists c. split; [|done].
  by eapply elem_of_list_lookup_2.
Qed.
Lemma elem_to_aus (X : gset Address) u : u ∈ to_aus X ↔ ∃ a, a ∈ X ∧ au a = u.
Proof. unfold to_aus. rewrite elem_of_map. naive_solver. Qed.
Lemma au_in bdv tr X r : forest bdv tr → X ⊆ tr → r ∈ tr → au r ∈ to_aus X ↔ r ∈ X.
Proof.
  intros F Hs Hr. rewrite elem_to_aus. split; [|eauto]. intros (a & Ha & E). by rewrite <- (roots_apart _ _ _ _ F (Hs _ Ha) Hr E).
Qed.
Lemma mdom_au (m : gmultiset Address) : mdom (to_au_likes m) = to_aus (mdom m).
Proof. apply set_eq. intros u. by rewrite elem_mdom_au, elem_to_aus. Qed.

(** ** The invariant *)
Section Inv.
Context `{Geometry} (fixed grow : bool).
Local Instance bb : Buffer BranchNode := branch_buffer fixed.
Notation bdv s := (lb_bdv (root (ABB.betree s))).
Notation atree σ := (root (LikesBetree.betree σ)).
Notation tr s σ := (tracked (LikesBetree.buf_likes σ) (ABB.compactors s)).

(** The branches of the concrete tree answer as the simple buffers. *)
Definition agree (d : BranchDisk) (ad : gmap Address SB) : Prop :=
  ∀ r B n, ad !! r = Some B → stores d r n → ∀ k, buf_query B k = PBranch.query n k.
Record binv s σ : Prop := {
  b_skel : skel (root (ABB.betree s)) (atree σ);
  b_mt : memtable (ABB.betree s) = memtable (LikesBetree.betree σ);
  b_aus : ABB.betree_aus s = to_au_likes (LikesBetree.betree_likes σ);
  b_baus : ABB.branch_aus s = to_au_likes (LikesBetree.buf_likes σ);
  b_exact : sexact σ;
  b_abdv : dom (lb_bdv (atree σ)) = mdom (LikesBetree.buf_likes σ);
  b_forest : forest (bdv s) (tr s σ);
  b_sum : summarizes (ABB.branch_summary s) (bdv s) (tr s σ);
  b_nodes : ∀ a, a ∈ dom (lb_dv (root (ABB.betree s))) → au a ∈ mdom (ABB.betree_aus s);
  b_dis1 : mdom (ABB.betree_aus s) ## summary_aus (ABB.branch_summary s);
  b_dis2 : mdom (ABB.betree_aus s) ## ABB.branch_allocator_aus s;
  b_dis3 : summary_aus (ABB.branch_summary s) ## ABB.branch_allocator_aus s;
  b_wip : ∀ i w, ABB.wip_branches s !! i = Some w → ∃ free ls, good free ls w;
  b_wips : apart_list (ABB.wip_branches s);
  b_query : fixed = true → agree (bdv s) (lb_bdv (atree σ)) }.
Definition held s : gset AU := mdom (ABB.betree_aus s) ∪ summary_aus (ABB.branch_summary s) ∪ ABB.branch_allocator_aus s.
Record bstep s s' σ σ' (l : ABB.Label) : Prop := {
  st_like : fixed = true → ∃ lb, LikesBetree.next σ σ' lb ∧ ∀ al, betree_event linked_answers lb al → branch_event l al;
  st_kept : branch_pages_kept (root (ABB.betree s)) (root (ABB.betree s'));
  st_same : ∀ r, r ∈ tr s σ → r ∈ tr s' σ' → ∀ a, branch_page (bdv s) r a → bdv s' !! a = bdv s !! a;
  st_held : held s' = (held s ∪ unit_allocs l) ∖ unit_frees l;
  st_fresh : unit_allocs l ## held s;
  st_free : unit_frees l ⊆ held s }.

Lemma acct_sets (N S W N' S' W' A X Dn Ds : gset AU) :
  N ## S → N ## W → S ## W → N ## A → S ## A → W ## A →
  N' = (N ∪ A) ∖ Dn → Dn ⊆ N → S' = (S ∪ X) ∖ Ds → Ds ⊆ S → W' = W ∖ X → X ⊆ W →
  N' ## S' ∧ N' ## W' ∧ S' ## W' ∧ N' ∪ S' ∪ W' = (N ∪ S ∪ W ∪ A) ∖ (Dn ∪ Ds) ∧ A ## N ∪ S ∪ W ∧ Dn ∪ Ds ⊆ N ∪ S ∪ W.
Proof.
  intros D1 D2 D3 D4 D5 D6 -> HDn -> HDs -> HX.
  assert (K : ∀ u, u ∈ N → u ∉ S ∧ u ∉ W ∧ u ∉ A) by (intros u Hu; repeat split; intros Hu'; [exact (D1 u Hu Hu')|exact (D2 u Hu Hu')|exact (D4 u Hu Hu')]).
  assert (K2 : ∀ u, u ∈ S → u ∉ W ∧ u ∉ A) by (intros u Hu; repeat split; intros Hu'; [exact (D3 u Hu Hu')|exact (D5 u Hu Hu')]).
  assert (K3 : ∀ u, u ∈ W → u ∉ A) by (intros u Hu Hu'; exact (D6 u Hu Hu')).
  clear D1 D2 D3 D4 D5 D6. split_and!.
  - intros u. specialize (K u). specialize (K2 u). specialize (K3 u). specialize (HX u). rewrite !elem_of_difference, !elem_of_union. tauto.
  - intros u. specialize (K u). specialize (K2 u). specialize (K3 u). specialize (HX u). rewrite !elem_of_difference, !elem_of_union. tauto.
  - intros u. specialize (K u). specialize (K2 u). specialize (K3 u). specialize (HX u). rewrite !elem_of_difference, !elem_of_union. tauto.
  - apply set_eq. intros u. specialize (K u). specialize (K2 u). specialize (K3 u). specialize (HX u). specialize (HDn u). specialize (HDs u).
    rewrite !elem_of_union, !elem_of_difference, !elem_of_union. destruct (decide (u ∈ X)), (decide (u ∈ Dn)), (decide (u ∈ Ds)); tauto.
  - intros u. specialize (K u). specialize (K2 u). specialize (K3 u). rewrite !elem_of_union. tauto.
  - intros u. specialize (HDn u). specialize (HDs u). rewrite !elem_of_union. tauto.
Qed.

(** ** Facts about a state that satisfies the invariant *)
Section Facts.
  Context s σ (I : binv s σ).
  Lemma i_bufs r : r ∈ mdom (LikesBetree.buf_likes σ) ↔ Linked.reachable_buffer (root (ABB.betree s)) r.
  Proof using I. rewrite (exact_bufs _ (b_exact _ _ I)). symmetry. apply skel_reachable_buffer, I. Qed.
  Lemma i_tracked r : Linked.reachable_buffer (root (ABB.betree s)) r → r ∈ tr s σ.
  Proof using I. intros Hr%i_bufs. apply elem_tracked. by left. Qed.
  Lemma i_abdv_tracked r : r ∈ dom (lb_bdv (atree σ)) → r ∈ tr s σ.
  Proof using I. rewrite (b_abdv _ _ I), elem_tracked. by left. Qed.
  Lemma i_root_unit r : r ∈ tr s σ → au r ∈ summary_aus (ABB.branch_summary s).
  Proof using I.
    intros Hr. destruct (f_units _ _ (b_forest _ _ I) r Hr) as [U HU]. apply (summarizes_aus _ _ _ _ (b_sum _ _ I)). exists r, U.
    split_and!; [done|done|]. eapply root_unit; [apply I|done|done].
  Qed.
  Lemma i_query r k : Linked.reachable_buffer (root (ABB.betree s)) r → fixed = true →
    Linked.bd_query (bdv s) r k = Linked.bd_query (lb_bdv (atree σ)) r k.
  Proof using I.
    intros Hr Hf. pose proof (i_tracked _ Hr) as Ht. destruct (f_tree _ _ (b_forest _ _ I) r Ht) as (n & Hst & Hw).
    destruct (root_some _ _ _ (b_forest _ _ I) Ht) as [x Hx].
    apply i_bufs in Hr. rewrite <- (b_abdv _ _ I) in Hr. apply elem_of_dom in Hr as [B HB].
    unfold Linked.bd_query. rewrite Hx, HB. cbn [linked_query bb branch_buffer simple_buffer].
    rewrite (branch_query_tree _ _ n); [|apply (b_forest _ _ I)|done|done]. symmetry. by eapply (b_query _ _ I).
  Qed.
  Lemma i_fresh (X : gset Address) :
    (∀ a, a ∈ X → au a ∉ mdom (ABB.betree_aus s) ∧ au a ∉ summary_aus (ABB.branch_summary s)) → Linked.is_fresh (atree σ) X.
  Proof using I.
    intros HX. split.
    - intros a Ha Hx. destruct (HX a Hx) as [Hn _]. apply Hn. apply (b_nodes _ _ I). destruct (b_skel _ _ I) as [_ E]. by rewrite E.
    - intros a Ha Hx. destruct (HX a Hx) as [_ Hn]. apply Hn. by apply i_root_unit, i_abdv_tracked.
  Qed.
  Lemma i_same : same (AllocBetree.mkState (LikesBetree.betree σ) (ABB.betree_aus s) (ABB.branch_aus s)) σ.
  Proof using I. split; [done|]. cbn. split; apply I. Qed.
  Lemma i_baus_tracked r : r ∈ tr s σ → au r ∈ mdom (ABB.branch_aus s) ↔ r ∈ mdom (LikesBetree.buf_likes σ).
  Proof using I. intros Hr. rewrite (b_baus _ _ I), mdom_au. eapply au_in; [apply I|intros x Hx; apply elem_tracked; by left|done]. Qed.
  Lemma i_read r cs : r ∈ tr s σ → input_roots cs ⊆ input_roots (ABB.compactors s) → au r ∈ read_ref_aus cs ↔ r ∈ input_roots cs.
  Proof using I. intros Hr Hs. eapply au_in; [apply I|intros x Hx; apply elem_tracked; right; by apply Hs|done]. Qed.
End Facts.
End Inv.
