(** Concrete cases for C54. *)
From Verif Require Import Spec_Model Abs_Model Betree_Model Betree_Spec Branch_Model Branch_Spec Branch_Example.
From Verif Require Import LinkedBetree_Model LinkedBetree_Spec LikesBetree_Model LikesBetree_Spec Spec_Proof Route_Proof LinkedBetree_Proof LinkedBetree_Facts
  LikesTree_Proof Betree_Example LinkedBetree_Example LikesBetree_Example.
From Verif Require Import BranchSkel_Proof BranchBetree_Model BranchBetree_Spec BranchBetree_Proof BranchBetree_Facts BranchBetree_Example BranchLive_Spec.
From Coq Require Import ZifyBool ZifyNat ZifyN Lia.

Module BranchLiveEx.
  Local Existing Instance bgeo.
  (** ** A tree with a key in its memtable, a compaction that has not finished and
      a branch being built *)
  Definition busy : ABB.State := BranchEx.put BranchEx.t8 8 (Define 80).
  Lemma busy_run : BranchEx.reach true true busy {[1; 2; 5; 11; 6]}.
  Proof. apply BranchEx.put_step, BranchEx.run8. Qed.
  Lemma busy_memtable : mt_buffer (memtable (ABB.betree busy)) !! 8%N = Some (Define 80%N) ∧ ABB.compactors busy ≠ [] ∧ ABB.wip_branches busy ≠ [].
  Proof. by vm_compute. Qed.
  Lemma start_free v : v ∈ (∅ : gset AU) ↔ needed BranchEx.s0 v.
  Proof.
    split; [by intros Hv%elem_of_empty|]. intros Hv. exfalso.
    destruct (abb_inv true true _ _ _ _ BranchEx.initial (run_nil _ BranchEx.s0)) as [σ I].
    apply (needed_iff _ _ _ _ I) in Hv. vm_compute in Hv. revert Hv. apply (bool_decide_unpack _). by vm_compute.
  Qed.
  Lemma busy_free : base.NoDup [3; 4; 7] ∧ Forall (λ u, u < au_count ∧ ¬ needed busy u) [3; 4; 7] ∧ 0 < page_count.
  Proof.
    split; [by apply (bool_decide_unpack _)|]. split; [|cbn; lia].
    destruct busy_run as (ls&Hr&HX).
    assert (Hn : ∀ u, needed busy u → u ∈ ({[1; 2; 5; 11; 6]} : gset AU)).
    { intros u Hu. rewrite <-HX. apply (run_units true true _ _ _ _ ∅ BranchEx.initial Hr); [|done]. exact start_free. }
    repeat constructor; try (cbn; lia); intros Hu%Hn; revert Hu; apply (bool_decide_unpack _); by vm_compute.
  Qed.

  (** ** A tree of height one with a branch in the root that its first child lacks *)
  Lemma empty_apart : nodes_apart (root BranchEx.tree0).
  Proof. intros a a' [n Hn]. cbn in Hn. by rewrite lookup_empty in Hn. Qed.
  Lemma deep_acyclic s X : BranchEx.reach true true s X → Linked.acyclic (root (ABB.betree s)).
  Proof. apply BranchEx.acyclic_of. Qed.
  Lemma deep_path : Linked.path_valid (root (ABB.betree BranchEx.t13)) 3 0.
  Proof.
    split; [apply BranchEx.rootb_ok; by vm_compute|]. split; [eapply deep_acyclic, BranchEx.run13|]. split; [|done].
    split; [apply node_okb_ok; by vm_compute|bk].
  Qed.
  Lemma deep_flush : Linked.can_flush (Linked.path_target (root (ABB.betree BranchEx.t13)) 3 0) 0 0.
  Proof.
    split; [apply (deep_acyclic _ _ BranchEx.run13)|]. split; [apply BranchEx.rootb_ok; by vm_compute|]. split; [split; [vm_compute; lia|by vm_compute]|].
    unfold ofs_all_gte. apply Forall_forall. intros; lia.
  Qed.
  Lemma grown_run : BranchEx.reach true true BranchEx.t10 (({[6; 12]} ∪ {[au (BranchEx.nd 13)]}) ∖ ∅).
  Proof. apply BranchEx.grow_step; [split_and!; bk|apply BranchEx.run9]. Qed.
  Lemma flat_path : Linked.path_valid (root (ABB.betree BranchEx.t10)) 3 0.
  Proof.
    split; [apply BranchEx.rootb_ok; by vm_compute|]. split; [eapply deep_acyclic, grown_run|]. split; [|done].
    split; [apply node_okb_ok; by vm_compute|bk].
  Qed.
  Lemma flat_split : Linked.can_split_parent (Linked.path_target (root (ABB.betree BranchEx.t10)) 3 0) (SplitLeaf 0 6).
  Proof.
    split; [apply (deep_acyclic _ _ grown_run)|]. split; [apply BranchEx.rootb_ok; by vm_compute|]. split; [vm_compute; lia|].
    split; [apply BranchEx.rootb_ok; by vm_compute|]. split; [apply node_okb_ok; by vm_compute|]. split; [by split|]. split; [bk|]. by vm_compute.
  Qed.
  Lemma free_of s X (us : list AU) : BranchEx.reach true true s X → bool_decide (Forall (λ u, u ∉ X) us) = true → Forall (λ u, ¬ needed s u) us.
  Proof.
    intros (ls&Hr&HX) Hb%bool_decide_eq_true. eapply Forall_impl; [|exact Hb]. intros u Hu Hn. apply Hu. rewrite <-HX.
    apply (run_units true true _ _ _ _ ∅ BranchEx.initial Hr); [|done]. exact start_free.
  Qed.
  Lemma deep_free : Forall (λ u, ¬ needed BranchEx.t13 u) [20; 21] ∧ Forall (λ u, ¬ needed BranchEx.t10 u) [20; 21; 22].
  Proof. split; [apply (free_of _ _ _ BranchEx.run13)|apply (free_of _ _ _ grown_run)]; by vm_compute. Qed.

  (** ** An image whose nodes share an allocation unit: the root and its second
      child are two pages of unit 1, the first child is in unit 2. *)
  Definition shr : Address := pg 1 0.
  Definition shz : Address := pg 1 1.
  Definition shc : Address := pg 2 0.
  Definition shnodes : gmap Address LNode.t :=
    <[shr := LNode.mk [] [Elem 0; Elem 10; EMax] [Some shc; Some shz] [0; 0]]>
    (<[shc := LNode.mk [] [Elem 0; Elem 10] [None] [0]]> {[shz := LNode.mk [] [Elem 10; EMax] [None] [0]]}).
  Definition shtree : BState BLB := mkBS (empty_memtable 0) (mkLB (Some shr) shnodes ∅).
  Definition shlikes : gmultiset Address := {[+ shr; shc; shz +]}.
  Definition shared : ABB.State := ABB.mkState shtree (to_au_likes shlikes) ∅ ∅ [] [].
  Definition shrank : Ranking := <[shr := 1]> (<[shc := 0]> {[shz := 0]}).
  Lemma shwf : Linked.wf (root shtree).
  Proof. apply (diskb_ok (Linked.i_bdv (Buffer0 := branch_buffer true) (root shtree))). by vm_compute. Qed.
  Lemma shcases a n : shnodes !! a = Some n → a = shr ∨ a = shc ∨ a = shz.
  Proof. unfold shnodes. intros [[<- _]|[_ [[<- _]|[_ [<- _]%lookup_singleton_Some]]%lookup_insert_Some]]%lookup_insert_Some; auto. Qed.
  Lemma shranking : Linked.valid_ranking (root shtree) shrank.
  Proof.
    split; [apply shwf|]. split; [|intros _ a [= <-]; by eexists]. split; [apply shwf|].
    intros a n Hn _ i c ra Hi Hra. destruct (shcases _ _ Hn) as [->|[-> | ->]]; vm_compute in Hn; injection Hn as <-; vm_compute in Hra; injection Hra as <-; cbn in Hi.
    - destruct i as [|[|i]]; cbn in Hi; [| |done]; injection Hi as <-; exists 0; (split; [by vm_compute|lia]).
    - destruct i as [|i]; cbn in Hi; [done|done].
    - destruct i as [|i]; cbn in Hi; [done|done].
  Qed.
  Lemma shlikes_ok : transitive_likes (root shtree) shlikes ∅.
  Proof. exists shrank. split; [exact shranking|]. split; bk. Qed.
  Lemma shinit : ABB.initialize shared shtree.
  Proof.
    split.
    { split; [split; [exact shwf|by eexists; exact shranking]|]. split; [|split; [|done]].
      - intros ba (a&n&_&Hn&Hb). exfalso. destruct (shcases _ _ Hn) as [->|[-> | ->]]; vm_compute in Hn; injection Hn as <-; by apply elem_of_nil in Hb.
      - intros n (a&[= <-]&Hn). vm_compute in Hn. injection Hn as <-. done. }
    exists shlikes, ∅. split; [exact shlikes_ok|].
    assert (E : mdom (∅ : gmultiset Address) = ∅) by done. rewrite E.
    split; [by intros r Hr%elem_of_empty|]. split; [by intros a b Ha%elem_of_empty|].
    split; [by intros u v U V Hu|]. split; [|split; [bk|split; [bk|]]].
    - intros a [n Hn]%elem_of_dom. destruct (shcases _ _ Hn) as [->|[-> | ->]]; bk.
    - unfold shared. f_equal; by vm_compute.
  Qed.
  Lemma shroot : Linked.has_root (root shtree).
  Proof. apply BranchEx.rootb_ok. by vm_compute. Qed.
  Lemma shpath : Linked.path_valid (root shtree) 3 0.
  Proof.
    split; [exact shroot|]. split; [split; [exact shwf|by eexists; exact shranking]|]. split; [|done].
    split; [apply node_okb_ok; by vm_compute|bk].
  Qed.
  Lemma shflush : Linked.can_flush (Linked.path_target (root shtree) 3 0) 0 0.
  Proof.
    split; [exact shwf|]. split; [exact shroot|]. split; [split; [vm_compute; lia|by vm_compute]|].
    unfold ofs_all_gte. apply Forall_forall. intros; lia.
  Qed.
  (** The root cannot be flushed into its first child: the page of the old root
      stays, since its unit is in use, and would name a page that is gone. *)
  Lemma shblocked s' l new na pa : ¬ ABB.internal_flush shared s' l new 3 0 0 0 na pa.
  Proof.
    intros (alls&ds&->&(Hf&_)&_&_&_&(_&_&(_&_&Hlen&_)&(((_&Hch)&_)&_&Hsub&_)&_)&Ha&_&Hdom&_).
    assert (pa = []) as -> by (by destruct pa). clear Hlen. change (ABB.linked shared) with (root shtree) in *.
    assert (F : ∀ a u, a ∈ two_repr na → u = 1 ∨ u = 2 → au a ≠ u).
    { intros a u Hin Hu <-. apply (Hf (au a)); [|subst alls; apply elem_of_union; left; apply elem_to_aus; eauto].
      destruct Hu as [-> | ->]; bk. }
    set (T := root shtree) in *.
    assert (Eaus : (internal_flush_au_likes T 3 0 0 0 na [] (ABB.betree_aus shared) (ABB.branch_aus shared)).1 =
      {[+ 1 +]} ⊎ {[+ au (addr1 na); au (addr2 na) +]}).
    { unfold internal_flush_au_likes. cbn [fst].
      replace (ABB.betree_aus shared ∖ to_au_likes (flush_discard_betree T 3 0 0)) with ({[+ 1 +]} : gmultiset AU) by bk. f_equal.
      unfold add_betree_likes, two_likes. rewrite to_au_disj, to_au_disj, !to_au_singleton.
      change (to_au_likes (to_likes [])) with (∅ : gmultiset AU). by rewrite (right_id_L ∅ (⊎)). }
    rewrite Eaus in Hdom. clear Eaus.
    assert (Hr : shr ∈ dom (lb_dv (root new))).
    { rewrite <-Hdom. apply elem_of_filter. split; [apply elem_mdom; rewrite gmultiset_elem_of_disj_union; left; by apply gmultiset_elem_of_singleton|].
      cbn [Linked.post_flush Linked.path_substitute Linked.flush Linked.path_target lb_dv]. rewrite !dom_insert_L. apply elem_of_union; right. apply elem_of_union; right. apply elem_of_dom. by eexists. }
    apply elem_of_dom in Hr as [n Hn]. pose proof (lookup_weaken _ _ _ _ Hn Hsub) as Hn'.
    cbn [Linked.post_flush Linked.path_substitute Linked.flush Linked.path_target lb_dv] in Hn'.
    rewrite !lookup_insert_ne in Hn' by (intros E; refine (F _ 1 _ (or_introl eq_refl) (f_equal au E)); unfold two_repr; set_solver).
    vm_compute in Hn'. injection Hn' as <-.
    destruct (proj1 (Hch _ _ Hn) 0 (Some shc) eq_refl shc eq_refl) as [m Hm].
    assert (Hc : shc ∈ dom (lb_dv (root new))) by (apply elem_of_dom; by eexists). rewrite <-Hdom in Hc.
    apply elem_of_filter in Hc as [Hc _]. apply elem_mdom in Hc. rewrite !gmultiset_elem_of_disj_union, !gmultiset_elem_of_singleton in Hc.
    destruct Hc as [Hc|[Hc|Hc]]; [done|..]; (eapply (F _ 2); [|by right|symmetry; exact Hc]); unfold two_repr; set_solver.
  Qed.
End BranchLiveEx.
