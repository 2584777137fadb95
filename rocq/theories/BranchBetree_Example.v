(** Concrete runs of the be-tree whose buffers are branches (C42, C43). *)
From Verif Require Import Spec_Model Abs_Model Betree_Model Betree_Spec Branch_Model Branch_Spec Branch_Proof BranchPages_Proof BranchBuild_Proof Branch_Example.
From Verif Require Import LinkedBetree_Model LinkedBetree_Spec LikesBetree_Model LikesBetree_Spec Spec_Proof Route_Proof LinkedBetree_Proof LinkedBetree_Facts
  LikesTree_Proof LikesBetree_Facts Abs_Proof Betree_Common Routed_Proof Betree_Example LinkedBetree_Example LikesBetree_Example.
From Verif Require Import BranchSkel_Proof BranchCompact_Proof BranchBetree_Model BranchBetree_Spec BranchBuffer_Proof BranchForest_Proof BranchBetree_Proof BranchBetree_Facts.
From Coq Require Import ZifyBool ZifyNat ZifyN Lia.

Module BranchEx.
Section Steps.
  Local Existing Instance bgeo.
  Context (fixed grow : bool).
  Local Instance exbb : Buffer BranchNode := branch_buffer fixed.
  Notation next := (ABB.next fixed grow).

  Definition tree0 : BState BLB := mkBS (empty_memtable 0) (mkLB None ∅ ∅).
  Definition s0 : ABB.State := ABB.mkState tree0 ∅ ∅ ∅ [] [].
  Lemma initial : ABB.initialize s0 tree0.
  Proof.
    destruct LinkedEx.initial as (Hac&_&_&Hmt&_). split.
    { split; [by apply (skel_acyclic tree0.(root) (root LinkedEx.st0))|]. split; [|split; [|split; [exact Hmt|done]]].
      - intros ba (a&n&_&Hn&_). done.
      - by intros n (a&Ha&_). }
    exists ∅, ∅. split.
    { apply (skel_likes tree0.(root) (root LinkedEx.st0)); [done|]. exact LikesEx.empty_likes. }
    assert (E : mdom (∅ : gmultiset Address) = ∅) by done. rewrite E.
    split; [by intros r Hr%elem_of_empty|]. split; [by intros a b Ha%elem_of_empty|].
    split; [by intros u v U V Hu|]. split; [bk|]. split; [bk|]. split; [bk|]. unfold s0. f_equal; by vm_compute.
  Qed.

  (** A run from the start, with the units it holds. *)
  Definition reach (s : ABB.State) (X : gset AU) : Prop := ∃ ls, run next s0 ls s ∧ units_held ∅ ls = X.
  Lemma start : reach s0 ∅.
  Proof. exists []. split; [constructor|done]. Qed.
  Lemma more s s' l X : next s s' l → reach s X → reach s' ((X ∪ unit_allocs l) ∖ unit_frees l).
  Proof.
    intros Hn (ls&Hr&<-). exists (ls ++ [l]). split; [by eapply run_snoc|].
    clear. generalize (∅ : gset AU). induction ls as [|l' ls IH]; intros Y; [done|]. cbn. apply IH.
  Qed.
  Lemma more_int s s' A D X : next s s' (ABB.Int A D) → reach s X → reach s' ((X ∪ A) ∖ D).
  Proof. intros Hn. by apply (more s s' (ABB.Int A D)). Qed.
  (** The same, by internal steps after the state [p]. *)
  Definition from (p s : ABB.State) (X : gset AU) : Prop := reach s X ∧ ∃ ls, run next p ls s ∧ Forall (λ l, ∃ A D, l = ABB.Int A D) ls.
  Lemma from_here s X : reach s X → from s s X.
  Proof. intros Hr. split; [done|]. exists []. split; [constructor|done]. Qed.
  Lemma more_from q s s' A D X : next s s' (ABB.Int A D) → from q s X → from q s' ((X ∪ A) ∖ D).
  Proof.
    intros Hn [Hr (ls&Hls&Hf)]. split; [by eapply more_int|]. exists (ls ++ [ABB.Int A D]). split; [by eapply run_snoc|].
    apply Forall_app. split; [done|]. apply Forall_singleton. by eexists _, _.
  Qed.
  Lemma acyclic_of s X : reach s X → Linked.acyclic (root (ABB.betree s)).
  Proof.
    intros (ls&Hr&_). destruct (abb_inv fixed grow _ _ _ _ initial Hr) as [σ I].
    destruct (b_exact _ _ _ I) as (Hli&_). rewrite (skel_acyclic _ _ (b_skel _ _ _ I)). apply (linv_legal _ Hli).
  Qed.
  (** What a branch in use answers. *)
  Lemma query_of s X r k : reach s X → in_use s r →
    branch_query (lb_bdv (root (ABB.betree s))) r k = buf_query (node_buffer (branch_tree (lb_bdv (root (ABB.betree s))) r)) k.
  Proof.
    intros (ls&Hr&_) Hu. destruct (abb_inv fixed grow _ _ _ _ initial Hr) as [σ I]. apply (in_use_iff _ _ _ _ I) in Hu.
    pose proof (f_wf _ _ (b_forest _ _ _ I)) as Hwf. destruct (f_tree _ _ (b_forest _ _ _ I) r Hu) as (n&Hn&Hw).
    rewrite (branch_tree_stores _ _ _ Hwf Hn), (node_buffer_query _ _ Hw). by apply branch_query_tree.
  Qed.
  Lemma wf_of (l : BLB) : diskb (Linked.i_bdv l) = true → Linked.wf l.
  Proof. intros H%diskb_ok. apply H. Qed.
  Lemma refl_view (l : BLB) : Linked.wf l → Linked.valid_view l l.
  Proof. intros Hw. split; [done|]. split; [done|]. split; [done|]. intros a x y Hx Hy. congruence. Qed.

  (** ** The steps as functions *)
  Definition with_tree (s : ABB.State) (b : BState BLB) :=
    ABB.mkState b (ABB.betree_aus s) (ABB.branch_aus s) (ABB.branch_summary s) (ABB.compactors s) (ABB.wip_branches s).
  Definition with_wip (s : ABB.State) (ws : list ABranch.t) :=
    ABB.mkState (ABB.betree s) (ABB.betree_aus s) (ABB.branch_aus s) (ABB.branch_summary s) (ABB.compactors s) ws.
  Definition put (s : ABB.State) (k : N) (m : Message) : ABB.State :=
    let b := ABB.betree s in
    with_tree s (mkBS (apply_puts (memtable b) (singleton_at (mt_seq_end (memtable b)) (mkKM k m))) (root b)).
  Lemma put_step s k m X : reach s X → reach (put s k m) X.
  Proof.
    intros Hr. pose proof (more s (put s k m) (ABB.Lbl (Put (singleton_at (mt_seq_end (memtable (ABB.betree s))) (mkKM k m)))) X) as Hm.
    cbn [unit_allocs unit_frees] in Hm. rewrite union_empty_r_L, difference_empty_L in Hm. apply Hm; [|done].
    left. eexists. eexists. split; [done|]. split; [done|]. split; [|done]. right; left.
    eexists. split; [done|]. split; [apply singleton_wf|]. done.
  Qed.
  Definition begin (s : ABB.State) (U : gset AU) : ABB.State := with_wip s (ABB.wip_branches s ++ [ABranch.new U]).
  Definition build (s : ABB.State) (w : ABranch.t) : ABB.State := with_wip s (<[0 := w]> (ABB.wip_branches s)).
  Lemma begin_step_from q s U X : ABB.is_fresh s U → from q s X → from q (begin s U) ((X ∪ U) ∖ ∅).
  Proof. intros Hf Hr. eapply more_from; [|exact Hr]. right; left. by exists U. Qed.

  Lemma begin_step s U X : ABB.is_fresh s U → reach s X → reach (begin s U) ((X ∪ U) ∖ ∅).
  Proof. intros; (eapply (proj1 (A:=reach _ _)), (begin_step_from s); [done..|by apply from_here]). Qed.  Lemma build_step_from q s w0 w e A D X : ABB.wip_branches s !! 0 = Some w0 → ABB.is_fresh s A → ABB.builds grow w0 w (e, A, D) →
    from q s X → from q (build s w) ((X ∪ A) ∖ D).
  Proof. intros H0 Hf Hb Hr. eapply more_from; [|exact Hr]. right; right; left. exists 0, w, e, A, D, w0. done. Qed.

  Lemma build_step s w0 w e A D X : ABB.wip_branches s !! 0 = Some w0 → ABB.is_fresh s A → ABB.builds grow w0 w (e, A, D) →
    reach s X → reach (build s w) ((X ∪ A) ∖ D).
  Proof. intros; (eapply (proj1 (A:=reach _ _)), (build_step_from s); [done..|by apply from_here]). Qed.  (** A branch of one page: begin, initialize, seal. *)
  Definition leaf0 (u : AU) (ks : list N) (ms : list Message) : ABranch.t := ABranch.branch_initialize (ABranch.new {[u]}) (pg u 0) ks ms.
  Definition leaf (u : AU) (ks : list N) (ms : list Message) : ABranch.t := ABranch.branch_seal (leaf0 u ks ms) None ∅.
  Definition add_leaf (s : ABB.State) (u : AU) (ks : list N) (ms : list Message) : ABB.State :=
    build (build (begin s {[u]}) (leaf0 u ks ms)) (leaf u ks ms).
  Lemma leaf_steps_from q s u ks ms X : ABB.wip_branches s = [] → ABB.is_fresh s {[u]} → u < 8 → first_leaf ks ms →
    from q s X → from q (add_leaf s u ks ms) (X ∪ {[u]}).
  Proof.
    intros Hw Hf Hu (Hne&Hl&Hs) Hr. apply sorted_strong in Hs.
    assert (Halloc : allocs (ABranch.mini_allocator (ABranch.new {[u]})) !! u = Some (pa_new u)).
    { cbn [ABranch.new ABranch.mini_allocator]. rewrite add_lookup. cbn. by rewrite decide_True by set_solver. }
    assert (Hca : can_allocate (ABranch.mini_allocator (ABranch.new {[u]})) (pg u 0)).
    { exists (pa_new u). split; [done|]. split; [split; cbn; lia|]. split; [done|]. cbn. set_solver. }
    assert (Hem : ABB.is_fresh s ∅) by (unfold ABB.is_fresh in *; set_solver).
    assert (Hb : ∀ s, ABB.is_fresh s ∅) by (intros; unfold ABB.is_fresh; set_solver).
    assert (Hbuilds : ∀ w w' l, ABranch.build_next w w' l → ABB.builds grow w w' l).
    { intros w w' l H. unfold ABB.builds. destruct grow; [by left|done]. }
    replace (X ∪ {[u]}) with ((((X ∪ {[u]}) ∖ ∅ ∪ ∅) ∖ ∅ ∪ ∅) ∖ ∅) by set_solver.
    apply (build_step_from _ _ (leaf0 u ks ms) _ (ABranch.Seal None) ∅ ∅).
    { cbn. rewrite Hw. done. } { apply Hb. }
    { apply Hbuilds. split; [done|]. split; [|done]. split; [done|]. eexists. split; [done|]. split; [|split].
      - split; [by intros []|]. rewrite (root_node_at _ _ (LBranch.Leaf ks ms)); [by intros []|apply lookup_singleton].
      - done.
      - unfold leaf0, ABranch.branch_initialize. cbn [ABranch.mini_allocator]. apply set_eq. intros v. rewrite elem_removable_aus.
        split; [|by intros ?%elem_of_empty]. intros (p&Hp&Hres). exfalso.
        assert (v ∈ all_aus (allocate (ABranch.mini_allocator (ABranch.new {[u]})) (pg u 0))) as Hv.
        { apply elem_of_dom. eauto. }
        rewrite allocate_all in Hv by done. cbn [ABranch.new ABranch.mini_allocator] in Hv. rewrite add_all in Hv.
        assert (v = u) as -> by (unfold all_aus, ma_empty in Hv; cbn in Hv; set_solver).
        assert (Hpr : page_is_reserved (allocate (ABranch.mini_allocator (ABranch.new {[u]})) (pg u 0)) (pg u 0)).
        { apply allocate_reserved; [done|]. by right. }
        unfold page_is_reserved in Hpr. destruct Hpr as (p'&Hp'&Hin). change (au (pg u 0)) with u in Hp'. assert (p' = p) as -> by congruence. set_solver. }
    apply (build_step_from _ _ (ABranch.new {[u]}) _ (ABranch.Initialize (pg u 0) ks ms) ∅ ∅).
    { cbn. rewrite Hw. done. } { apply Hb. }
    { apply Hbuilds. split; [done|]. split; [done|]. split; [|done]. split; [done|]. split; [|split; [done|]].
      - apply set_eq. intros v. rewrite elem_reserved_aus. split; [|by intros ?%elem_of_empty]. intros (p&Hp&Hres).
        cbn [ABranch.new ABranch.mini_allocator] in Hp. rewrite add_lookup in Hp. cbn in Hp.
        destruct (decide _); [injection Hp as <-; done|]. done.
      - split; [destruct ks; [done|cbn; lia]|]. done. }
    by apply begin_step_from.
  Qed.

  Lemma leaf_steps s u ks ms X : ABB.wip_branches s = [] → ABB.is_fresh s {[u]} → u < 8 → first_leaf ks ms →
    reach s X → reach (add_leaf s u ks ms) (X ∪ {[u]}).
  Proof. intros; (eapply (proj1 (A:=reach _ _)), (leaf_steps_from s); [done..|by apply from_here]). Qed.  (** *** Steps of the tree; node pages outside the units counted are dropped. *)
  Definition keep_units {V} (m : gmap Address V) (A : gset AU) : gmap Address V := filter (λ kv, au kv.1 ∈ A) m.
  Lemma keep_dom {V} (m : gmap Address V) A : restrict_domain_au m A = dom (keep_units m A).
  Proof.
    apply set_eq. intros a. unfold restrict_domain_au, keep_units. rewrite elem_of_filter, !elem_of_dom. split.
    - intros (Ha&x&Hx). exists x. by apply map_filter_lookup_Some.
    - intros (x&[Hx Ha]%map_filter_lookup_Some). eauto.
  Qed.
  Lemma keep_sub {V} (m : gmap Address V) A : keep_units m A ⊆ m.
  Proof. apply map_filter_subseteq. Qed.
  Definition flushed_tree (s : ABB.State) (b : ABranch.Branch) (a : Address) : BState BLB :=
    let na := mkTwo a (LBranch.root b) in
    let pushed := Linked.push_memtable (ABB.linked s) (LBranch.root_node b) na in
    let aus := flush_memtable_au_likes (ABB.linked s) pushed na (ABB.betree_aus s) (ABB.branch_aus s) in
    mkBS (mt_drain (memtable (ABB.betree s)))
      (mkLB (lb_root pushed) (keep_units (lb_dv pushed) (mdom aus.1)) (LBranch.merge_disk (lb_bdv (ABB.linked s)) (LBranch.disk b))).
  Definition flushed (s : ABB.State) (b : ABranch.Branch) (a : Address) : ABB.State :=
    let na := mkTwo a (LBranch.root b) in
    let new := flushed_tree s b a in
    let aus := flush_memtable_au_likes (ABB.linked s) (root new) na (ABB.betree_aus s) (ABB.branch_aus s) in
    ABB.mkState new aus.1 aus.2 (<[au (LBranch.root b) := ABranch.get_summary b]> (ABB.branch_summary s))
      (ABB.compactors s) (delete 0 (ABB.wip_branches s)).
  Lemma flush_step s w b a X : ABB.wip_branches s !! 0 = Some w → ABranch.sealed w = true → ABranch.branch w = Some b →
    ABB.is_fresh s {[au a]} → a ≠ LBranch.root b →
    node_buffer (branch_tree (LBranch.disk b ∪ lb_bdv (ABB.linked s)) (LBranch.root b)) = mt_buffer (memtable (ABB.betree s)) →
    LBranch.disk b !! LBranch.root b = Some (LBranch.root_node b) → LBranch.disk b ##ₘ lb_bdv (ABB.linked s) →
    diskb (Linked.i_bdv (root (flushed_tree s b a))) = true →
    root_likes (root (flushed_tree s b a)) = {[+ a +]} →
    reach s X → reach (flushed s b a) ((X ∪ {[au a]}) ∖ (mdom (ABB.betree_aus s) ∖ mdom (ABB.betree_aus (flushed s b a)))).
  Proof.
    intros Hw Hs Hb Hf Hne Hbuf Hrb Hdis Hok Hrl Hr. eapply more_int; [|exact Hr].
    do 4 right; left. exists (flushed_tree s b a), 0, a, {[au a]}. eexists. exists w, b.
    assert (Hrl' : root_likes (Linked.push_memtable (ABB.linked s) (LBranch.root_node b) (mkTwo a (LBranch.root b))) = {[+ a +]}).
    { unfold root_likes, Linked.root_is. cbn. by rewrite lookup_insert. }
    split; [done|]. split; [done|]. split; [done|]. split; [done|]. split; [done|]. cbv zeta. split; [|split; [done|split; [done|]]].
    - split; [done|]. split; [done|]. split; [exact Hbuf|]. split; [|done]. split; [by apply wf_of|]. split; [done|].
      split; [apply keep_sub|]. intros c x y Hx Hy. cbn [lb_bdv flushed_tree root Linked.push_memtable addr2] in Hx, Hy. unfold LBranch.merge_disk in Hx.
      destruct (decide (LBranch.root b = c)) as [<-|Hc].
      + rewrite lookup_insert in Hy. apply lookup_union_Some in Hx as [Hx|Hx]; [congruence| |done].
        exfalso. by eapply map_disjoint_spec.
      + rewrite lookup_insert_ne in Hy by done. apply lookup_union_Some in Hx as [Hx|Hx]; [|unfold ABB.linked in *; congruence|done].
        exfalso. by eapply map_disjoint_spec.
    - split; [|by split; [done|]]. unfold flush_memtable_au_likes. cbn [fst]. rewrite Hrl, <-Hrl'. symmetry. apply keep_dom.
  Qed.
  (** Growing. *)
  Definition grown (s : ABB.State) (a : Address) : ABB.State :=
    ABB.mkState (mkBS (memtable (ABB.betree s)) (Linked.grow (root (ABB.betree s)) a)) (ABB.betree_aus s ⊎ {[+ au a +]})
      (ABB.branch_aus s) (ABB.branch_summary s) (ABB.compactors s) (ABB.wip_branches s).
  Lemma grow_step s a X : ABB.is_fresh s {[au a]} → reach s X → reach (grown s a) ((X ∪ {[au a]}) ∖ ∅).
  Proof. intros Hf Hr. eapply more_int; [|exact Hr]. do 5 right; left. eexists _, a. done. Qed.
  (** Compacting. *)
  Definition compacting (s : ABB.State) (c : CompactorInput) : ABB.State :=
    ABB.mkState (ABB.betree s) (ABB.betree_aus s) (ABB.branch_aus s) (ABB.branch_summary s) (ABB.compactors s ++ [c]) (ABB.wip_branches s).
  Definition input_at_root (s : ABB.State) (start end_ : nat) : CompactorInput :=
    let n := Linked.root_node (root (ABB.betree s)) in
    mkInput (subrange (LNode.buffers n) start end_) (offsets_decrement (LNode.make_offset_map n) start).
  Lemma input_ok s X k start end_ : Linked.has_root (root (ABB.betree s)) → LNode.key_in_domain (Linked.root_node (root (ABB.betree s))) k →
    start < end_ ≤ length (LNode.buffers (Linked.root_node (root (ABB.betree s)))) → reach s X →
    ABB.valid_compactor_input (ABB.linked s) k 0 start end_ (input_at_root s start end_).
  Proof. intros Hh Hk Hse Hr. pose proof (acyclic_of _ _ Hr). done. Qed.
  Lemma compacting_step_from q s X k start end_ : Linked.has_root (root (ABB.betree s)) → LNode.key_in_domain (Linked.root_node (root (ABB.betree s))) k →
    start < end_ ≤ length (LNode.buffers (Linked.root_node (root (ABB.betree s)))) → from q s X →
    from q (compacting s (input_at_root s start end_)) ((X ∪ ∅) ∖ ∅).
  Proof.
    intros Hh Hk Hse Hr. eapply more_from; [|exact Hr]. do 8 right; left. exists k, 0, start, end_, (input_at_root s start end_).
    split; [done|]. split; [eapply input_ok; [done..|apply Hr]|done].
  Qed.

  Lemma compacting_step s X k start end_ : Linked.has_root (root (ABB.betree s)) → LNode.key_in_domain (Linked.root_node (root (ABB.betree s))) k →
    start < end_ ≤ length (LNode.buffers (Linked.root_node (root (ABB.betree s)))) → reach s X →
    reach (compacting s (input_at_root s start end_)) ((X ∪ ∅) ∖ ∅).
  Proof. intros; (eapply (proj1 (A:=reach _ _)), (compacting_step_from s); [done..|by apply from_here]). Qed.  Definition compacted_state (s : ABB.State) (b : ABranch.Branch) (key : Key) (start end_ : nat) (a : Address) : ABB.State :=
    let na := mkTwo a (LBranch.root b) in
    let cs := delete 0 (ABB.compactors s) in
    let compacted := Linked.post_compact (ABB.linked s) key 0 start end_ (LBranch.root_node b) na [] in
    let aus := internal_compact_complete_au_likes (ABB.linked s) key 0 start end_ na [] (ABB.betree_aus s) (ABB.branch_aus s) in
    let dead := (dom (ABB.branch_summary s) ∖ mdom aus.2) ∖ read_ref_aus cs in
    let summary := remove_keys (<[au (LBranch.root b) := ABranch.get_summary b]> (ABB.branch_summary s)) dead in
    let full := LBranch.merge_disk (lb_bdv (ABB.linked s)) (LBranch.disk b) in
    ABB.mkState (mkBS (memtable (ABB.betree s)) (mkLB (lb_root compacted) (keep_units (lb_dv compacted) (mdom aus.1))
                   (restrict_disk full (restrict_domain_au full (summary_aus summary)))))
      aus.1 aus.2 summary cs (delete 0 (ABB.wip_branches s)).
  Definition compact_frees (s : ABB.State) (s' : ABB.State) : gset AU :=
    (mdom (ABB.betree_aus s) ∖ mdom (ABB.betree_aus s')) ∪
    summary_aus (restrict_keys (ABB.branch_summary s) ((dom (ABB.branch_summary s) ∖ mdom (ABB.branch_aus s')) ∖ read_ref_aus (ABB.compactors s'))).
  Lemma compact_step_from q s w b key start end_ a X : let s' := compacted_state s b key start end_ a in
    ABB.wip_branches s !! 0 = Some w → ABranch.sealed w = true → ABranch.branch w = Some b →
    ABB.is_fresh s {[au a]} → a ≠ LBranch.root b →
    ABB.compactors s !! 0 = Some (input_at_root s start end_) →
    Linked.has_root (root (ABB.betree s)) → LNode.key_in_domain (Linked.root_node (root (ABB.betree s))) key →
    start < end_ ≤ length (LNode.buffers (Linked.root_node (root (ABB.betree s)))) →
    LBranch.disk b !! LBranch.root b = Some (LBranch.root_node b) → LBranch.disk b ##ₘ lb_bdv (ABB.linked s) →
    diskb (Linked.i_bdv (root (ABB.betree s'))) = true →
    (∀ k, linked_contains (LBranch.root_node b) (lb_bdv (ABB.linked s')) (LBranch.root b) k ↔
          Linked.valid_compact_key_domain (lb_bdv (ABB.linked s)) (Linked.root_node (ABB.linked s)) start end_ k) →
    (∀ k, linked_contains (LBranch.root_node b) (lb_bdv (ABB.linked s')) (LBranch.root b) k →
          linked_query (LBranch.root_node b) (lb_bdv (ABB.linked s')) (LBranch.root b) k =
          Linked.compact_key_value (lb_bdv (ABB.linked s)) (Linked.root_node (ABB.linked s)) start end_ k) →
    from q s X → from q s' ((X ∪ {[au a]}) ∖ compact_frees s s').
  Proof.
    intros s' Hw Hs Hb Hf Hne Hc Hh Hk Hse Hrb Hdis Hok Hq1 Hq2 Hr.
    pose proof (acyclic_of _ _ (proj1 Hr)) as Hac. eapply more_from; [|exact Hr].
    do 10 right. exists (ABB.betree s'), key, 0, start, end_, 0, 0, a, [], {[au a]}. eexists. exists (input_at_root s start end_), w, b.
    split; [done|]. split; [done|]. split; [set_solver|]. split; [by intros ?|]. split; [done|].
    split; [eapply input_ok; [done..|apply Hr]|]. split; [done|]. split; [done|]. split; [done|]. cbv zeta.
    split; [|split; [set_solver|split; [done|]]].
    - split; [done|]. split; [by split; [apply Hac|]|]. split.
      { split; [by split|]. split; [constructor|]. split; [done|]. split; [done|]. set_solver. }
      split; [|done]. split; [by apply wf_of|]. split; [done|]. split; [apply keep_sub|].
      intros c x y Hx Hy. cbn [lb_bdv s' compacted_state ABB.betree root Linked.post_compact Linked.path_target Linked.path_substitute Linked.compact addr2] in Hx, Hy. apply map_filter_lookup_Some in Hx as [Hx _]. unfold LBranch.merge_disk in Hx.
      destruct (decide (LBranch.root b = c)) as [<-|Hcn].
      + rewrite lookup_insert in Hy. apply lookup_union_Some in Hx as [Hx|Hx]; [congruence| |done].
        exfalso. by eapply map_disjoint_spec.
      + rewrite lookup_insert_ne in Hy by done. apply lookup_union_Some in Hx as [Hx|Hx]; [|unfold ABB.linked in *; congruence|done].
        exfalso. by eapply map_disjoint_spec.
    - split; [apply keep_dom|]. split; [done|]. done.
  Qed.

  Lemma compact_step s w b key start end_ a X : let s' := compacted_state s b key start end_ a in
    ABB.wip_branches s !! 0 = Some w → ABranch.sealed w = true → ABranch.branch w = Some b →
    ABB.is_fresh s {[au a]} → a ≠ LBranch.root b →
    ABB.compactors s !! 0 = Some (input_at_root s start end_) →
    Linked.has_root (root (ABB.betree s)) → LNode.key_in_domain (Linked.root_node (root (ABB.betree s))) key →
    start < end_ ≤ length (LNode.buffers (Linked.root_node (root (ABB.betree s)))) →
    LBranch.disk b !! LBranch.root b = Some (LBranch.root_node b) → LBranch.disk b ##ₘ lb_bdv (ABB.linked s) →
    diskb (Linked.i_bdv (root (ABB.betree s'))) = true →
    (∀ k, linked_contains (LBranch.root_node b) (lb_bdv (ABB.linked s')) (LBranch.root b) k ↔
          Linked.valid_compact_key_domain (lb_bdv (ABB.linked s)) (Linked.root_node (ABB.linked s)) start end_ k) →
    (∀ k, linked_contains (LBranch.root_node b) (lb_bdv (ABB.linked s')) (LBranch.root b) k →
          linked_query (LBranch.root_node b) (lb_bdv (ABB.linked s')) (LBranch.root b) k =
          Linked.compact_key_value (lb_bdv (ABB.linked s)) (Linked.root_node (ABB.linked s)) start end_ k) →
    reach s X → reach s' ((X ∪ {[au a]}) ∖ compact_frees s s').
  Proof. intros; (eapply (proj1 (A:=reach _ _)), (compact_step_from s); [done..|by apply from_here]). Qed.  (** Splitting a child of the root, and flushing to one. *)
  Definition split_state (s : ABB.State) (key : Key) (rq : SplitRequest) (na : SplitAddrs) : ABB.State :=
    let splitted := Linked.post_split (ABB.linked s) key 0 rq na [] in
    let aus := internal_split_au_likes (ABB.linked s) key 0 rq na [] (ABB.betree_aus s) (ABB.branch_aus s) in
    ABB.mkState (mkBS (memtable (ABB.betree s)) (mkLB (lb_root splitted) (keep_units (lb_dv splitted) (mdom aus.1)) (lb_bdv (ABB.linked s))))
      aus.1 aus.2 (ABB.branch_summary s) (ABB.compactors s) (ABB.wip_branches s).
  Lemma split_step s key rq na X : let s' := split_state s key rq na in
    ABB.is_fresh s (to_aus (split_repr na)) → split_disjoint_aus na → split_no_dup na →
    Linked.has_root (root (ABB.betree s)) → LNode.key_in_domain (Linked.root_node (root (ABB.betree s))) key →
    (Linked.wf (ABB.linked s) → Linked.can_split_parent (ABB.linked s) rq) →
    lb_bdv (Linked.post_split (ABB.linked s) key 0 rq na []) = lb_bdv (ABB.linked s) →
    diskb (Linked.i_bdv (root (ABB.betree s'))) = true →
    reach s X → reach s' ((X ∪ to_aus (split_repr na)) ∖ (mdom (ABB.betree_aus s) ∖ mdom (ABB.betree_aus s'))).
  Proof.
    intros s' Hf Hd1 Hd2 Hh Hk Hcan Hbd Hok Hr. pose proof (acyclic_of _ _ Hr) as Hac.
    eapply more_int; [|exact Hr].
    do 6 right; left. exists (ABB.betree s'), key, 0, rq, na, []. eexists. eexists.
    split; [done|]. split; [done|]. split; [done|]. split; [set_solver|]. split; [by intros ?|]. split; [|cbv zeta].
    - split; [done|]. split; [apply Hcan, Hac|]. split.
      { split; [by split|]. split; [constructor|]. split; [done|]. split; [done|]. set_solver. }
      split; [|done]. split; [by apply wf_of|]. split; [done|]. split; [apply keep_sub|].
      unfold ABB.linked in Hbd. rewrite Hbd. intros c x y Hx Hy. cbn in Hx. unfold ABB.linked in *. congruence.
    - split; [set_solver|]. split; [done|]. split; [apply keep_dom|done].
  Qed.
  Definition flush_state (s : ABB.State) (key : Key) (i gc : nat) (na : TwoAddrs) : ABB.State :=
    let flushed := Linked.post_flush (ABB.linked s) key 0 i gc na [] in
    let aus := internal_flush_au_likes (ABB.linked s) key 0 i gc na [] (ABB.betree_aus s) (ABB.branch_aus s) in
    let dead := (mdom (ABB.branch_aus s) ∖ mdom aus.2) ∖ read_ref_aus (ABB.compactors s) in
    let summary := remove_keys (ABB.branch_summary s) dead in
    ABB.mkState (mkBS (memtable (ABB.betree s)) (mkLB (lb_root flushed) (keep_units (lb_dv flushed) (mdom aus.1))
                  (keep_units (lb_bdv (ABB.linked s)) (summary_aus summary))))
      aus.1 aus.2 summary (ABB.compactors s) (ABB.wip_branches s).
  Definition flush_frees (s s' : ABB.State) : gset AU :=
    (mdom (ABB.betree_aus s) ∖ mdom (ABB.betree_aus s')) ∪
    summary_aus (restrict_keys (ABB.branch_summary s) ((mdom (ABB.branch_aus s) ∖ mdom (ABB.branch_aus s')) ∖ read_ref_aus (ABB.compactors s))).
  Lemma child_step s key i gc na X : let s' := flush_state s key i gc na in
    ABB.is_fresh s (to_aus (two_repr na)) → two_disjoint_aus na → two_no_dup na →
    Linked.has_root (root (ABB.betree s)) → LNode.key_in_domain (Linked.root_node (root (ABB.betree s))) key →
    (Linked.wf (ABB.linked s) → Linked.can_flush (ABB.linked s) i gc) →
    lb_bdv (Linked.post_flush (ABB.linked s) key 0 i gc na []) = lb_bdv (ABB.linked s) →
    diskb (Linked.i_bdv (root (ABB.betree s'))) = true →
    reach s X → reach s' ((X ∪ to_aus (two_repr na)) ∖ flush_frees s s').
  Proof.
    intros s' Hf Hd1 Hd2 Hh Hk Hcan Hbd Hok Hr. pose proof (acyclic_of _ _ Hr) as Hac.
    eapply more_int; [|exact Hr].
    do 7 right; left. exists (ABB.betree s'), key, 0, i, gc, na, []. eexists. eexists.
    split; [done|]. split; [done|]. split; [done|]. split; [set_solver|]. split; [by intros ?|]. split; [|cbv zeta].
    - split; [done|]. split; [apply Hcan, Hac|]. split.
      { split; [by split|]. split; [constructor|]. split; [done|]. split; [done|]. set_solver. }
      split; [|done]. split; [by apply wf_of|]. split; [done|]. split; [apply keep_sub|].
      unfold ABB.linked in Hbd. rewrite Hbd. intros c x y Hx Hy. cbn in Hx. apply map_filter_lookup_Some in Hx as [Hx _]. unfold ABB.linked in *. congruence.
    - split; [set_solver|]. split; [done|]. split; [apply keep_dom|]. split; [apply keep_dom|done].
  Qed.
  (** *** A tree of one node *)
  Definition leaf_node (bufs : list Address) : LNode.t := LNode.mk bufs (domain_to_pivots total_domain) [None] [0].
  Lemma leaf_node_wf bufs : LNode.wf (leaf_node bufs).
  Proof.
    assert (node_okb (leaf_node []) = true) as H%node_okb_ok by by vm_compute. destruct H as (H1&H2&H3&_).
    split; [done|]. split; [done|]. split; [done|]. repeat constructor. cbn. lia.
  Qed.
  Lemma leaf_node_bounded bufs k : bounded_key (LNode.pivots (leaf_node bufs)) k.
  Proof. split; [|split]; [apply N.le_0_l|done|done]. Qed.
  Lemma leaf_node_ofs bufs k : LNode.flushed_ofs (leaf_node bufs) k = 0.
  Proof. unfold LNode.flushed_ofs. cbn [LNode.flushed leaf_node]. by destruct (route_idx _ _) as [|[]]. Qed.
  Lemma leaf_node_map bufs k : LNode.make_offset_map (leaf_node bufs) k = 0.
  Proof. unfold LNode.make_offset_map. rewrite decide_True by apply leaf_node_bounded. apply leaf_node_ofs. Qed.
  Lemma leaf_node_keys (bd : BranchDisk) bufs e k : e = length bufs →
    Linked.valid_compact_key_domain bd (leaf_node bufs) 0 e k ↔ ∃ a, a ∈ bufs ∧ Linked.queryable_contains bd a k.
  Proof.
    intros ->. unfold Linked.valid_compact_key_domain, Linked.bd_key_in_buffer_filtered. rewrite leaf_node_ofs.
    unfold offsets_decrement. rewrite leaf_node_map. cbn [LNode.buffers leaf_node]. unfold subrange. rewrite Nat.sub_0_r, drop_0, firstn_all.
    split.
    - intros (_&_&i&_&(a&Ha&Hc)&_). exists a. split; [by eapply elem_of_list_lookup_2|done].
    - intros (a&[i Hi]%elem_of_list_lookup&Hc). split; [split; [apply leaf_node_wf|apply leaf_node_bounded]|]. split; [lia|].
      exists i. split; [lia|]. split; [by exists a|lia].
  Qed.
  Lemma leaf_node_value (bd : BranchDisk) bufs e k : e = length bufs →
    Linked.compact_key_value bd (leaf_node bufs) 0 e k = Linked.bd_query_all bd bufs k.
  Proof.
    intros ->. unfold Linked.compact_key_value, Linked.bd_query_from. rewrite leaf_node_ofs. cbn [LNode.buffers leaf_node].
    unfold subrange. by rewrite !Nat.sub_0_r, !drop_0, firstn_all.
  Qed.
  Lemma leaf_used s bufs i r a : lb_root (ABB.linked s) = Some a → lb_dv (ABB.linked s) !! a = Some (leaf_node bufs) → bufs !! i = Some r → in_use s r.
  Proof. intros Hr Hn Hi. left. exists ([], i), a, (leaf_node bufs). split; [|done]. unfold node_ref. fold (ABB.linked s). rewrite Hr. by econstructor. Qed.
  (** A branch alone on its disk. *)
  Lemma query_one r ks ms k : first_leaf ks ms →
    branch_query {[r := LBranch.Leaf ks ms]} r k = buf_query (node_buffer (PBranch.Leaf ks ms)) k.
  Proof.
    intros Hf. destruct (@first_page_holds (gset AU) r ks ms Hf) as [(H1&H2&H3) _]. cbn in H1, H2.
    rewrite node_buffer_query by done. by apply branch_query_tree.
  Qed.
  (** Asking a tree of one node. *)
  Lemma leaf_answers s X bufs a k v : lb_root (ABB.linked s) = Some a → lb_dv (ABB.linked s) !! a = Some (leaf_node bufs) →
    (∀ r, r ∈ bufs → is_Some (lb_bdv (ABB.linked s) !! r)) →
    Define v = Spec_Model.merge (Spec_Model.merge message_empty (Linked.bd_query_all (lb_bdv (ABB.linked s)) bufs k)) (mt_query (memtable (ABB.betree s)) k) →
    reach s X → branch_can_answer fixed grow s k v.
  Proof.
    intros Hr Hn Hb Hv Hre. pose proof (acyclic_of _ _ Hre) as Hac. left. exists (ABB.betree s). eexists. split; [done|]. split; [done|].
    split; [|by destruct s]. left. set (l := ABB.linked s) in *. set (res := Spec_Model.merge message_empty _) in Hv.
    set (l1 := mkLB None (lb_dv l) (lb_bdv l)).
    assert (Hrn : Linked.root_node l = leaf_node bufs) by (unfold Linked.root_node; by rewrite Hr, Hn).
    assert (Hh : Linked.has_root l) by (by eexists _, a).
    assert (Hac1 : Linked.acyclic l1).
    { destruct Hac as [Hw Hrk]. assert (Hw1 : Linked.wf l1) by (split; [apply Hw|by intros ??]). split; [done|].
      destruct Hrk as (rk&_&H2&_). exists rk. split; [done|]. split; [done|]. by intros _ ? ?. }
    exists (Linked.mkReceipt k l [Linked.mkLine l res; Linked.mkLine l1 message_empty]).
    eexists _, k, v, res. split; [done|]. split; [done|]. split; [|split; [by eexists|split; [done|done]]].
    split; [|done]. split; [|split; [|split]].
    - split; [apply Hac|]. split; [by eexists|]. split; [|by eexists].
      intros [|[|i]] x Hx; [injection Hx as <-|injection Hx as <-|done]; cbn; (split; [done|]; split; [done|]).
      + split; [lia|done].
      + split; [by intros (n&b&Hb1&_)|lia].
    - split.
      + intros [|[|i]] x Hx; [injection Hx as <-|injection Hx as <-|done]; cbn; split; try done; try by eexists.
        unfold res. destruct (Linked.bd_query_all _ _ _); by eexists.
      + intros [|i] x Hi Hx; [injection Hx as <-|cbn in Hi; lia]. cbn. rewrite Hrn. split; [exact Hb|].
        split; [apply leaf_node_wf|apply leaf_node_bounded].
    - intros [|i] Hi; [|cbn in Hi; lia]. intros x y Hx Hy. injection Hx as <-. injection Hy as <-. cbn. rewrite Hrn.
      unfold LNode.child_ptr, LNode.child_at. cbn [LNode.children leaf_node]. by destruct (route_idx _ _) as [|[]].
    - intros [|i] Hi; [|cbn in Hi; lia]. intros x y Hx Hy. injection Hx as <-. injection Hy as <-. cbn. rewrite Hrn, leaf_node_ofs.
      unfold res, Linked.bd_query_from. by rewrite drop_0.
  Qed.
End Steps.

(** ** A run with the corrections: a branch of five pages is built and flushed,
    then one of one page; both are compacted while they are read; the tree grows,
    a leaf splits so that both halves share the branch, and a third branch goes to
    the root and to one of the halves. *)
Section Run.
  Local Existing Instance bgeo.
  Local Instance runbb : Buffer BranchNode := branch_buffer true.
  Definition rootb (l : BLB) : bool :=
    match lb_root l with Some a => match lb_dv l !! a with Some _ => true | None => false end | None => false end.
  Lemma rootb_ok l : rootb l = true → Linked.has_root l.
  Proof.
    unfold rootb. destruct (lb_root l) as [a|] eqn:E; [|done]. destruct (lb_dv l !! a) as [n|] eqn:En; [|done].
    intros _. by exists n, a.
  Qed.
  Definition nd (u : AU) : Address := pg u 1.
  Definition t1 := put (put (put (put s0 1 (Define 10)) 5 (Define 50)) 7 (Define 70)) 9 (Update 1).
  Definition t2 := begin t1 free1.
  Definition t3 := build (build (build (build (build (build t2 st1) st2) st3) st4) st5) st6.
  Definition big : ABranch.Branch := default (LBranch.mk (pg 0 0) ∅) (ABranch.branch st6).
  Definition t4 := flushed t3 big (nd 10).
  Definition t5 := add_leaf (put t4 5 (Define 99)) 5 [5%N] [Define 99%N].
  Definition one (u : AU) (ks : list N) (ms : list Message) : ABranch.Branch := LBranch.mk (pg u 0) {[pg u 0 := LBranch.Leaf ks ms]}.
  Definition t6 := flushed t5 (one 5 [5%N] [Define 99%N]) (nd 11).
  Definition t7 := compacting t6 (input_at_root t6 0 2).
  Definition ks4 : list N := [1; 5; 7; 9]%N.
  Definition ms4 : list Message := [Define 10; Define 99; Define 70; Update 1]%N.
  Definition t8 := add_leaf t7 6 ks4 ms4.
  Definition t9 := compacted_state t8 (one 6 ks4 ms4) 3 0 2 (nd 12).
  Definition t10 := grown t9 (nd 13).
  Definition t11 := split_state t10 3 (SplitLeaf 0 6) (mkSplit (nd 14) (nd 15) (nd 16)).
  Definition t12 := add_leaf (put t11 3 (Define 30)) 2 [3%N] [Define 30%N].
  Definition t13 := flushed t12 (one 2 [3%N] [Define 30%N]) (nd 17).
  Definition t14 := flush_state t13 3 0 0 (mkTwo (nd 18) (nd 19)).

  Lemma run3 : reach true true t3 {[1; 2]}.
  Proof.
    assert (Hb : ∀ s, ABB.is_fresh s ∅) by (intros; unfold ABB.is_fresh; set_solver).
    assert (E : {[1; 2]} = ((((((((∅ ∪ free1) ∖ ∅ ∪ ∅) ∖ ∅ ∪ ∅) ∖ ∅ ∪ fill23) ∖ ∅ ∪ ∅) ∖ ∅ ∪ ∅) ∖ ∅ ∪ ∅) ∖ {[3]} : gset AU)) by bk.
    rewrite E.
    pose proof ex_build_run as Hrun. unfold ex_build in Hrun.
    apply Alloc_Proof.run_cons_inv in Hrun as (x1&H1&Hrun). pose proof H1 as [(_&_&_&E1)|(?&[=]&_)]. change (x1 = st1) in E1. subst x1.
    apply Alloc_Proof.run_cons_inv in Hrun as (x2&H2&Hrun). pose proof H2 as [(_&_&_&E2)|(?&[=]&_)]. change (x2 = st2) in E2. subst x2.
    apply Alloc_Proof.run_cons_inv in Hrun as (x3&H3&Hrun). pose proof H3 as [(_&_&E3)|(?&[=]&_)]. change (x3 = st3) in E3. subst x3.
    apply Alloc_Proof.run_cons_inv in Hrun as (x4&H4&Hrun). pose proof H4 as [[]|(?&[= <-]&_&E4)]. change (x4 = st4) in E4. subst x4.
    apply Alloc_Proof.run_cons_inv in Hrun as (x5&H5&Hrun). pose proof H5 as [(_&_&_&E5)|(?&[=]&_)]. change (x5 = st5) in E5. subst x5.
    apply Alloc_Proof.run_cons_inv in Hrun as (x6&H6&_). pose proof H6 as [(_&_&E6)|(?&[=]&_)]. change (x6 = st6) in E6. subst x6.
    unfold t3. eapply (build_step _ _ _ st5); [done|apply Hb|exact H6|].
    eapply (build_step _ _ _ st4); [done|apply Hb|exact H5|].
    eapply (build_step _ _ _ st3); [done|apply Hb|exact H4|].
    eapply (build_step _ _ _ st2); [done|split_and!; bk|exact H3|].
    eapply (build_step _ _ _ st1); [done|apply Hb|exact H2|].
    eapply (build_step _ _ _ (ABranch.new free1)); [done|apply Hb|exact H1|].
    apply begin_step; [split_and!; bk|]. do 4 apply put_step. apply start.
  Qed.
  Lemma run4 : reach true true t4 {[1; 2; 10]}.
  Proof.
    assert (E : {[1; 2; 10]} = (({[1; 2]} ∪ {[au (nd 10)]}) ∖ (mdom (ABB.betree_aus t3) ∖ mdom (ABB.betree_aus t4)) : gset AU)) by bk.
    rewrite E. apply (flush_step _ _ _ st6); [done|done|done|split_and!; bk|done|bk|bk|bk|by vm_compute|bk|exact run3].
  Qed.
  Lemma run6 : reach true true t6 {[1; 2; 5; 11]}.
  Proof.
    assert (E : {[1; 2; 5; 11]} = (({[1; 2; 10]} ∪ {[5]} ∪ {[au (nd 11)]}) ∖ (mdom (ABB.betree_aus t5) ∖ mdom (ABB.betree_aus t6)) : gset AU)) by bk.
    rewrite E. apply (flush_step _ _ _ (leaf 5 [5%N] [Define 99%N])); [done|done|done|split_and!; bk|done|bk|bk|bk|by vm_compute|bk|].
    apply leaf_steps; [done|split_and!; bk|lia|split_and!; [done|done|repeat constructor]|]. apply put_step, run4.
  Qed.
  Lemma run8 : reach true true t8 {[1; 2; 5; 11; 6]}.
  Proof.
    assert (E : {[1; 2; 5; 11; 6]} = (({[1; 2; 5; 11]} ∪ ∅) ∖ ∅ ∪ {[6]} : gset AU)) by bk. rewrite E.
    apply leaf_steps; [done|split_and!; bk|lia|split_and!; [done|done|repeat constructor]|].
    apply (compacting_step _ _ _ _ 3%N); [apply rootb_ok; by vm_compute|split; [apply node_okb_ok; by vm_compute|bk]|vm_compute; lia|apply run6].
  Qed.
  Lemma disk9 : lb_bdv (ABB.linked t9) = {[pg 6 0 := LBranch.Leaf ks4 ms4]}.
  Proof. apply (bool_decide_eq_true_1 _). vm_compute. reflexivity. Qed.
  Lemma node8 : Linked.root_node (ABB.linked t8) = leaf_node [LBranch.root big; pg 5 0].
  Proof. by vm_compute. Qed.
  Lemma first4 : first_leaf ks4 ms4.
  Proof. split_and!; [done|done|repeat constructor]. Qed.
  Lemma buf_other (m : gmap N Message) (D : gset N) k : dom m ⊆ D → k ∉ D → buf_query m k = Update nop_delta.
  Proof. intros Hs Hk. unfold buf_query. assert (m !! k = None) as -> by (apply not_elem_of_dom; set_solver). done. Qed.
  Definition keys4 : gset N := {[1; 5; 7; 9]}%N.
  Lemma cases4 k : k ∈ keys4 → k = 1%N ∨ k = 5%N ∨ k = 7%N ∨ k = 9%N.
  Proof. unfold keys4. set_solver. Qed.
  Lemma ex_two {A} (P : A → Prop) x y : (∃ a, a ∈ [x; y] ∧ P a) ↔ P x ∨ P y.
  Proof. setoid_rewrite elem_of_cons. setoid_rewrite elem_of_list_singleton. naive_solver. Qed.
  Lemma queries9 k :
    branch_query (lb_bdv (ABB.linked t9)) (pg 6 0) k = Linked.bd_query_all (lb_bdv (ABB.linked t8)) [LBranch.root big; pg 5 0] k ∧
    (branch_query (lb_bdv (ABB.linked t9)) (pg 6 0) k ≠ Update nop_delta ↔
     ∃ a, a ∈ [LBranch.root big; pg 5 0] ∧ branch_query (lb_bdv (ABB.linked t8)) a k ≠ Update nop_delta).
  Proof.
    rewrite disk9, (query_one _ _ _ _ first4).
    assert (Hq1 : branch_query (lb_bdv (ABB.linked t8)) (LBranch.root big) k = buf_query (node_buffer (branch_tree (lb_bdv (ABB.linked t8)) (LBranch.root big))) k).
    { eapply query_of; [apply run8|]. by apply (leaf_used _ [LBranch.root big; pg 5 0] 0 _ (nd 11)). }
    assert (Hq2 : branch_query (lb_bdv (ABB.linked t8)) (pg 5 0) k = buf_query (node_buffer (branch_tree (lb_bdv (ABB.linked t8)) (pg 5 0))) k).
    { eapply query_of; [apply run8|]. by apply (leaf_used _ [LBranch.root big; pg 5 0] 1 _ (nd 11)). }
    assert (Hb1 : is_Some (lb_bdv (ABB.linked t8) !! LBranch.root big)) by bk.
    assert (Hb2 : is_Some (lb_bdv (ABB.linked t8) !! pg 5 0)) by bk.
    assert (Eall : Linked.bd_query_all (lb_bdv (ABB.linked t8)) [LBranch.root big; pg 5 0] k =
      Spec_Model.merge (branch_query (lb_bdv (ABB.linked t8)) (LBranch.root big) k) (Spec_Model.merge (branch_query (lb_bdv (ABB.linked t8)) (pg 5 0) k) (Update nop_delta))).
    { cbn [Linked.bd_query_all]. unfold Linked.bd_query. destruct Hb1 as [x1 ->], Hb2 as [x2 ->]. done. }
    assert (Eex : (∃ a, a ∈ [LBranch.root big; pg 5 0] ∧ branch_query (lb_bdv (ABB.linked t8)) a k ≠ Update nop_delta) ↔
      branch_query (lb_bdv (ABB.linked t8)) (LBranch.root big) k ≠ Update nop_delta ∨ branch_query (lb_bdv (ABB.linked t8)) (pg 5 0) k ≠ Update nop_delta).
    { apply (ex_two (λ a, branch_query (lb_bdv (ABB.linked t8)) a k ≠ Update nop_delta)). }
    rewrite Eall, Eex, Hq1, Hq2. clear.
    set (n1 := node_buffer (PBranch.Leaf ks4 ms4)). set (n2 := node_buffer (branch_tree _ (LBranch.root big))). set (n3 := node_buffer (branch_tree _ (pg 5 0))).
    assert (D1 : dom n1 ⊆ keys4) by bk. assert (D2 : dom n2 ⊆ keys4) by bk. assert (D3 : dom n3 ⊆ keys4) by bk.
    destruct (decide (k ∈ keys4)) as [Hk%cases4|Hk].
    - destruct Hk as [-> |[-> |[-> | ->]]].
      + assert (E1 : buf_query n1 1 = Define 10%N) by by vm_compute. assert (E2 : buf_query n2 1 = Define 10%N) by by vm_compute.
        assert (E3 : buf_query n3 1 = Update nop_delta) by by vm_compute. rewrite E1, E2, E3. split; [done|]. split; [by left|done].
      + assert (E1 : buf_query n1 5 = Define 99%N) by by vm_compute. assert (E2 : buf_query n2 5 = Define 50%N) by by vm_compute.
        assert (E3 : buf_query n3 5 = Define 99%N) by by vm_compute. rewrite E1, E2, E3. split; [done|]. split; [by left|done].
      + assert (E1 : buf_query n1 7 = Define 70%N) by by vm_compute. assert (E2 : buf_query n2 7 = Define 70%N) by by vm_compute.
        assert (E3 : buf_query n3 7 = Update nop_delta) by by vm_compute. rewrite E1, E2, E3. split; [done|]. split; [by left|done].
      + assert (E1 : buf_query n1 9 = Update 1%N) by by vm_compute. assert (E2 : buf_query n2 9 = Update 1%N) by by vm_compute.
        assert (E3 : buf_query n3 9 = Update nop_delta) by by vm_compute. rewrite E1, E2, E3. split; [done|]. split; [by left|done].
    - rewrite (buf_other _ _ _ D1 Hk), (buf_other _ _ _ D2 Hk), (buf_other _ _ _ D3 Hk). split; [done|]. tauto.
  Qed.
  Lemma run9 : reach true true t9 {[6; 12]}.
  Proof.
    assert (E : {[6; 12]} = (({[1; 2; 5; 11; 6]} ∪ {[au (nd 12)]}) ∖ compact_frees t8 t9 : gset AU)) by bk. rewrite E.
    apply (compact_step _ _ _ (leaf 6 ks4 ms4)); [done|done|done|split_and!; bk|done| |apply rootb_ok; by vm_compute|split; [apply node_okb_ok; by vm_compute|bk]
      |vm_compute; lia|bk|bk|by vm_compute| | |exact run8].
    - reflexivity.
    - intros k. rewrite node8, leaf_node_keys by done.
      assert (Hb1 : is_Some (lb_bdv (ABB.linked t8) !! LBranch.root big)) by bk.
      assert (Hb2 : is_Some (lb_bdv (ABB.linked t8) !! pg 5 0)) by bk.
      destruct (queries9 k) as [_ Hk]. change (branch_query (lb_bdv (ABB.linked t9)) (pg 6 0) k ≠ Update nop_delta ↔
        ∃ a, a ∈ [LBranch.root big; pg 5 0] ∧ Linked.queryable_contains (Buffer0:=branch_buffer true) (lb_bdv (ABB.linked t8)) a k).
      rewrite Hk. split.
      + intros (a&Ha&Hq). exists a. split; [done|]. assert (is_Some (lb_bdv (ABB.linked t8) !! a)) as [x Hx]; [|by exists x].
        apply elem_of_cons in Ha as [-> |Ha%elem_of_list_singleton]; [done|by subst].
      + intros (a&Ha&x&Hx&Hq). by exists a.
    - intros k _. rewrite node8, leaf_node_value by done. apply queries9.
  Qed.
  Lemma run11 : reach true true t11 {[6; 14; 15; 16]}.
  Proof.
    assert (E : {[6; 14; 15; 16]} = ((({[6; 12]} ∪ {[au (nd 13)]}) ∖ ∅ ∪ to_aus (split_repr (mkSplit (nd 14) (nd 15) (nd 16)))) ∖
      (mdom (ABB.betree_aus t10) ∖ mdom (ABB.betree_aus t11)) : gset AU)) by bk. rewrite E.
    apply (split_step true true t10 3%N (SplitLeaf 0 6) (mkSplit (nd 14) (nd 15) (nd 16))).
    { split_and!; bk. } { split_and!; done. } { split_and!; bk. } { apply rootb_ok; by vm_compute. }
    { split; [apply node_okb_ok; by vm_compute|bk]. } 2: bk. 2: by vm_compute.
    - intros Hw. split; [done|]. split; [apply rootb_ok; by vm_compute|]. split; [vm_compute; lia|].
      split; [apply rootb_ok; by vm_compute|]. split; [apply node_okb_ok; by vm_compute|]. split; [by split|]. split; [bk|]. by vm_compute.
    - apply grow_step; [split_and!; bk|apply run9].
  Qed.
  Lemma run13 : reach true true t13 {[2; 6; 14; 15; 17]}.
  Proof.
    assert (E : {[2; 6; 14; 15; 17]} = (({[6; 14; 15; 16]} ∪ {[2]} ∪ {[au (nd 17)]}) ∖ (mdom (ABB.betree_aus t12) ∖ mdom (ABB.betree_aus t13)) : gset AU)) by bk.
    rewrite E. apply (flush_step _ _ _ (leaf 2 [3%N] [Define 30%N])); [done|done|done|split_and!; bk|done|bk|bk|bk|by vm_compute|bk|].
    apply leaf_steps; [done|split_and!; bk|lia|split_and!; [done|done|repeat constructor]|]. apply put_step, run11.
  Qed.
  Lemma run14 : reach true true t14 {[2; 6; 15; 18; 19]}.
  Proof.
    assert (E : {[2; 6; 15; 18; 19]} = (({[2; 6; 14; 15; 17]} ∪ to_aus (two_repr (mkTwo (nd 18) (nd 19)))) ∖ flush_frees t13 t14 : gset AU)) by bk. rewrite E.
    apply (child_step true true t13 3%N 0 0 (mkTwo (nd 18) (nd 19))).
    { split_and!; bk. } { done. } { bk. } { apply rootb_ok; by vm_compute. }
    { split; [apply node_okb_ok; by vm_compute|bk]. } 2: bk. 2: by vm_compute. 2: apply run13.
    intros Hw. split; [done|]. split; [apply rootb_ok; by vm_compute|]. split.
    - split; [vm_compute; lia|by vm_compute].
    - unfold ofs_all_gte. apply Forall_forall. intros; lia.
  Qed.
  (** Both halves of the split name the branch; after the flush the root and one
      of them name the third branch. *)
  Lemma shared : multiplicity 6 (ABB.branch_aus t11) = 2 ∧ multiplicity 2 (ABB.branch_aus t14) = 2.
  Proof. by vm_compute. Qed.
  (** The branch of units 1 and 2 is read by the compaction while the tree names it. *)
  Lemma reading : being_read t8 (LBranch.root big) ∧ branch_units (lb_bdv (ABB.linked t8)) (LBranch.root big) {[1; 2]} ∧
    owns t8 (TheBranch (LBranch.root big)) 2 ∧ owns t8 (TheBuilder 0) 6 ∧ owns t8 TheNodes 11.
  Proof.
    assert (Hu : branch_units (lb_bdv (ABB.linked t8)) (LBranch.root big) {[1; 2]}).
    { right. eexists _, _, (pg 2 1). split; [vm_compute; reflexivity|bk]. }
    split_and!; [|done| | |].
    - eexists. split; [left|]. vm_compute. left.
    - split; [by apply (leaf_used _ [LBranch.root big; pg 5 0] 0 _ (nd 11))|]. exists {[1; 2]}. split; [done|set_solver].
    - eexists. split; [done|]. bk.
    - exists (nd 11). split; [|done]. exists []. unfold node_ref. by econstructor.
  Qed.
  Lemma answers : branch_can_answer true true t9 5 99 ∧ branch_can_answer true true t9 9 0.
  Proof.
    split; (eapply (leaf_answers true true t9 _ [pg 6 0] (nd 12)); [done|done|intros r ->%elem_of_list_singleton; bk|by vm_compute|apply run9]).
  Qed.
End Run.

(** ** The tests as they are written *)
Section Written.
  Local Existing Instance bgeo.
  Local Instance writtenbb : Buffer BranchNode := branch_buffer false.
  Definition u1 := add_leaf (put s0 5 (Define 50)) 1 [5%N] [Define 50%N].
  Definition u2 := flushed u1 (one 1 [5%N] [Define 50%N]) (nd 10).
  Definition u3 := add_leaf (compacting u2 (input_at_root u2 0 1)) 2 [5%N] [Define 99%N].
  Definition u4 := compacted_state u3 (one 2 [5%N] [Define 99%N]) 3 0 1 (nd 11).
  Lemma leaf5 v : first_leaf [5%N] [Define v].
  Proof. split_and!; [done|done|repeat constructor]. Qed.
  Lemma was2 : ∃ X, reach false false u2 X.
  Proof.
    eexists. apply (flush_step _ _ _ (leaf 1 [5%N] [Define 50%N])); [done|done|done|split_and!; bk|done|bk|bk|bk|by vm_compute|bk|].
    apply leaf_steps; [done|split_and!; bk|lia|apply leaf5|]. apply put_step, start.
  Qed.
  Lemma disk2 : lb_bdv (ABB.linked u3) = {[pg 1 0 := LBranch.Leaf [5%N] [Define 50%N]]}.
  Proof. apply (bool_decide_eq_true_1 _). vm_compute. reflexivity. Qed.
  Lemma disk4 : lb_bdv (ABB.linked u4) = {[pg 2 0 := LBranch.Leaf [5%N] [Define 99%N]]}.
  Proof. apply (bool_decide_eq_true_1 _). vm_compute. reflexivity. Qed.
  Lemma node3 : Linked.root_node (ABB.linked u3) = leaf_node [pg 1 0].
  Proof. by vm_compute. Qed.
  Lemma only5 r v k : branch_query {[r := LBranch.Leaf [5%N] [Define v]]} r k = Update nop_delta ↔ k ≠ 5%N.
  Proof.
    rewrite (query_one _ _ _ _ (leaf5 v)). unfold buf_query. cbn.
    destruct (decide (k = 5%N)) as [-> |Hk]; [by rewrite lookup_insert|by rewrite lookup_insert_ne].
  Qed.
  (** The compaction replaces 50 by 99: the key is not among those the test calls
      contained, in the old branch or in the new. *)
  Lemma later : ∃ X, from false false u2 u4 X.
  Proof.
    destruct was2 as [X Hr]. eexists. 
    apply (compact_step_from false false u2 u3 (leaf 2 [5%N] [Define 99%N])); [done|done|done|split_and!; bk|done| |apply rootb_ok; by vm_compute|split; [apply node_okb_ok; by vm_compute|bk]
      |vm_compute; lia|bk|bk|by vm_compute| | |].
    - reflexivity.
    - intros k. fold u4. rewrite node3, leaf_node_keys by done. rewrite disk2, disk4.
      change (linked_contains (LBranch.root_node (one 2 [5%N] [Define 99%N])) {[pg 2 0 := LBranch.Leaf [5%N] [Define 99%N]]} (LBranch.root (one 2 [5%N] [Define 99%N])) k)
        with (branch_query {[pg 2 0 := LBranch.Leaf [5%N] [Define 99%N]]} (pg 2 0) k = Update nop_delta).
      rewrite only5, <-(only5 (pg 1 0) 50%N). split.
      + intros Hq. exists (pg 1 0). split; [by left|]. eexists. split; [apply lookup_singleton|exact Hq].
      + intros (a&Ha&x&Hx&Hq). apply elem_of_list_singleton in Ha. subst a. exact Hq.
    - intros k Hk. fold u4 in Hk |- *. rewrite node3, leaf_node_value by done. rewrite disk2, disk4 in *.
      change (branch_query {[pg 2 0 := LBranch.Leaf [5%N] [Define 99%N]]} (pg 2 0) k = Update nop_delta) in Hk. 
      change (branch_query {[pg 2 0 := LBranch.Leaf [5%N] [Define 99%N]]} (pg 2 0) k =
        Linked.bd_query_all {[pg 1 0 := LBranch.Leaf [5%N] [Define 50%N]]} [pg 1 0] k). rewrite Hk.
      cbn [Linked.bd_query_all]. unfold Linked.bd_query. rewrite lookup_singleton. 
      change (Update nop_delta = Spec_Model.merge (branch_query {[pg 1 0 := LBranch.Leaf [5%N] [Define 50%N]]} (pg 1 0) k) (Update nop_delta)).
      apply (only5 (pg 2 0)) in Hk. apply (only5 (pg 1 0) 50%N) in Hk. by rewrite Hk.
    - apply leaf_steps_from; [done|split_and!; bk|lia|apply leaf5|].
      apply (compacting_step_from _ _ _ _ X 3%N); [apply rootb_ok; by vm_compute|split; [apply node_okb_ok; by vm_compute|bk]|vm_compute; lia|]. by apply from_here.
  Qed.
  Lemma overwritten : branch_can_answer false false u2 5 50 ∧ branch_can_answer false false u4 5 99.
  Proof.
    destruct was2 as [X HX], later as [Y [HY _]]. split.
    - apply (leaf_answers false false u2 X [pg 1 0] (nd 10)); [done|done|intros r ->%elem_of_list_singleton; bk|by vm_compute|done].
    - apply (leaf_answers false false u4 Y [pg 2 0] (nd 11)); [done|done|intros r ->%elem_of_list_singleton; bk|by vm_compute|done].
  Qed.
  Lemma changed : ∃ ls ls' s s' k v v', ABB.initialize s0 tree0 ∧
    run (ABB.next false false) s0 ls s ∧ run (ABB.next false false) s ls' s' ∧
    Forall (λ l, ∃ A D, l = ABB.Int A D) ls' ∧
    branch_can_answer false false s k v ∧ branch_can_answer false false s' k v' ∧ v ≠ v'.
  Proof.
    destruct was2 as [X (ls&Hls&_)], later as [Y [_ (ls'&Hls'&Hf)]], overwritten as [H1 H2].
    exists ls, ls', u2, u4, 5%N, 50%N, 99%N. split; [apply initial|]. split_and!; done.
  Qed.
End Written.
End BranchEx.
