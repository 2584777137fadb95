(** The be-trees that count references can always be reorganised (C56). *)
From Verif Require Import Spec_Model Spec_Proof Abs_Model Betree_Model Betree_Spec Route_Proof Routed_Proof.
From Verif Require Import LinkedBetree_Model LinkedBetree_Spec LikesBetree_Model LikesBetree_Spec LinkedBetree_Proof LinkedBetree_Facts
  LikesTree_Proof LikesOps_Proof LikesBetree_Proof LikesBetree_Facts BranchCompact_Proof BranchFlow_Proof TreeFlow_Spec.
From Verif Require FilteredBetree_Proof.
From Coq Require Import ZifyBool ZifyNat ZifyN Lia.
Implicit Types (l w : SLB) (t : atree) (s : LikesBetree.State) (x : AllocBetree.State).

(** ** A tree that was written onto a well-formed disk leaves it well formed *)
Lemma ext_wf l w t D A bD bA (X : gset Address) (ft' : FTree) : op l w t D A bD bA → extends l w X ft' → Routed.wf Filtered.dwf ft' →
  (∀ a, a ∈ X → a ∈ A) → Linked.wf l → Linked.wf w.
Proof.
  intros [(t'&Hu&R&bR&_&C2&_&_) _] (Hdv&_&Hdom&Hr) Hw HX [[Hn0 Hc0] _].
  assert (Hcase : ∀ a n, lb_dv w !! a = Some n → lb_dv l !! a = Some n ∨ Linked.reachable_node (lb_dv w) (lb_root w) a).
  { intros a n Hn. assert (a ∈ dom (lb_dv l) ∪ X) as [Ha|Ha]%elem_of_union by (rewrite <-Hdom; by eapply elem_of_dom_2).
    - left. apply elem_of_dom in Ha as [m Hm]. pose proof (lookup_weaken _ _ _ _ Hm Hdv). congruence.
    - right. apply (nodes_elem _ _ _ _ Hu). rewrite C2. apply gmultiset_elem_of_disj_union. right. by apply HX. }
  split; [split|].
  - intros a n Hn. destruct (Hcase _ _ Hn) as [Ho|Ha]; [by eapply Hn0|].
    destruct (reach_wf _ _ _ _ _ Hr Hw Ha) as (n'&Hn'&Hwn&_). congruence.
  - intros a n Hn. destruct (Hcase _ _ Hn) as [Ho|Ha].
    + destruct (Hc0 _ _ Ho) as [H1 H2]. split.
      * intros i q Hq c ->. destruct (H1 _ _ Hq c eq_refl) as [m Hm]. exists m. by eapply lookup_weaken.
      * intros i c m Hi Hm. destruct (H1 _ _ Hi c eq_refl) as [m' Hm']. pose proof (lookup_weaken _ _ _ _ Hm' Hdv). eapply (H2 _ _ _ Hi). congruence.
    + destruct (reach_wf _ _ _ _ _ Hr Hw Ha) as (n'&Hn'&_&Hc). rewrite Hn in Hn'. injection Hn' as <-. split.
      * intros i q Hq c ->. destruct (Hc i c Hq) as (_&m&Hm&_). by exists m.
      * intros i c m Hi Hm. destruct (Hc i c Hi) as (_&m'&Hm'&Hd). congruence.
  - intros a Ha. rewrite Ha in Hu. inversion Hu; subst. by eexists.
Qed.

(** ** The operations on the linked tree *)
Lemma elem_likes (pa : list Address) a : a ∈ to_likes pa ↔ a ∈ pa.
Proof. apply elem_of_list_to_set_disj. Qed.
Lemma push_whole l t (ft : FTree) mt na : lunf l t → lrepr l ft → Linked.wf l → covers_all_keys ft →
  two_no_dup na → Linked.is_fresh l (two_repr na) → Linked.wf (Linked.push_memtable l (mt_buffer mt) na).
Proof.
  intros Hu Hr Hw Hcov Hnd Hf. eapply ext_wf; [by eapply op_push|by eapply push_memtable_repr| | |done].
  - apply FilteredBetree_Proof.push_memtable_ok; [exact (proj1 (repr_wf _ _ _ _ (proj1 Hw) Hr))|done].
  - intros a ->%elem_of_singleton. by apply gmultiset_elem_of_singleton.
Qed.
Lemma grow_whole l t (ft : FTree) a : lunf l t → lrepr l ft → Linked.wf l → covers_all_keys ft →
  Linked.is_fresh l {[ a ]} → Linked.wf (Linked.grow l a).
Proof.
  intros Hu Hr Hw Hcov Hf. destruct (fresh_not _ _ a Hf) as [Ha _]; [set_solver|].
  eapply ext_wf; [by eapply op_grow|by eapply grow_repr| | |done].
  - apply FilteredBetree_Proof.grow_ok; [exact (proj1 (repr_wf _ _ _ _ (proj1 Hw) Hr))|done].
  - intros b ->%elem_of_singleton. by apply gmultiset_elem_of_singleton.
Qed.
Lemma flush_whole l t (ft : FTree) key d i gc na pa : lunf l t → lrepr l ft → Linked.wf l →
  Linked.can_flush (Linked.path_target l key d) i gc → Linked.valid_path_replacement l key d (two_no_dup na) (two_repr na) pa →
  Linked.is_fresh l (two_repr na ∪ list_to_set pa) → Linked.wf (Linked.post_flush l key d i gc na pa).
Proof.
  intros Hu Hr Hw Hc Hv Hf. destruct (fresh_sub _ _ _ Hf) as [Hfa Hfb]. pose proof Hv as (Hpv&Hnd&Hdep&Htd&Hdj).
  destruct (path_repr _ _ _ _ Hr Hpv) as [Hpv' Htr].
  pose proof (flush_repr _ _ i gc na Htr Hc Htd (fresh_target _ _ _ _ Hfa)) as He.
  destruct (target_disk l key d) as [E1 E2]. unfold extends in He. rewrite E1, E2 in He.
  destruct (substitute_repr l key d _ ft _ _ pa Hr Hpv Hdep Hnd ltac:(destruct Hfb; set_solver) Hdj He) as [Hx _].
  destruct (can_flush_repr _ _ _ _ Htr Hc) as [Hcf _].
  destruct (FilteredBetree_Proof.flush_ok _ _ _ Hcf) as (H1&H2&H3&H4).
  destruct (substitute_ok Filtered.dwf filtered_held ft key d _ Hpv' H1 H2 H3 H4) as (H5&_).
  eapply ext_wf; [by eapply op_flush|exact Hx|exact H5| |done].
  intros a Ha. unfold add_betree_likes, two_likes. rewrite !gmultiset_elem_of_disj_union, !gmultiset_elem_of_singleton, elem_likes.
  unfold two_repr in Ha. set_solver.
Qed.
Lemma split_whole l t (ft : FTree) key d rq na pa : lunf l t → lrepr l ft → Linked.wf l →
  Linked.can_split_parent (Linked.path_target l key d) rq → Linked.valid_path_replacement l key d (split_no_dup na) (split_repr na) pa →
  Linked.is_fresh l (split_repr na ∪ list_to_set pa) → Linked.wf (Linked.post_split l key d rq na pa).
Proof.
  intros Hu Hr Hw Hc Hv Hf. destruct (fresh_sub _ _ _ Hf) as [Hfa Hfb]. pose proof Hv as (Hpv&Hnd&Hdep&Htd&Hdj).
  destruct (path_repr _ _ _ _ Hr Hpv) as [Hpv' Htr].
  pose proof (split_repr_ok _ _ rq na Htr Hc Htd (fresh_target _ _ _ _ Hfa)) as He.
  destruct (target_disk l key d) as [E1 E2]. unfold extends in He. rewrite E1, E2 in He.
  destruct (substitute_repr l key d _ ft _ _ pa Hr Hpv Hdep Hnd ltac:(destruct Hfb; set_solver) Hdj He) as [Hx _].
  pose proof (can_split_repr _ _ _ Htr Hc) as Hcf.
  destruct (FilteredBetree_Proof.split_parent_ok _ _ Hcf) as (H1&H2&H3&H4).
  destruct (substitute_ok Filtered.dwf filtered_held ft key d _ Hpv' H1 H2 H3 H4) as (H5&_).
  eapply ext_wf; [by eapply op_split|exact Hx|exact H5| |done].
  intros a Ha. unfold add_betree_likes, split_likes. rewrite !gmultiset_elem_of_disj_union, !gmultiset_elem_of_singleton, elem_likes.
  unfold split_repr in Ha. set_solver.
Qed.
Lemma compact_whole l t (ft : FTree) key d i j cb bdv na pa : lunf l t → lrepr l ft → Linked.wf l →
  Linked.can_compact (Linked.path_target l key d) i j cb bdv na → Linked.valid_path_replacement l key d (two_no_dup na) (two_repr na) pa →
  Linked.is_fresh l (two_repr na ∪ list_to_set pa) → Linked.wf (Linked.post_compact l key d i j cb na pa).
Proof.
  intros Hu Hr Hw Hc Hv Hf. destruct (fresh_sub _ _ _ Hf) as [Hfa Hfb]. pose proof Hv as (Hpv&Hnd&Hdep&Htd&Hdj).
  destruct (path_repr _ _ _ _ Hr Hpv) as [Hpv' Htr].
  pose proof (compact_repr _ _ i j cb bdv na Htr Hc Htd (fresh_target _ _ _ _ Hfa)) as He.
  destruct (target_disk l key d) as [E1 E2]. unfold extends in He. rewrite E1, E2 in He.
  assert (Hdj1 : ({[addr1 na]} : gset Address) ## list_to_set pa) by (unfold two_repr in Hdj; set_solver).
  destruct (substitute_repr l key d _ ft _ _ pa Hr Hpv Hdep Hnd ltac:(destruct Hfb; set_solver) Hdj1 He) as [Hx _].
  pose proof (can_compact_repr _ _ _ _ _ _ _ Htr Hc) as Hcf.
  destruct (FilteredBetree_Proof.compact_ok _ _ _ _ Hcf) as (H1&H2&H3&H4).
  destruct (substitute_ok Filtered.dwf filtered_held ft key d _ Hpv' H1 H2 H3 H4) as (H5&_).
  eapply ext_wf; [by eapply op_compact|exact Hx|exact H5| |done].
  intros a Ha. unfold compact_add_betree. rewrite gmultiset_elem_of_disj_union, gmultiset_elem_of_singleton, elem_likes. set_solver.
Qed.

(** ** Background work that keeps every page *)
Inductive reorg (b : BState SLB) : BState SLB → Prop :=
  | ro_push na : two_no_dup na → Linked.is_fresh (root b) (two_repr na) →
      reorg b (mkBS (mt_drain (memtable b)) (Linked.push_memtable (root b) (mt_buffer (memtable b)) na))
  | ro_grow a : Linked.is_fresh (root b) {[ a ]} → reorg b (mkBS (memtable b) (Linked.grow (root b) a))
  | ro_split key d rq na pa : Linked.can_split_parent (Linked.path_target (root b) key d) rq →
      Linked.valid_path_replacement (root b) key d (split_no_dup na) (split_repr na) pa →
      Linked.is_fresh (root b) (split_repr na ∪ list_to_set pa) →
      reorg b (mkBS (memtable b) (Linked.post_split (root b) key d rq na pa))
  | ro_flush key d i gc na pa : Linked.can_flush (Linked.path_target (root b) key d) i gc →
      Linked.valid_path_replacement (root b) key d (two_no_dup na) (two_repr na) pa →
      Linked.is_fresh (root b) (two_repr na ∪ list_to_set pa) →
      reorg b (mkBS (memtable b) (Linked.post_flush (root b) key d i gc na pa))
  | ro_compact key d i j cb na pa : Linked.can_compact (Linked.path_target (root b) key d) i j cb (lb_bdv (root b)) na →
      Linked.valid_path_replacement (root b) key d (two_no_dup na) (two_repr na) pa →
      Linked.is_fresh (root b) (two_repr na ∪ list_to_set pa) →
      reorg b (mkBS (memtable b) (Linked.post_compact (root b) key d i j cb na pa)).
Lemma op_preserved l w t D A bD bA : op l w t D A bD bA → Linked.reachable_buffers_preserved w w.
Proof. by intros [_ H]. Qed.
Lemma reorg_linked b b' t : linv b → lunf (root b) t → reorg b b' → Linked.strong_next b b' Internal.
Proof.
  intros (Hw&ft&Hr&Hcov) Hu H. destruct H as [na Hd Hf|a Hf|key d rq na pa Hc Hv Hf|key d i gc na pa Hc Hv Hf|key d i j cb na pa Hc Hv Hf].
  - do 3 right; left. eexists (mt_buffer (memtable b)), _, na. split.
    + split; [done|]. split; [done|]. split; [done|]. split; [|reflexivity]. apply view_refl. by eapply push_whole.
    + split; [done|]. eapply op_preserved, (op_push (root b) t ft); done.
  - do 4 right; left. by exists a.
  - destruct (fresh_sub _ _ _ Hf). do 5 right; left. eexists _, key, d, rq, na, pa. split.
    + split; [done|]. split; [done|]. split; [done|]. split; [|reflexivity]. apply view_refl. by eapply split_whole.
    + split; [done|]. split; [done|]. eapply op_preserved, (op_split (root b) t ft); done.
  - destruct (fresh_sub _ _ _ Hf). do 6 right; left. eexists _, key, d, i, gc, na, pa. split.
    + split; [done|]. split; [done|]. split; [done|]. split; [|reflexivity]. apply view_refl. by eapply flush_whole.
    + split; [done|]. split; [done|]. eapply op_preserved, (op_flush (root b) t ft); done.
  - destruct (fresh_sub _ _ _ Hf). do 7 right; left. exists (Linked.post_compact (root b) key d i j cb na pa), key, d, i, j, cb, na, pa. split.
    + split; [done|]. split; [exact Hc|]. split; [done|]. split; [|reflexivity]. apply view_refl. by eapply compact_whole.
    + split; [done|]. split; [done|]. eapply op_preserved, (op_compact (root b) t ft); done.
Qed.
Lemma reorg_likes s b' : sexact s → reorg (LikesBetree.betree s) b' →
  ∃ s', LikesBetree.next s s' Internal ∧ LikesBetree.betree s' = b'.
Proof.
  intros He H. pose proof He as (Hl&t&Hu&_). exact (likes_complete_step s b' Internal He (reorg_linked _ _ _ Hl Hu H)).
Qed.
Lemma keeps_all (w : SLB) aus : AllocBetree.keeps_counted w w aus.
Proof. unfold AllocBetree.keeps_counted, restrict_domain_au. set_solver. Qed.
Lemma reorg_alloc x b' t : linv (AllocBetree.betree x) → lunf (root (AllocBetree.betree x)) t → reorg (AllocBetree.betree x) b' →
  ∃ x', AllocBetree.next x x' Internal ∧ AllocBetree.betree x' = b'.
Proof.
  intros (Hw&ft&Hr&Hcov) Hu H. destruct H as [na Hd Hf|a Hf|key d rq na pa Hc Hv Hf|key d i gc na pa Hc Hv Hf|key d i j cb na pa Hc Hv Hf].
  - eexists. split.
    + do 1 right; left. exists (mkBS (mt_drain (memtable (AllocBetree.betree x))) (Linked.push_memtable (root (AllocBetree.betree x)) (mt_buffer (memtable (AllocBetree.betree x))) na)), na. split; [|split; [exact Hf|split; [apply keeps_all|reflexivity]]].
      split; [done|]. split; [done|]. split; [done|]. split; [|reflexivity]. apply view_refl. by eapply push_whole.
    + done.
  - eexists. split.
    + do 2 right; left. exists (mkBS (memtable (AllocBetree.betree x)) (Linked.grow (root (AllocBetree.betree x)) a)), a. split; [|split; [exact Hf|reflexivity]]. by split.
    + done.
  - eexists. split.
    + do 3 right; left. exists (mkBS (memtable (AllocBetree.betree x)) (Linked.post_split (root (AllocBetree.betree x)) key d rq na pa)), key, d, rq, na, pa. split; [|split; [exact Hf|split; [apply keeps_all|reflexivity]]].
      split; [done|]. split; [done|]. split; [done|]. split; [|reflexivity]. apply view_refl. by eapply split_whole.
    + done.
  - eexists. split.
    + do 4 right; left. exists (mkBS (memtable (AllocBetree.betree x)) (Linked.post_flush (root (AllocBetree.betree x)) key d i gc na pa)), key, d, i, gc, na, pa. split; [|split; [exact Hf|split; [apply keeps_all|reflexivity]]].
      split; [done|]. split; [done|]. split; [done|]. split; [|reflexivity]. apply view_refl. by eapply flush_whole.
    + done.
  - eexists. split.
    + do 5 right; left. exists (mkBS (memtable (AllocBetree.betree x)) (Linked.post_compact (root (AllocBetree.betree x)) key d i j cb na pa)), key, d, i, j, cb, na, pa. split; [|split; [exact Hf|split; [apply keeps_all|reflexivity]]].
      split; [done|]. split; [exact Hc|]. split; [done|]. split; [|reflexivity]. apply view_refl. by eapply compact_whole.
    + done.
Qed.
