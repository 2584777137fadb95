(** Background work of the be-trees that count references can bring all messages
    to the leaves (C56). *)
From Verif Require Import Spec_Model Spec_Proof Abs_Model Betree_Model Betree_Spec Route_Proof Betree_Common Routed_Proof.
From Verif Require Import LinkedBetree_Model LinkedBetree_Spec LikesBetree_Model LikesBetree_Spec LinkedBetree_Proof LinkedBetree_Facts
  LikesTree_Proof LikesOps_Proof LikesBetree_Proof LikesBetree_Facts BranchCompact_Proof BranchFlow_Proof TreeFlow_Spec TreeFlow_Proof TreeShape_Proof.
From Verif Require FilteredBetree_Proof.
From Coq Require Import ZifyBool ZifyNat ZifyN Lia.
Implicit Types (l w : SLB) (t : FTree) (x : AllocBetree.State).

(** ** Free pages can always be found *)
Local Instance Address_infinite : Infinite Address.
Proof. refine (inj_infinite (λ n, mkAddr n 0) (λ a, Some (au a)) _). done. Defined.
Lemma free_exist l n : ∃ addrs, length addrs = n ∧ free_pages l addrs.
Proof.
  set (X := dom (lb_dv l) ∪ dom (lb_bdv l)). exists (fresh_list n X). split; [apply fresh_list_length|]. split; [apply NoDup_fresh_list|].
  intros a Ha. pose proof (fresh_list_is_fresh n X a Ha) as Hf. unfold X in Hf. split; apply not_elem_of_dom; set_solver.
Qed.
Lemma free_fresh l addrs X : free_pages l addrs → (∀ a, a ∈ X → a ∈ addrs) → Linked.is_fresh l X.
Proof.
  intros [_ Hf] HX. split; apply elem_of_disjoint; intros a [y Hy]%elem_of_dom Ha; destruct (Hf a (HX _ Ha)); congruence.
Qed.

(** ** Paths and operations of the tree the disk represents *)
Lemma repr_root l t : lrepr l t → t ≠ RNil → Linked.has_root l.
Proof. destruct t as [|c p chs]; [done|]. intros (a&n&Ha&Hn&_)%repr_node _. exists n, a. done. Qed.
Lemma repr_path key d : ∀ l t, Linked.wf l → lrepr l t → Routed.path_valid Filtered.dwf t key d → Linked.path_valid l key d.
Proof.
  induction d as [|d IH]; intros l t Hw Hr Hv.
  - destruct Hv as (_&(_&Hn&Hk)&_). pose proof (repr_root _ _ Hr Hn) as Hh. split; [done|]. split; [by eapply repr_acyclic|]. split; [|done].
    destruct (lrepr_node _ _ Hr Hh) as (a&n&c&chs&Ha&Hna&Hrn&->&_). rewrite Hrn. split; [by apply (proj1 (proj1 Hw) _ _ Hna)|exact Hk].
  - destruct Hv as (_&(_&Hn&Hk)&[_ Hix]&Hv). pose proof (repr_root _ _ Hr Hn) as Hh.
    pose proof (child_repr _ _ key Hr Hh) as Hrc.
    destruct (lrepr_node _ _ Hr Hh) as (a&n&c&chs&Ha&Hna&Hrn&->&_&_&Hc). cbn [Routed.pivots_of Routed.children_of] in *.
    split; [done|]. split; [by eapply repr_acyclic|]. split; [rewrite Hrn; split; [by apply (proj1 (proj1 Hw) _ _ Hna)|exact Hk]|].
    split.
    + rewrite Hrn. apply Forall_lookup. intros i q Hq ->. destruct (Forall2_lookup_l _ _ _ _ _ Hc Hq) as (y&Hy&Ry).
      apply repr_None in Ry as ->. by apply (proj1 (Forall_lookup _ _) Hix _ _ Hy).
    + eapply IH; [|exact Hrc|exact Hv]. split; [apply Hw|]. unfold Linked.child_for_key, Linked.with_root. cbn [lb_root lb_dv]. rewrite Hrn.
      unfold LNode.child_ptr, LNode.child_at. destruct (LNode.children n !! route_idx (LNode.pivots n) key) as [q|] eqn:E.
      * rewrite (nth_lookup_Some _ _ _ _ E). by eapply (proj1 (proj2 (proj1 Hw) _ _ Hna)).
      * rewrite nth_overflow by by apply lookup_ge_None_1. by intros ? ?.
Qed.
Lemma target_wf' l key d : Linked.path_valid l key d → Linked.wf (Linked.path_target l key d).
Proof. revert l. induction d as [|d IH]; intros l Hv; [apply Hv|]. apply IH, Hv. Qed.
Lemma flush_lift l t i gc : Linked.wf l → lrepr l t → Filtered.can_flush t i gc → Routed.child_at t i ≠ RNil → Linked.can_flush l i gc.
Proof.
  intros Hw Hr (_&Hn&(_&Hi)&Hg) Hci. pose proof (repr_root _ _ Hr Hn) as Hh. pose proof (child_idx_repr _ _ i Hr Hh) as Hrc.
  pose proof (repr_root _ _ Hrc Hci) as (m&ca&Hca&_).
  destruct (lrepr_node _ _ Hr Hh) as (a&n&c&chs&Ha&Hna&Hrn&->&Hf&Hb&Hc). cbn [Routed.children_of Filtered.contents_of] in *.
  split; [done|]. split; [done|]. split.
  - split; [rewrite Hrn, (Forall2_length _ _ _ Hc); done|]. unfold Linked.child_at_idx, Linked.with_root in Hca. cbn [lb_root] in Hca. by rewrite Hca.
  - rewrite Hrn, Hf, (Forall2_length _ _ _ Hb). done.
Qed.
Lemma compact_lift l t a b cb bdv na : Linked.wf l → lrepr l t → Filtered.can_compact t a b cb → Linked.can_compact l a b cb bdv na.
Proof.
  intros Hw Hr Hc. pose proof Hc as (_&Hn&Hab&Hd&Hv). pose proof (repr_root _ _ Hr Hn) as Hh.
  pose proof (lrepr_node _ _ Hr Hh) as (ad&n&c&chs&Ha&Hna&Hrn&Et&_&Hb&_).
  destruct (compact_exists (lb_bdv l) n a b) as (B&HB1&HB2); [by apply (proj1 (proj1 Hw) _ _ Hna)|].
  assert (HL : Linked.can_compact l a b B bdv na).
  { split; [done|]. split; [done|]. rewrite Hrn. split; [|split; [exact HB1|exact HB2]]. rewrite Et in Hab. cbn in Hab. by rewrite (Forall2_length _ _ _ Hb). }
  pose proof (can_compact_repr _ _ _ _ _ _ _ Hr HL) as (_&_&_&Hd'&Hv').
  assert (cb = B) as ->; [|done]. apply map_eq. intros k.
  assert (Hiff : is_Some (cb !! k) ↔ is_Some (B !! k)) by by rewrite Hd, Hd'.
  specialize (Hv k). specialize (Hv' k). unfold buf_query in Hv, Hv'.
  destruct (cb !! k) as [x|], (B !! k) as [y|]; [|by destruct (proj1 Hiff); [eexists|]|by destruct (proj2 Hiff); [eexists|]|done].
  specialize (Hv (ex_intro _ x eq_refl)). specialize (Hv' (ex_intro _ y eq_refl)). cbn in Hv, Hv'. congruence.
Qed.

(** A step of the represented tree is background work. *)
Lemma free_split l d : ∃ a c pa, length pa = d ∧ two_no_dup (mkTwo a c) ∧ NoDup pa ∧ (two_repr (mkTwo a c)) ## (list_to_set pa : gset Address) ∧
  Linked.is_fresh l (two_repr (mkTwo a c) ∪ list_to_set pa).
Proof.
  destruct (free_exist l (S (S d))) as (addrs&Hl&Hf). destruct addrs as [|a [|c pa]]; [done|done|]. injection Hl as Hl.
  exists a, c, pa. split; [done|]. pose proof (proj1 Hf) as Hd. apply stdpp.list.NoDup_cons in Hd as [Ha Hd]. apply stdpp.list.NoDup_cons in Hd as [Hc Hd].
  split; [intros E; cbn in E; subst; apply Ha; left|]. split; [done|]. split; [unfold two_repr; cbn; set_solver|].
  eapply free_fresh; [exact Hf|]. unfold two_repr. cbn. set_solver.
Qed.
Lemma rstep_reorg (b : BState SLB) t t' : Linked.wf (root b) → lrepr (root b) t → t ≠ RNil → rstep true t t' →
  ∃ b', reorg b b' ∧ memtable b' = memtable b ∧ lrepr (root b') t'.
Proof.
  intros Hw Hr Hn Hs. set (l := root b) in *. pose proof (proj1 (repr_wf _ _ _ _ (proj1 Hw) Hr)) as Hwt.
  destruct (rstep_path _ _ _ Hs Hwt Hn) as (key&d&u&Hv&Hp&->). pose proof (repr_path _ _ _ _ Hw Hr Hv) as Hpv.
  destruct (path_repr _ _ _ _ Hr Hpv) as [_ Htr]. pose proof (target_wf' _ _ _ Hpv) as Hwt'.
  destruct (free_split l d) as (a&c&pa&Hl&Hnd&Hnp&Hdj&Hf). set (na := mkTwo a c) in *. destruct (fresh_sub _ _ _ Hf) as [Hfa Hfb].
  assert (Hvp : Linked.valid_path_replacement l key d (two_no_dup na) (two_repr na) pa) by (split; [done|]; split; [done|]; split; [done|]; by split).
  destruct (target_disk l key d) as [E1 E2].
  destruct Hp as [(i&gc&Hc&Hci&->)|(_&i&j&cb&Hc&->)].
  - pose proof (flush_lift _ _ _ _ Hwt' Htr Hc Hci) as Hlc. eexists. split; [by eapply ro_flush|]. split; [done|]. cbn [root].
    pose proof (flush_repr _ _ i gc na Htr Hlc Hnd (fresh_target _ _ _ _ Hfa)) as He. unfold extends in He. rewrite E1, E2 in He.
    destruct (substitute_repr l key d _ t _ _ pa Hr Hpv (eq_sym Hl) Hnp ltac:(destruct Hfb; set_solver) Hdj He) as [(_&_&_&Hx) _]. exact Hx.
  - pose proof (compact_lift _ _ _ _ _ (lb_bdv l) na Hwt' Htr Hc) as Hlc. eexists. split; [by eapply ro_compact|]. split; [done|]. cbn [root].
    pose proof (compact_repr _ _ i j cb _ na Htr Hlc Hnd (fresh_target _ _ _ _ Hfa)) as He. unfold extends in He. rewrite E1, E2 in He.
    assert (Hdj1 : ({[addr1 na]} : gset Address) ## list_to_set pa) by (unfold two_repr in Hdj; set_solver).
    destruct (substitute_repr l key d _ t _ _ pa Hr Hpv (eq_sym Hl) Hnp ltac:(destruct Hfb; set_solver) Hdj1 He) as [(_&_&_&Hx) _]. exact Hx.
Qed.
Lemma push_reorg (b : BState SLB) t : Linked.wf (root b) → lrepr (root b) t →
  ∃ b', reorg b b' ∧ memtable b' = mt_drain (memtable b) ∧ lrepr (root b') (Filtered.push_memtable t (memtable b)).
Proof.
  intros Hw Hr. destruct (free_split (root b) 0) as (a&c&pa&Hl&Hnd&Hnp&Hdj&Hf). destruct (fresh_sub _ _ _ Hf) as [Hfa _].
  eexists. split; [by eapply ro_push|]. split; [done|]. cbn [root].
  destruct (push_memtable_repr _ _ (memtable b) (mt_buffer (memtable b)) (mkTwo a c) Hr Hw Hnd Hfa eq_refl) as (_&_&_&Hx). exact Hx.
Qed.

(** ** The shape on disk *)
Lemma shaped_of l t : lrepr l t → leaves_and_full_nodes l → shaped t.
Proof.
  destruct l as [p dv bdv]. intros Hr Hs. cbn [lb_root lb_dv lb_bdv] in *. revert p Hr Hs.
  induction t as [|c pv chs IH] using node_ind; intros p Hr Hs; [constructor|].
  apply repr_node in Hr as (a&n&->&Hn&<-&Hf&_&Hc).
  assert (Hlive : node_live (mkLB (Some a) dv bdv) a) by (exists []; by eapply leads_here).
  destruct (Hs a n Hlive Hn) as [[E1 E2]|Hall].
  - rewrite E1 in Hc. inversion Hc as [|? y ? ys Hy Hys]; subst. inversion Hys; subst. apply repr_None in Hy as ->.
    apply sh_leaf. congruence.
  - apply sh_index; intros i y Hy; destruct (Forall2_lookup_r _ _ _ _ _ Hc Hy) as (q&Hq&Ry).
    + intros ->. apply repr_nil in Ry as ->. eapply Hall; [by eapply elem_of_list_lookup_2|done].
    + apply (proj1 (Forall_lookup _ _) IH _ _ Hy q Ry). intros a' n' [is Hl] Hn'. apply (Hs a' n'); [|done].
      exists (i :: is). by eapply leads_down.
Qed.
Lemma shaped_disk l t : lrepr l t → shaped t → leaves_and_full_nodes l.
Proof.
  destruct l as [p dv bdv]. intros Hr Hs a n [is Hl] Hn. unfold node_ref in Hl. cbn [lb_root lb_dv lb_bdv] in *. revert t Hr Hs.
  induction Hl as [a n' Hn'|a n' i q is b Hn' Hi Hl IH]; intros t Hr Hs;
    destruct (repr_Some _ _ _ _ _ Hn' Hr) as (c&chs&->&Hf&Hb&Hc).
  - rewrite Hn in Hn'. injection Hn' as <-. inversion Hs as [|? ? Hf0|? ? ? Hn0 Hc0]; subst.
    + left. split; [|congruence]. inversion Hc as [|q y qs ys Hq Hqs E1 E2]; subst. inversion Hqs; subst. apply repr_nil in Hq as ->. done.
    + right. intros q [i Hi]%elem_of_list_lookup ->. destruct (Forall2_lookup_l _ _ _ _ _ Hc Hi) as (y&Hy&Ry).
      apply repr_None in Ry as ->. by eapply Hn0.
  - destruct (Forall2_lookup_l _ _ _ _ _ Hc Hi) as (y&Hy&Ry). eapply IH; [done|exact Ry|].
    pose proof (shaped_child _ i Hs) as H. by rewrite (child_at_lookup (RNode c (LNode.pivots n') chs) i y Hy) in H.
Qed.
Lemma clean_disk l t : lrepr l t → clean t → settled l.
Proof.
  destruct l as [p dv bdv]. intros Hr Hs a n [is Hl] Hn. unfold node_ref in Hl. cbn [lb_root lb_dv lb_bdv] in *. revert t Hr Hs.
  induction Hl as [a n' Hn'|a n' i q is b Hn' Hi Hl IH]; intros t Hr Hs;
    destruct (repr_Some _ _ _ _ _ Hn' Hr) as (c&chs&->&Hf&Hb&Hc).
  - rewrite Hn in Hn'. injection Hn' as <-. inversion Hs as [? ? Hle|? ? ? He Hc0]; subst.
    + right. split; [|by rewrite (Forall2_length _ _ _ Hb)]. inversion Hc as [|q y qs ys Hq Hqs E1 E2]; subst. inversion Hqs; subst.
      apply repr_nil in Hq as ->. done.
    + left. rewrite He in Hb. by inversion Hb.
  - destruct (Forall2_lookup_l _ _ _ _ _ Hc Hi) as (y&Hy&Ry). inversion Hs as [? ? Hle|? ? ? He Hc0]; subst.
    + destruct i as [|i]; [|done]. injection Hy as <-. apply repr_nil in Ry as ->. inversion Hl.
    + eapply IH; [done|exact Ry|by eapply Hc0].
Qed.
Lemma shaped_run b ls b' : linv b → leaves_and_full_nodes (root b) → run Linked.strong_next b ls b' → leaves_and_full_nodes (root b').
Proof.
  intros Hl Hs Hr. assert (linv b' ∧ leaves_and_full_nodes (root b')) as [_ H]; [|done].
  induction Hr as [b|b ls b1 lb b2 Hr IH Hn]; [done|]. destruct (IH Hl Hs) as ((Hw&t&Hrt&Hcov)&Hs1).
  split; [exact (proj1 (step_sim b1 b2 lb (conj Hw (ex_intro _ t (conj Hrt Hcov))) Hn))|]. destruct (strong_step _ _ _ _ Hw Hrt Hcov Hn) as (t'&fl&Hw'&Hr'&_&_&Hf).
  eapply shaped_disk; [exact Hr'|]. apply (shaped_step _ _ _ (shaped_of _ _ Hrt Hs1 : shaped (root (mkBS (memtable b1) t))) Hf).
Qed.

(** ** Background work of a machine that can take these steps *)
Lemma internal_holds (b b' : BState SLB) m : linv b → Linked.strong_next b b' Internal →
  mt_seq_end (memtable b') = mt_seq_end (memtable b) ∧ (state_holds linked_answers b m → state_holds linked_answers b' m).
Proof.
  intros Hl Hn. assert (He : mt_seq_end (memtable b') = mt_seq_end (memtable b)).
  { destruct Hn as [(?&?&?&?&?&?&_)|[(?&?&_)|[(_&?&_)|[(?&?&?&(_&_&_&_& ->)&_)|[(?&(_& ->)&_)|[(?&?&?&?&?&?&(_&_&_&_& ->)&_)|
      [(?&?&?&?&?&?&?&(_&_&_&_& ->)&_)|[(?&?&?&?&?&?&?&?&(_&_&_&_& ->)&_)|[(?&_&_&_& ->)|(_& ->)]]]]]]]]]; done. }
  split; [done|]. intros Hm. destruct (step_sim _ _ _ Hl Hn) as [_ Hsim].
  destruct (Hsim (AbstractMap.mkState (mkStamped m (mt_seq_end (memtable b))))) as (a'&al&Ha&->&Hs&_); [by split|].
  destruct Ha as [(?&?&?&E&_)|[(?&E&_)|[(E&_)|(_& ->)]]]; try discriminate E. exact Hs.
Qed.
Section Machine.
  Context {S : Type} (next : S → S → BLabel SLB → Prop) (tree : S → BState SLB) (good : S → Prop).
  Hypothesis (Hgood : ∀ s, good s → linv (tree s) ∧ ∃ u, lunf (root (tree s)) u).
  Hypothesis (Hstep : ∀ s b', good s → reorg (tree s) b' → ∃ s', next s s' Internal ∧ tree s' = b' ∧ good s').
  Hypothesis (Hfreeze : ∀ s (l : BLabel SLB), good s → likes_free l → Linked.next (tree s) (tree s) l → ∃ s', next s s' l).
  Lemma step_on s b' : good s → reorg (tree s) b' → ∃ s', next s s' Internal ∧ tree s' = b' ∧ good s' ∧ linv (tree s') ∧
    mt_seq_end (memtable (tree s')) = mt_seq_end (memtable (tree s)) ∧
    ∀ m, state_holds linked_answers (tree s) m → state_holds linked_answers (tree s') m.
  Proof using Hgood Hstep.
    intros Hg Hr. destruct (Hgood _ Hg) as (Hl&u&Hu). pose proof (reorg_linked _ _ _ Hl Hu Hr) as Hn.
    destruct (Hstep _ _ Hg Hr) as (s'&Hn'&<-&Hg'). exists s'. split; [done|]. split; [done|]. split; [done|]. split; [by apply Hgood|].
    split; [by apply (internal_holds _ _ (λ _, message_empty) Hl Hn)|]. intros m. by apply (internal_holds _ _ m Hl Hn).
  Qed.
  Lemma steps_on t t' : rtc (rstep true) t t' → t ≠ RNil → ∀ s, good s → lrepr (root (tree s)) t →
    ∃ s', background next s s' ∧ good s' ∧ lrepr (root (tree s')) t' ∧ memtable (tree s') = memtable (tree s) ∧
      ∀ m, state_holds linked_answers (tree s) m → state_holds linked_answers (tree s') m.
  Proof using Hgood Hstep.
    induction 1 as [t|t t1 t' H1 H2 IH]; intros Hn s Hg Hr; [exists s; split; [exists 0; constructor|done]|].
    destruct (Hgood _ Hg) as ((Hw&_)&_). destruct (rstep_reorg _ _ _ Hw Hr Hn H1) as (b'&Hro&Em&Hr').
    destruct (step_on _ _ Hg Hro) as (s1&Hn1&<-&Hg1&_&_&Hm1).
    destruct (rstep_ok _ _ _ H1 (proj1 (repr_wf _ _ _ _ (proj1 Hw) Hr)) Hn) as (_&Hnt1&_).
    destruct (IH Hnt1 s1 Hg1 Hr') as (s'&[k Hk]&Hg'&Hr2&Em'&Hm'). exists s'. split; [exists (Datatypes.S k); cbn; by eapply run_cons|].
    split; [done|]. split; [done|]. split; [congruence|]. intros m Hm. by apply Hm', Hm1.
  Qed.
  Lemma settle_on s : good s → leaves_and_full_nodes (root (tree s)) →
    ∃ s', background next s s' ∧ good s' ∧ mt_is_empty (memtable (tree s')) ∧ settled (root (tree s')) ∧
      mt_seq_end (memtable (tree s')) = mt_seq_end (memtable (tree s)) ∧
      ∀ m, state_holds linked_answers (tree s) m → state_holds linked_answers (tree s') m.
  Proof using Hgood Hstep.
    intros Hg Hs. destruct (Hgood _ Hg) as ((Hw&t&Hr&Hcov)&_). destruct (push_reorg _ _ Hw Hr) as (b'&Hro&Em&Hr').
    destruct (step_on _ _ Hg Hro) as (s1&Hn1&<-&Hg1&(Hw1&_)&Ee&Hm1).
    pose proof (proj1 (repr_wf _ _ _ _ (proj1 Hw1) Hr')) as Hwt.
    destruct (settle (Filtered.promote t total_domain)) with (bs := [mt_buffer (memtable (tree s))]) as (t'&Ht'&Hcl);
      [by apply shaped_promote, (shaped_of (root (tree s)))|by destruct t|done|].
    destruct (steps_on _ _ Ht') with (s := s1) as (s'&[k Hk]&Hg'&Hr2&Em2&Hm2); [by destruct t|done|done|].
    exists s'. split; [exists (Datatypes.S k); cbn; by eapply run_cons|]. split; [done|].
    split; [by rewrite Em2, Em|]. split; [by eapply clean_disk|]. split; [by rewrite Em2|]. intros m Hm. by apply Hm2, Hm1.
  Qed.
  (** The image of a settled state can be taken at once. *)
  Lemma freeze_on s m : good s → mt_is_empty (memtable (tree s)) → state_holds linked_answers (tree s) m →
    ∃ s', next s s' (FreezeAs (mkStamped (root (tree s)) (mt_seq_end (memtable (tree s))))) ∧ holds linked_answers (root (tree s)) m.
  Proof using Hfreeze.
    intros Hg He (base&Hb&Hm). destruct (Hfreeze s (FreezeAs (mkStamped (root (tree s)) (mt_seq_end (memtable (tree s))))) Hg) as [s' Hs'].
    - done.
    - do 2 right; left. split; [done|]. by rewrite i_bdv_id.
    - exists s'. split; [done|]. intros k v. rewrite (Hb k v), Hm. unfold mt_is_empty in He. by rewrite He, lookup_empty.
  Qed.
End Machine.

(** ** The two machines *)
Lemma likes_good s : sexact s → linv (LikesBetree.betree s) ∧ ∃ u, lunf (root (LikesBetree.betree s)) u.
Proof. intros (Hl&u&Hu&_). split; [done|]. by exists u. Qed.
Lemma likes_does s b' : sexact s → reorg (LikesBetree.betree s) b' → ∃ s', LikesBetree.next s s' Internal ∧ LikesBetree.betree s' = b' ∧ sexact s'.
Proof.
  intros He Hr. destruct (reorg_likes _ _ He Hr) as (s'&Hn&E). exists s'. split; [done|]. split; [done|]. by apply (likes_strong s s' Internal).
Qed.
Lemma likes_freezes s (l : BLabel SLB) : sexact s → likes_free l → Linked.next (LikesBetree.betree s) (LikesBetree.betree s) l → ∃ s', LikesBetree.next s s' l.
Proof. intros _ Hl Hn. eexists. left. eexists. split; [done|]. split; [exact Hn|reflexivity]. Qed.
Definition agood x : Prop := ∃ s, same x s ∧ sexact s.
Lemma alloc_good x : agood x → linv (AllocBetree.betree x) ∧ ∃ u, lunf (root (AllocBetree.betree x)) u.
Proof. intros (s&(->&_)&Hs). by apply likes_good. Qed.
Lemma alloc_does x b' : agood x → reorg (AllocBetree.betree x) b' → ∃ x', AllocBetree.next x x' Internal ∧ AllocBetree.betree x' = b' ∧ agood x'.
Proof.
  intros Hg Hr. destruct (alloc_good _ Hg) as (Hl&u&Hu). destruct (reorg_alloc _ _ _ Hl Hu Hr) as (x'&Hn&E). exists x'. split; [done|]. split; [done|].
  destruct Hg as (s&Hs&He). destruct (alloc_sim _ _ _ _ Hs He Hn) as (s'&Hn'&Hs'). exists s'. split; [done|]. by apply (likes_strong s s' Internal).
Qed.
Lemma alloc_freezes x (l : BLabel SLB) : agood x → likes_free l → Linked.next (AllocBetree.betree x) (AllocBetree.betree x) l → ∃ x', AllocBetree.next x x' l.
Proof. intros _ Hl Hn. eexists. left. eexists. split; [done|]. split; [exact Hn|reflexivity]. Qed.
Lemma alloc_reached x0 b ls x : AllocBetree.initialize x0 b → run AllocBetree.next x0 ls x → agood x.
Proof. intros Hi Hr. destruct (alloc_run _ _ _ _ Hi Hr) as (s0&s&Hi'&Hr'&Hs). exists s. split; [done|]. by eapply likes_run. Qed.

(** ** Each operation, with any free pages *)
Lemma free_two l a c pa : free_pages l (a :: c :: pa) → two_no_dup (mkTwo a c) ∧ base.NoDup pa ∧
  two_repr (mkTwo a c) ## (list_to_set pa : gset Address) ∧ Linked.is_fresh l (two_repr (mkTwo a c) ∪ list_to_set pa).
Proof.
  intros Hf. pose proof (proj1 Hf) as Hd. apply stdpp.list.NoDup_cons in Hd as [Ha Hd]. apply stdpp.list.NoDup_cons in Hd as [Hc Hd].
  split; [intros E; cbn in E; subst; apply Ha; left|]. split; [done|]. split; [unfold two_repr; cbn; set_solver|].
  eapply free_fresh; [exact Hf|]. unfold two_repr. cbn. set_solver.
Qed.
Lemma free_three l a c e pa : free_pages l (a :: c :: e :: pa) → split_no_dup (mkSplit a c e) ∧ base.NoDup pa ∧
  split_repr (mkSplit a c e) ## (list_to_set pa : gset Address) ∧ Linked.is_fresh l (split_repr (mkSplit a c e) ∪ list_to_set pa).
Proof.
  intros Hf. pose proof (proj1 Hf) as Hd. apply stdpp.list.NoDup_cons in Hd as [Ha Hd]. apply stdpp.list.NoDup_cons in Hd as [Hc Hd].
  apply stdpp.list.NoDup_cons in Hd as [He Hd].
  split; [split; [|split]; cbn; intros E; subst; set_solver|]. split; [done|]. split; [unfold split_repr; cbn; set_solver|].
  eapply free_fresh; [exact Hf|]. unfold split_repr. cbn. set_solver.
Qed.
Lemma works_on {S} (next : S → S → BLabel SLB → Prop) (tree : S → BState SLB) (good : S → Prop) s :
  (∀ s, good s → linv (tree s) ∧ ∃ u, lunf (root (tree s)) u) →
  (∀ s b', good s → reorg (tree s) b' → ∃ s', next s s' Internal ∧ tree s' = b' ∧ good s') → good s → can_work next tree s.
Proof.
  intros Hgood Hstep Hg. destruct (Hgood _ Hg) as ((Hw&ft&Hr&_)&_).
  assert (Hdo : ∀ b', reorg (tree s) b' → ∃ s', next s s' Internal ∧ tree s' = b').
  { intros b' H. destruct (Hstep _ _ Hg H) as (s'&?&?&_). by exists s'. }
  split; [|split; [|split; [|split]]].
  - intros a c Hf. destruct (free_two _ _ _ _ Hf) as (Hnd&_&_&Hfr). destruct (fresh_sub _ _ _ Hfr) as [Hfa _]. apply Hdo. by apply ro_push.
  - intros a Hf. apply Hdo, ro_grow. eapply free_fresh; [exact Hf|]. set_solver.
  - intros key d r a c e pa Hpv Hl Hf Hc. destruct (free_three _ _ _ _ _ Hf) as (Hnd&Hd&Hdj&Hfr). apply Hdo. apply ro_split; [done| |done].
    split; [done|]. split; [done|]. split; [done|]. by split.
  - intros key d i gc a c pa Hpv Hl Hf Hc. destruct (free_two _ _ _ _ Hf) as (Hnd&Hd&Hdj&Hfr). apply Hdo. apply ro_flush; [done| |done].
    split; [done|]. split; [done|]. split; [done|]. by split.
  - intros key d i j a c pa Hpv Hl Hf Hij. destruct (free_two _ _ _ _ Hf) as (Hnd&Hd&Hdj&Hfr).
    destruct (path_repr _ _ _ _ Hr Hpv) as [Hpv' Htr]. destruct (target_wf _ _ _ _ Hpv') as [Hwt Hnt].
    pose proof (lrepr_node _ _ Htr (repr_root _ _ Htr Hnt)) as (ad&n&cc&chs&_&_&Hrn&Et&_&Hb&_).
    destruct (fcompact_exists (Routed.path_target ft key d) i j Hwt Hnt) as [cb Hcb].
    { rewrite Et. cbn. rewrite <-(Forall2_length _ _ _ Hb), <-Hrn. exact Hij. }
    exists cb. apply Hdo. apply ro_compact; [|split; [done|]; split; [done|]; split; [done|]; by split|done].
    eapply compact_lift; [by apply target_wf'|exact Htr|exact Hcb].
Qed.

(** ** Property forms *)
Lemma likes_works s0 b ls s : LikesBetree.initialize s0 b → run LikesBetree.next s0 ls s → can_work LikesBetree.next LikesBetree.betree s.
Proof. intros Hi Hr. eapply (works_on _ _ sexact); [apply likes_good|apply likes_does|]. by eapply likes_run. Qed.
Lemma alloc_works x0 b ls x : AllocBetree.initialize x0 b → run AllocBetree.next x0 ls x → can_work AllocBetree.next AllocBetree.betree x.
Proof. intros Hi Hr. eapply (works_on _ _ agood); [apply alloc_good|apply alloc_does|]. by eapply alloc_reached. Qed.
Lemma likes_shape s0 b ls s : LikesBetree.initialize s0 b → run LikesBetree.next s0 ls s → leaves_and_full_nodes (root b) →
  leaves_and_full_nodes (root (LikesBetree.betree s)).
Proof.
  intros Hi Hr Hs. destruct (likes_run _ _ _ _ Hi Hr) as [Hr' _]. destruct (likes_init _ _ Hi) as [(Hl&_) Eb]. rewrite Eb in Hl.
  exact (shaped_run _ _ _ Hl Hs Hr').
Qed.
Lemma alloc_shape x0 b ls x : AllocBetree.initialize x0 b → run AllocBetree.next x0 ls x → leaves_and_full_nodes (root b) →
  leaves_and_full_nodes (root (AllocBetree.betree x)).
Proof. intros Hi Hr Hs. destruct (alloc_run _ _ _ _ Hi Hr) as (s0&s&Hi'&Hr'&(->&_)). by eapply likes_shape. Qed.
Lemma likes_settle s0 b ls s : LikesBetree.initialize s0 b → run LikesBetree.next s0 ls s → leaves_and_full_nodes (root b) →
  ∃ s' s'' m, background LikesBetree.next s s' ∧ settled (root (LikesBetree.betree s')) ∧
    state_holds linked_answers (LikesBetree.betree s) m ∧
    LikesBetree.next s' s'' (FreezeAs (mkStamped (root (LikesBetree.betree s')) (mt_seq_end (memtable (LikesBetree.betree s))))) ∧
    holds linked_answers (root (LikesBetree.betree s')) m.
Proof.
  intros Hi Hr Hs. destruct (likes_run _ _ _ _ Hi Hr) as [_ He]. pose proof (likes_shape _ _ _ _ Hi Hr Hs) as Hsh.
  destruct (settle_on _ _ _ likes_good likes_does s He Hsh) as (s'&Hb&He'&Hemp&Hset&Eq&Hm).
  destruct (likes_faithful _ _ _ _ Hi Hr) as (_&_&a0&als&a&_&_&_&Hsm&_).
  destruct (freeze_on _ _ _ likes_freezes s' _ He' Hemp (Hm _ Hsm)) as (s''&Hf&Hh). rewrite Eq in Hf. eauto 10.
Qed.
Lemma alloc_settle x0 b ls x : AllocBetree.initialize x0 b → run AllocBetree.next x0 ls x → leaves_and_full_nodes (root b) →
  ∃ x' x'' m, background AllocBetree.next x x' ∧ settled (root (AllocBetree.betree x')) ∧
    state_holds linked_answers (AllocBetree.betree x) m ∧
    AllocBetree.next x' x'' (FreezeAs (mkStamped (root (AllocBetree.betree x')) (mt_seq_end (memtable (AllocBetree.betree x))))) ∧
    holds linked_answers (root (AllocBetree.betree x')) m.
Proof.
  intros Hi Hr Hs. pose proof (alloc_reached _ _ _ _ Hi Hr) as He. pose proof (alloc_shape _ _ _ _ Hi Hr Hs) as Hsh.
  destruct (settle_on _ _ _ alloc_good alloc_does x He Hsh) as (x'&Hb&He'&Hemp&Hset&Eq&Hm).
  destruct (alloc_faithful _ _ _ _ Hi Hr) as (_&_&a0&als&a&_&_&_&Hsm&_).
  destruct (freeze_on _ _ _ alloc_freezes x' _ He' Hemp (Hm _ Hsm)) as (x''&Hf&Hh). rewrite Eq in Hf. eauto 10.
Qed.
