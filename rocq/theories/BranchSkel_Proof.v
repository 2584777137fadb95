(** Everything about a linked tree except its buffers is the same for two trees
    with the same root and the same node pages (C42, C43). *)
From Verif Require Import Spec_Model Abs_Model Betree_Model Betree_Spec LinkedBetree_Model LinkedBetree_Spec
  LikesBetree_Model LikesBetree_Spec LinkedBetree_Proof.
From Coq Require Import ZifyBool ZifyNat ZifyN Lia.

Definition skel {T T'} (l : LinkedBetree T) (l' : LinkedBetree T') : Prop :=
  lb_root l = lb_root l' ∧ lb_dv l = lb_dv l'.
Section Skel.
  Context {T T' : Type}.
  
  Ltac sk := intros [E1 E2]; repeat match goal with x : LinkedBetree _ |- _ => destruct x as [? ? ?] end; cbn in E1, E2; subst.

  Lemma skel_wf (l : LinkedBetree T) (l' : LinkedBetree T') : skel l l' → Linked.wf l ↔ Linked.wf l'.
  Proof. by sk. Qed.
  Lemma skel_has_root (l : LinkedBetree T) (l' : LinkedBetree T') : skel l l' → Linked.has_root l ↔ Linked.has_root l'.
  Proof. by sk. Qed.
  Lemma skel_root_node (l : LinkedBetree T) (l' : LinkedBetree T') : skel l l' → Linked.root_node l = Linked.root_node l'.
  Proof. by sk. Qed.
  Lemma skel_acyclic (l : LinkedBetree T) (l' : LinkedBetree T') : skel l l' → Linked.acyclic l ↔ Linked.acyclic l'.
  Proof. by sk. Qed.
  Lemma skel_with_root (l : LinkedBetree T) (l' : LinkedBetree T') p : skel l l' → skel (Linked.with_root l p) (Linked.with_root l' p).
  Proof. by sk. Qed.
  Lemma skel_child_key (l : LinkedBetree T) (l' : LinkedBetree T') k : skel l l' → skel (Linked.child_for_key l k) (Linked.child_for_key l' k).
  Proof. by sk. Qed.
  Lemma skel_child_idx (l : LinkedBetree T) (l' : LinkedBetree T') i : skel l l' → skel (Linked.child_at_idx l i) (Linked.child_at_idx l' i).
  Proof. by sk. Qed.
  Lemma skel_path_valid (l : LinkedBetree T) (l' : LinkedBetree T') key d : skel l l' → Linked.path_valid l key d ↔ Linked.path_valid l' key d.
  Proof.
    revert l l'. induction d as [|d IH]; intros l l' H; cbn [Linked.path_valid];
      rewrite (skel_has_root _ _ H), (skel_acyclic _ _ H), (skel_root_node _ _ H); [done|].
    by rewrite (IH _ _ (skel_child_key _ _ key H)).
  Qed.
  Lemma skel_target (l : LinkedBetree T) (l' : LinkedBetree T') key d : skel l l' → skel (Linked.path_target l key d) (Linked.path_target l' key d).
  Proof. revert l l'. induction d as [|d IH]; intros l l' H; [done|]. cbn. apply IH. by apply skel_child_key. Qed.
  Lemma skel_on_path (l : LinkedBetree T) (l' : LinkedBetree T') key d : skel l l' → addrs_on_path l key d = addrs_on_path l' key d.
  Proof.
    revert l l'. induction d as [|d IH]; intros l l' H; [done|]. cbn. rewrite (proj1 H).
    by rewrite (IH _ _ (skel_child_key _ _ key H)).
  Qed.
  Lemma skel_substitute (l : LinkedBetree T) (l' : LinkedBetree T') key d (r : LinkedBetree T) (r' : LinkedBetree T') pa : skel l l' → skel r r' →
    skel (Linked.path_substitute l key d r pa) (Linked.path_substitute l' key d r' pa).
  Proof.
    intros H Hr. revert l l' pa H. induction d as [|d IH]; intros l l' pa H; [done|]. destruct pa as [|a pa]; [done|].
    cbn. destruct (IH _ _ pa (skel_child_key _ _ key H)) as [E1 E2]. split; [done|]. cbn.
    by rewrite (skel_root_node _ _ H), E1, E2.
  Qed.
  Lemma skel_root_likes (l : LinkedBetree T) (l' : LinkedBetree T') : skel l l' → root_likes l = root_likes l'.
  Proof. by sk. Qed.
  Lemma skel_buffer_likes (l : LinkedBetree T) (l' : LinkedBetree T') m : skel l l' → buffer_likes l m = buffer_likes l' m.
  Proof. by sk. Qed.
  Lemma skel_tree_likes f (l : LinkedBetree T) (l' : LinkedBetree T') : skel l l' → tree_likes_upto f l = tree_likes_upto f l'.
  Proof.
    revert l l'. induction f as [|f IH]; intros l l' H; [done|]. cbn [tree_likes_upto]. pose proof H as [E1 E2]. rewrite E1, E2.
    destruct (lb_root l') as [a|]; [|done]. destruct (lb_dv l' !! a) as [n|]; [|done].
    assert (E : foldr (λ p acc, tree_likes_upto f (Linked.with_root l p) ⊎ acc) ∅ (LNode.children n) =
                foldr (λ p acc, tree_likes_upto f (Linked.with_root l' p) ⊎ acc) ∅ (LNode.children n)).
    { induction (LNode.children n) as [|p ps IHp]; [done|]. cbn [foldr]. rewrite IHp, (IH _ _ (skel_with_root _ _ p H)). done. }
    by rewrite E.
  Qed.
  Lemma skel_likes (l : LinkedBetree T) (l' : LinkedBetree T') tl bl : skel l l' → transitive_likes l tl bl ↔ transitive_likes l' tl bl.
  Proof.
    intros H. unfold transitive_likes, tree_likes. split; intros (r & Hr & E1 & E2); exists r.
    - assert (Hr' : Linked.valid_ranking l' r) by (clear -H Hr; revert Hr; revert H; by sk).
      split; [done|]. rewrite <- (skel_tree_likes _ _ _ H), <- (skel_buffer_likes _ _ _ H).
      split; [|done]. rewrite E1. unfold get_rank. destruct H as [-> ->]. done.
    - assert (Hr' : Linked.valid_ranking l r) by (clear -H Hr; revert Hr; revert H; by sk).
      split; [done|]. rewrite (skel_tree_likes _ _ _ H), (skel_buffer_likes _ _ _ H).
      split; [|done]. rewrite E1. unfold get_rank. destruct H as [-> ->]. done.
  Qed.
  Lemma skel_can_split (l : LinkedBetree T) (l' : LinkedBetree T') r : skel l l' → Linked.can_split_parent l r ↔ Linked.can_split_parent l' r.
  Proof. by sk. Qed.
  Lemma skel_can_flush (l : LinkedBetree T) (l' : LinkedBetree T') i gc : skel l l' → Linked.can_flush l i gc ↔ Linked.can_flush l' i gc.
  Proof. by sk. Qed.
  Lemma skel_replacement (l : LinkedBetree T) (l' : LinkedBetree T') key d (nd : Prop) s pa : skel l l' →
    Linked.valid_path_replacement l key d nd s pa ↔ Linked.valid_path_replacement l' key d nd s pa.
  Proof. intros H. unfold Linked.valid_path_replacement. by rewrite (skel_path_valid _ _ _ _ H). Qed.
  Lemma skel_view (l : LinkedBetree T) (l' : LinkedBetree T') (m : LinkedBetree T) (m' : LinkedBetree T') : skel l l' → skel m m' →
    Linked.valid_view l m → Linked.bd_agrees (lb_bdv m') (lb_bdv l') → Linked.valid_view l' m'.
  Proof.
    intros H Hm (H1 & H2 & H3 & _) H4. split; [by rewrite <- (skel_wf _ _ Hm)|]. destruct H as [<- <-], Hm as [<- <-]. done.
  Qed.
  Lemma skel_flush_buffers (l : LinkedBetree T) (l' : LinkedBetree T') i : skel l l' → Linked.flush_buffers l i = Linked.flush_buffers l' i.
  Proof. by sk. Qed.
  Lemma skel_grow (l : LinkedBetree T) (l' : LinkedBetree T') a : skel l l' → skel (Linked.grow l a) (Linked.grow l' a).
  Proof. by sk. Qed.
  Lemma skel_split (l : LinkedBetree T) (l' : LinkedBetree T') r na : skel l l' → skel (Linked.split_parent l r na) (Linked.split_parent l' r na).
  Proof. sk. unfold Linked.split_parent. destruct r; done. Qed.
  Lemma skel_flush (l : LinkedBetree T) (l' : LinkedBetree T') i gc na : skel l l' → skel (Linked.flush l i gc na) (Linked.flush l' i gc na).
  Proof. by sk. Qed.
  Lemma skel_push (l : LinkedBetree T) (l' : LinkedBetree T') x x' na : skel l l' → skel (Linked.push_memtable l x na) (Linked.push_memtable l' x' na).
  Proof. by sk. Qed.
  Lemma skel_compact (l : LinkedBetree T) (l' : LinkedBetree T') a b x x' na : skel l l' → skel (Linked.compact l a b x na) (Linked.compact l' a b x' na).
  Proof. by sk. Qed.
  Lemma skel_post_split (l : LinkedBetree T) (l' : LinkedBetree T') key d r na pa : skel l l' → skel (Linked.post_split l key d r na pa) (Linked.post_split l' key d r na pa).
  Proof. intros H. by apply skel_substitute, skel_split, skel_target. Qed.
  Lemma skel_post_flush (l : LinkedBetree T) (l' : LinkedBetree T') key d i gc na pa : skel l l' → skel (Linked.post_flush l key d i gc na pa) (Linked.post_flush l' key d i gc na pa).
  Proof. intros H. by apply skel_substitute, skel_flush, skel_target. Qed.
  Lemma skel_post_compact (l : LinkedBetree T) (l' : LinkedBetree T') key d a b x x' na pa : skel l l' →
    skel (Linked.post_compact l key d a b x na pa) (Linked.post_compact l' key d a b x' na pa).
  Proof. intros H. by apply skel_substitute, skel_compact, skel_target. Qed.

  (** The counts *)
  Lemma skel_flush_memtable_likes (l : LinkedBetree T) (l' : LinkedBetree T') (m : LinkedBetree T) (m' : LinkedBetree T') na x y : skel l l' → skel m m' →
    flush_memtable_au_likes l m na x y = flush_memtable_au_likes l' m' na x y.
  Proof. intros H Hm. unfold flush_memtable_au_likes. by rewrite (skel_root_likes _ _ H), (skel_root_likes _ _ Hm). Qed.
  Lemma skel_split_likes (l : LinkedBetree T) (l' : LinkedBetree T') key d r na pa x y : skel l l' →
    internal_split_au_likes l key d r na pa x y = internal_split_au_likes l' key d r na pa x y.
  Proof.
    intros H. unfold internal_split_au_likes, split_discard_betree, split_add_buffers. pose proof (skel_target _ _ key d H) as Ht.
    pose proof (skel_child_idx _ _ (request_child r) Ht) as Hc.
    by rewrite (skel_on_path _ _ _ _ H), (skel_root_likes _ _ Ht), (skel_root_likes _ _ Hc), (skel_buffer_likes _ _ _ Hc).
  Qed.
  Lemma skel_flush_likes (l : LinkedBetree T) (l' : LinkedBetree T') key d i gc na pa x y : skel l l' →
    internal_flush_au_likes l key d i gc na pa x y = internal_flush_au_likes l' key d i gc na pa x y.
  Proof.
    intros H. unfold internal_flush_au_likes, flush_discard_betree, flush_discard_buffers, flush_add_buffers.
    pose proof (skel_target _ _ key d H) as Ht. pose proof (skel_child_idx _ _ i Ht) as Hc.
    by rewrite (skel_on_path _ _ _ _ H), (skel_root_likes _ _ Ht), (skel_root_likes _ _ Hc), (skel_root_node _ _ Ht), (skel_flush_buffers _ _ i Ht).
  Qed.
  Lemma skel_compact_likes (l : LinkedBetree T) (l' : LinkedBetree T') key d a b na pa x y : skel l l' →
    internal_compact_complete_au_likes l key d a b na pa x y = internal_compact_complete_au_likes l' key d a b na pa x y.
  Proof.
    intros H. unfold internal_compact_complete_au_likes, compact_discard_betree, compact_discard_buffers.
    pose proof (skel_target _ _ key d H) as Ht.
    by rewrite (skel_on_path _ _ _ _ H), (skel_root_likes _ _ Ht), (skel_root_node _ _ Ht).
  Qed.

  (** References *)
  Lemma skel_node_live (l : LinkedBetree T) (l' : LinkedBetree T') a : skel l l' → node_live l a ↔ node_live l' a.
  Proof. by sk. Qed.
  Lemma skel_buffer_live (l : LinkedBetree T) (l' : LinkedBetree T') a : skel l l' → buffer_live l a ↔ buffer_live l' a.
  Proof. by sk. Qed.
  Lemma skel_reachable_buffer (l : LinkedBetree T) (l' : LinkedBetree T') a : skel l l' → Linked.reachable_buffer l a ↔ Linked.reachable_buffer l' a.
  Proof. by sk. Qed.
End Skel.
Lemma skel_sym {T T'} (l : LinkedBetree T) (l' : LinkedBetree T') : skel l l' → skel l' l.
Proof. intros [E1 E2]. split; congruence. Qed.
Lemma skel_trans {T T' T''} (l : LinkedBetree T) (l' : LinkedBetree T') (l'' : LinkedBetree T'') : skel l l' → skel l' l'' → skel l l''.
Proof. intros [E1 E2] [E3 E4]. split; congruence. Qed.

(** ** The buffers the operations leave in place *)
Lemma bdv_target {T} (l : LinkedBetree T) key d : lb_bdv (Linked.path_target l key d) = lb_bdv l.
Proof. revert l. induction d as [|d IH]; intros l; [done|]. cbn. by rewrite IH. Qed.
Lemma bdv_substitute {T} (l r : LinkedBetree T) key d pa : lb_bdv (Linked.path_substitute l key d r pa) = lb_bdv r.
Proof. destruct d, pa; done. Qed.
Lemma bdv_post_split {T} (l : LinkedBetree T) key d r na pa : lb_bdv (Linked.post_split l key d r na pa) = lb_bdv l.
Proof.
  unfold Linked.post_split. rewrite bdv_substitute. unfold Linked.split_parent.
  destruct r; cbn; apply bdv_target.
Qed.
Lemma bdv_post_flush {T} (l : LinkedBetree T) key d i gc na pa : lb_bdv (Linked.post_flush l key d i gc na pa) = lb_bdv l.
Proof. unfold Linked.post_flush. rewrite bdv_substitute. cbn. apply bdv_target. Qed.
Lemma bdv_post_compact {T} (l : LinkedBetree T) key d a b x na pa :
  lb_bdv (Linked.post_compact l key d a b x na pa) = <[addr2 na := x]> (lb_bdv l).
Proof. unfold Linked.post_compact. rewrite bdv_substitute. cbn. by rewrite bdv_target. Qed.

(** ** Receipts *)
Lemma query_all_eq {T T'} `{!Buffer T} `{!Buffer T'} (bd : gmap Address T) (bd' : gmap Address T') k bs :
  (∀ ba, ba ∈ bs → Linked.bd_query bd ba k = Linked.bd_query bd' ba k) →
  Linked.bd_query_all bd bs k = Linked.bd_query_all bd' bs k.
Proof.
  induction bs as [|a bs IH]; intros H; [done|]. cbn. rewrite (H a), IH; [done|intros; apply H; by right|left].
Qed.
Section Receipts.
  Context {T T' : Type} `{!Buffer T} `{!Buffer T'} (l : LinkedBetree T) (l' : LinkedBetree T').
  Hypothesis (Hsk : skel l l').
  Hypothesis (Hb : ∀ ba, Linked.reachable_buffer l ba → is_Some (lb_bdv l' !! ba)).
  Context (k : Key).
  Hypothesis (Hq : ∀ ba, Linked.reachable_buffer l ba → Linked.bd_query (lb_bdv l) ba k = Linked.bd_query (lb_bdv l') ba k).
  Lemma receipt_reach r : Linked.valid_for r l k → ∀ i x, Linked.rc_lines r !! i = Some x →
    ∀ ba, Linked.reachable_buffer (Linked.line_linked x) ba → Linked.reachable_buffer l ba.
  Proof using.
    clear Hsk Hb Hq. intros ((( _ & (l0 & H0 & E0) & Hst & _) & _ & Hch & _) & Er & Ek). subst l k.
    induction i as [|i IH]; intros x Hx ba Hr.
    - rewrite H0 in Hx. injection Hx as <-. by rewrite E0 in Hr.
    - assert (Hlt : S i < length (Linked.rc_lines r)) by by eapply lookup_lt_Some.
      destruct (lookup_lt_is_Some_2 (Linked.rc_lines r) i) as [y Hy]; [lia|].
      apply (IH y Hy). destruct (Hst _ _ Hx) as (Ed & _). destruct (Hst _ _ Hy) as (Edy & _ & Hroot).
      destruct (proj2 Hroot) as (n & a & Ea & Hn); [lia|].
      pose proof (Hch i ltac:(lia) y x Hy Hx) as Hc. destruct Hr as (b & m & Hre & Hm & Hba).
      exists b, m. rewrite Edy, <- Ed. split; [|done]. rewrite Ea.
      assert (En : Linked.root_node (Linked.line_linked y) = n) by (unfold Linked.root_node; by rewrite Ea, Hn).
      rewrite En in Hc. unfold LNode.child_ptr, LNode.child_at in Hc. rewrite Hc in Hre. rewrite Edy, <- Ed in Hn.
      destruct (LNode.children n !! route_idx (LNode.pivots n) (Linked.rc_key r)) as [q|] eqn:Eq.
      + rewrite (nth_lookup_Some _ _ _ _ Eq) in Hre. by eapply Linked.reach_child.
      + rewrite nth_overflow in Hre by by apply lookup_ge_None_1. inversion Hre.
  Qed.
  Definition to_line (x : Linked.Line (T:=T)) : Linked.Line (T:=T') :=
    Linked.mkLine (mkLB (lb_root (Linked.line_linked x)) (lb_dv (Linked.line_linked x)) (lb_bdv l')) (Linked.line_result x).
  Lemma line_skel x : skel (Linked.line_linked x) (Linked.line_linked (to_line x)).
  Proof using. done. Qed.
  Lemma receipt_other m : (∃ r, Linked.valid_for r l k ∧ Linked.receipt_result r m) →
    ∃ r, Linked.valid_for r l' k ∧ Linked.receipt_result r m.
  Proof using Hsk Hb Hq.
    intros (r & Hv & Hres). pose proof (receipt_reach r Hv) as Hre.
    destruct Hv as (((Hw & (l0 & H0 & E0) & Hst & (ll & Hll & Ell)) & (Ha1 & Ha2) & Hch & Hrl) & Er & Ek). subst k.
    assert (Hlk : ∀ i x', (to_line <$> Linked.rc_lines r) !! i = Some x' → ∃ x, Linked.rc_lines r !! i = Some x ∧ x' = to_line x).
    { intros i x'. rewrite list_lookup_fmap. intros (x & Hx & ->)%fmap_Some. by exists x. }
    assert (Hn : ∀ i x, i < length (Linked.rc_lines r) - 1 → Linked.rc_lines r !! i = Some x →
      ∀ ba, ba ∈ LNode.buffers (Linked.root_node (Linked.line_linked x)) → Linked.reachable_buffer l ba).
    { intros i x Hi Hx ba Hba. apply (Hre i x Hx). destruct (Hst _ _ Hx) as (_ & _ & Hroot).
      destruct (proj2 Hroot Hi) as (n & a & Ea & Hn).
      assert (En : Linked.root_node (Linked.line_linked x) = n) by (unfold Linked.root_node; by rewrite Ea, Hn).
      rewrite En in Hba. exists a, n. split; [|done]. rewrite Ea. by eapply Linked.reach_here. }
    exists (Linked.mkReceipt (Linked.rc_key r) l' (to_line <$> Linked.rc_lines r)). split; [split; [|done]|].
    - split; [|split; [|split]].
      + unfold Linked.structure. cbn [Linked.rc_linked Linked.rc_lines]. rewrite fmap_length.
        split; [rewrite <- (skel_wf _ _ Hsk), <- Er; done|]. split; [|split].
        * exists (to_line l0). rewrite list_lookup_fmap, H0. split; [done|]. unfold to_line. cbn. rewrite E0, Er.
          destruct Hsk as [-> ->]. by destruct l'.
        * intros i x' (x & Hx & ->)%Hlk. destruct (Hst _ _ Hx) as (E1 & _ & E2). cbn [to_line Linked.line_linked lb_dv lb_bdv].
          split; [rewrite E1, Er; apply Hsk|]. split; [done|]. by rewrite <- (skel_has_root _ _ (line_skel x)).
        * exists (to_line ll). by rewrite list_lookup_fmap, Hll.
      + unfold Linked.all_lines_wf. cbn [Linked.rc_linked Linked.rc_lines Linked.rc_key]. rewrite fmap_length. split.
        * intros i x' (x & Hx & ->)%Hlk. destruct (Ha1 _ _ Hx) as [H1 H2]. split; [done|]. by rewrite <- (skel_acyclic _ _ (line_skel x)).
        * intros i x' Hi (x & Hx & ->)%Hlk. destruct (Ha2 _ _ Hi Hx) as [H1 H2]. rewrite <- (skel_root_node _ _ (line_skel x)).
          split; [|done]. intros ba Hba. apply Hb. by eapply Hn.
      + cbn [Linked.rc_lines]. rewrite fmap_length. intros i Hi y y' Hy Hy'.
        cbn [Linked.rc_lines] in Hy, Hy'. apply Hlk in Hy as (x & Hx & ->). apply Hlk in Hy' as (x' & Hx' & ->).
        cbn [Linked.rc_key]. rewrite <- (skel_root_node _ _ (line_skel x)). exact (Hch i Hi x x' Hx Hx').
      + cbn [Linked.rc_lines]. rewrite fmap_length. intros i Hi y y' Hy Hy'.
        cbn [Linked.rc_lines] in Hy, Hy'. apply Hlk in Hy as (x & Hx & ->). apply Hlk in Hy' as (x' & Hx' & ->).
        cbn [Linked.rc_key Linked.rc_linked]. rewrite <- (skel_root_node _ _ (line_skel x)). cbn [to_line Linked.line_result].
        cbv zeta. rewrite (Hrl i Hi x x' Hx Hx'). f_equal. rewrite Er. unfold Linked.bd_query_from. apply query_all_eq.
        intros ba Hba. apply Hq. eapply (Hn i x Hi Hx).
        rewrite <- (take_drop (LNode.flushed_ofs (Linked.root_node (Linked.line_linked x)) (Linked.rc_key r)) (LNode.buffers _)).
        apply elem_of_app. by right.
    - destruct Hres as (y & Hy & Ey). exists (to_line y). cbn [Linked.rc_lines]. by rewrite list_lookup_fmap, Hy.
  Qed.
End Receipts.
