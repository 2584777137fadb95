(** The counts computed from a disk are the references of its tree, and how each
    operation of the linked be-tree changes them (C37). *)
From Verif Require Import Spec_Model Abs_Model Betree_Model LinkedBetree_Model LikesBetree_Model LikesBetree_Spec LikesTree_Proof.
From Coq Require Import ZifyBool ZifyNat ZifyN Lia.
Implicit Types (dv : gmap Address LNode.t) (p : option Address) (t : atree) (a b : Address).
Notation nodes := (refs onode).
Notation bufs := (refs obufs).
Notation refs_all own cs := (foldr (λ c acc, refs own c ⊎ acc) ∅ cs).

Section Ops.
  Context {T : Type}.
  Implicit Types l r : LinkedBetree T.
  Notation lunf l t := (unf (lb_dv l) (lb_root l) t).

  (** ** Trees exist and are counted by the code's functions *)
  Lemma unf_ranked dv (rk : gmap Address nat) : nd_valid_ranking dv rk →
    ∀ f p, nd_nondangling dv p → (∀ a, p = Some a → ∃ x, rk !! a = Some x ∧ x < f) → ∃ t, unf dv p t.
  Proof.
    intros [Hw Hr]. induction f as [|f IH]; intros [a|] Hd Hp.
    - destruct (Hp a eq_refl) as (x&_&?). lia.
    - exists ANil. constructor.
    - destruct (Hp a eq_refl) as (x&Hx&Hlt). destruct (Hd a eq_refl) as [n Hn].
      pose proof (Hr a n Hn (mk_is_Some _ _ Hx)) as Hc. destruct (proj2 Hw _ _ Hn) as [Hnd _].
      assert (∃ cs, Forall2 (unf dv) (LNode.children n) cs) as [cs Hcs].
      { assert (Hall : Forall (λ q, ∃ t, unf dv q t) (LNode.children n)).
        { apply stdpp.list.Forall_forall. intros q [i Hq]%elem_of_list_lookup. apply IH; [by eapply Hnd|].
          intros c ->. destruct (Hc i c x Hq Hx) as (rc&?&?). exists rc. split; [done|lia]. }
        clear -Hall. induction Hall as [|q qs [t Ht] _ [cs Hcs]]; [exists []; constructor|]. exists (t :: cs). by constructor. }
      exists (ANode a n cs). by constructor.
    - exists ANil. constructor.
  Qed.
  Lemma unf_exists l : Linked.acyclic l → ∃ t, lunf l t.
  Proof.
    intros [[Hw Hd] (rk&_&Hr&Hrt)]. eapply (unf_ranked _ rk Hr (S (match lb_root l with Some a => default 0 (rk !! a) | None => 0 end))); [done|].
    intros a Ha. rewrite Ha. destruct (Hd a Ha) as [n Hn]. destruct (Hrt) with a as [x Hx]; [by exists n, a|done|].
    rewrite Hx. exists x. split; [done|simpl; lia].
  Qed.
  Lemma tree_likes_upto_unf l rk t : nd_valid_ranking (lb_dv l) rk →
    ∀ f p, (∀ a x, p = Some a → rk !! a = Some x → x < f) → (∀ a, p = Some a → is_Some (rk !! a)) →
    unf (lb_dv l) p t → tree_likes_upto f (Linked.with_root l p) = nodes t.
  Proof.
    intros [Hw Hr]. induction t as [|a n cs IH] using atree_rec'; intros f p Hlt Hin Hu; inversion Hu as [|? ? ? Hn Hc]; subst.
    { by destruct f. }
    destruct (Hin a eq_refl) as [x Hx]. pose proof (Hlt a x eq_refl Hx). destruct f as [|f]; [lia|].
    cbn [tree_likes_upto Linked.with_root lb_root lb_dv refs]. rewrite Hn. f_equal.
    { unfold onode, to_likes. rewrite list_to_set_disj_cons, list_to_set_disj_nil. multiset_solver. }
    pose proof (Hr a n Hn (mk_is_Some _ _ Hx)) as Hrk.
    assert (Hall : Forall (λ q, ∀ c, q = Some c → ∃ y, rk !! c = Some y ∧ y < f) (LNode.children n)).
    { apply stdpp.list.Forall_forall. intros q [i Hq]%elem_of_list_lookup c ->.
      destruct (Hrk i c x Hq Hx) as (rc&?&?). exists rc. split; [done|lia]. }
    clear Hrk Hn Hu Hlt Hin. induction Hc as [|q c qs cs Hqc Hc IHc]; [done|].
    inversion_clear IH as [|?? IH1 IH2]. inversion_clear Hall as [|?? Ha1 Ha2]. cbn [foldr].
    change (Linked.with_root (Linked.with_root l (Some a)) q) with (Linked.with_root l q).
    f_equal; [|by apply IHc]. apply IH1; [| |done].
    - intros b y -> Hy. destruct (Ha1 b eq_refl) as (z&Hz&?). congruence.
    - intros b ->. destruct (Ha1 b eq_refl) as (z&Hz&?). by exists z.
  Qed.
  Lemma tree_likes_unf l rk t : Linked.valid_ranking l rk → lunf l t → tree_likes l rk = nodes t.
  Proof.
    intros ((Hw&Hd)&Hr&Hrt) Hu. unfold tree_likes.
    replace l with (Linked.with_root l (lb_root l)) at 2 by by destruct l.
    apply (tree_likes_upto_unf l rk); [done| | |done].
    - intros a x Ha Hx. unfold get_rank. rewrite Ha. destruct (Hd a Ha) as [n Hn]. rewrite Hn, Hx. lia.
    - intros a Ha. destruct (Hd a Ha) as [n Hn]. apply Hrt; [by exists n, a|done].
  Qed.
  Lemma buffer_likes_disj l X Y : buffer_likes l (X ⊎ Y) = buffer_likes l X ⊎ buffer_likes l Y.
  Proof.
    set (g := λ a, match lb_dv l !! a with Some n => to_likes (LNode.buffers n) | None => ∅ end).
    assert (Hp : ∀ L M : list Address, L ≡ₚ M → foldr (λ a acc, g a ⊎ acc) ∅ L = foldr (λ a acc, g a ⊎ acc) ∅ M).
    { induction 1; cbn [foldr]; [done|congruence|multiset_solver|congruence]. }
    assert (Ha : ∀ L M : list Address, foldr (λ a acc, g a ⊎ acc) ∅ (L ++ M) = foldr (λ a acc, g a ⊎ acc) ∅ L ⊎ foldr (λ a acc, g a ⊎ acc) ∅ M).
    { intros L M. induction L as [|x L IH]; cbn [app foldr]; [multiset_solver|]. rewrite IH. multiset_solver. }
    change (foldr (λ a acc, g a ⊎ acc) ∅ (elements (X ⊎ Y)) =
      foldr (λ a acc, g a ⊎ acc) ∅ (elements X) ⊎ foldr (λ a acc, g a ⊎ acc) ∅ (elements Y)).
    rewrite (Hp _ _ (gmultiset_elements_disj_union X Y)). apply Ha.
  Qed.
  Lemma buffer_likes_empty l : buffer_likes l ∅ = ∅.
  Proof. unfold buffer_likes. by rewrite gmultiset_elements_empty. Qed.
  Lemma buffer_likes_one l a n : lb_dv l !! a = Some n → buffer_likes l {[+ a +]} = to_likes (LNode.buffers n).
  Proof.
    intros Hn. unfold buffer_likes. rewrite gmultiset_elements_singleton. cbn [foldr]. rewrite Hn. multiset_solver.
  Qed.
  Lemma buffer_likes_unf l p t : unf (lb_dv l) p t → buffer_likes l (nodes t) = bufs t.
  Proof.
    revert p. induction t as [|a n cs IH] using atree_rec'; intros p Hu; inversion Hu as [|? ? ? Hn Hc]; subst.
    { apply buffer_likes_empty. }
    cbn [refs]. rewrite buffer_likes_disj. f_equal.
    { unfold onode, to_likes at 1. rewrite list_to_set_disj_cons, list_to_set_disj_nil.
      replace ({[+ a +]} ⊎ ∅ : gmultiset Address) with ({[+ a +]} : gmultiset Address) by multiset_solver. by apply buffer_likes_one. }
    clear Hn Hu. induction Hc as [|q c qs cs Hqc Hc IHc]; [apply buffer_likes_empty|].
    inversion_clear IH as [|?? IH1 IH2]. cbn [foldr]. rewrite buffer_likes_disj. f_equal; [by eapply IH1|by apply IHc].
  Qed.
  Lemma transitive_unf l tl bl t : transitive_likes l tl bl → lunf l t → tl = nodes t ∧ bl = bufs t.
  Proof.
    intros (rk&Hr&->&->) Hu. rewrite (tree_likes_unf _ _ _ Hr Hu). split; [done|]. by eapply buffer_likes_unf.
  Qed.
  (** The pages of the tree are the ones reachable from its root. *)
  Lemma leads_reach dv p a : Linked.reachable_node dv p a ↔ ∃ is, leads dv p is a.
  Proof.
    split.
    - induction 1 as [a n Hn|a n i q b Hn Hq _ [is His]]; [exists []; by econstructor|]. exists (i :: is). by econstructor.
    - intros [is H]. induction H; [by eapply Linked.reach_here|by eapply Linked.reach_child].
  Qed.
  Lemma nodes_elem dv p t a : unf dv p t → a ∈ nodes t ↔ Linked.reachable_node dv p a.
  Proof.
    intros Hu. rewrite (refs_elem _ _ _ _ _ Hu), leads_reach. split.
    - intros ([is j]&b&n&Hl&Hn&Ho). exists is. unfold onode in Ho. destruct j as [|j]; [|done]. by injection Ho as <-.
    - intros [is Hl]. assert (∃ n, dv !! a = Some n) as [n Hn] by (clear -Hl; induction Hl; eauto).
      exists (is, 0), a, n. done.
  Qed.
  Lemma bufs_elem l t ba : lunf l t → ba ∈ bufs t ↔ Linked.reachable_buffer l ba.
  Proof.
    intros Hu. rewrite (refs_elem _ _ _ _ _ Hu). unfold Linked.reachable_buffer. split.
    - intros ([is j]&a&n&Hl&Hn&Ho). exists a, n. split; [apply leads_reach; by exists is|]. split; [done|].
      by eapply elem_of_list_lookup_2.
    - intros (a&n&Hr&Hn&[j Hj]%elem_of_list_lookup). apply leads_reach in Hr as [is Hl]. exists (is, j), a, n. done.
  Qed.
  Lemma unf_nodes_dom dv p t a : unf dv p t → a ∈ nodes t → a ∈ dom dv.
  Proof.
    intros Hu Hr. apply (nodes_elem _ _ _ _ Hu) in Hr. apply elem_of_dom.
    clear Hu. induction Hr; [by eexists|done].
  Qed.
  Lemma view_unf l l' t : Linked.valid_view l l' → lunf l t → lunf l' t.
  Proof.
    intros ((Hw&Hd)&E&Hs&_) Hu. rewrite E in Hu. by eapply unf_shrink.
  Qed.

  (** ** Operations: the references they take away and add *)
  Definition change t t' (D A bD bA : gmultiset Address) : Prop :=
    ∃ R bR, nodes t = R ⊎ D ∧ nodes t' = R ⊎ A ∧ bufs t = bR ⊎ bD ∧ bufs t' = bR ⊎ bA.
  Lemma own_node a n : to_likes (onode a n) = {[+ a +]}.
  Proof. unfold onode, to_likes. rewrite list_to_set_disj_cons, list_to_set_disj_nil. multiset_solver. Qed.
  Lemma root_likes_node l a n : lb_root l = Some a → lb_dv l !! a = Some n → root_likes l = {[+ a +]}.
  Proof. intros E Hn. unfold root_likes. by rewrite E, Hn. Qed.
  Lemma lunf_root l t : lunf l t → Linked.has_root l →
    ∃ a n cs, lb_root l = Some a ∧ lb_dv l !! a = Some n ∧ Linked.root_node l = n ∧ t = ANode a n cs ∧
      Forall2 (unf (lb_dv l)) (LNode.children n) cs ∧ root_likes l = {[+ a +]}.
  Proof.
    intros Hu (n&a&E&Hn). rewrite E in Hu. destruct (unf_Some _ _ _ _ Hn Hu) as (cs&->&Hc).
    exists a, n, cs. split; [done|]. split; [done|]. split; [unfold Linked.root_node; by rewrite E, Hn|].
    split; [done|]. split; [done|]. by eapply root_likes_node.
  Qed.

  Lemma push_change l sealed na t : lunf l t → Linked.wf l → addr1 na ∉ dom (lb_dv l) →
    ∃ t', lunf (Linked.push_memtable l sealed na) t' ∧
      change t t' (root_likes l) {[+ addr1 na +]} ∅ {[+ addr2 na +]}.
  Proof.
    intros Hu Hw Hf. apply not_elem_of_dom in Hf. unfold Linked.push_memtable. cbn [lb_root lb_dv].
    assert (Hsub : ∀ n, lb_dv l ⊆ <[addr1 na := n]> (lb_dv l)) by (intros n; by apply insert_subseteq).
    destruct (lb_root l) as [a|] eqn:E.
    - destruct (proj2 Hw a E) as [n Hn]. rewrite Hn. cbn [default]. destruct (unf_Some _ _ _ _ Hn Hu) as (cs&->&Hc).
      set (n' := LNode.extend_buffer_seq n [addr2 na]). exists (ANode (addr1 na) n' cs). split.
      { constructor; [apply lookup_insert|]. eapply unf_mono_all; [apply Hsub|exact Hc]. }
      exists (refs_all onode cs), (bufs (ANode a n cs)). cbn [refs]. rewrite (root_likes_node _ _ _ E Hn), !own_node.
      split; [multiset_solver|]. split; [multiset_solver|]. split; [multiset_solver|].
      unfold obufs, to_likes at 1. cbn [LNode.buffers n' LNode.extend_buffer_seq]. rewrite list_to_set_disj_app, list_to_set_disj_cons, list_to_set_disj_nil.
      unfold to_likes. multiset_solver.
    - apply unf_None in Hu as ->. set (n' := LNode.extend_buffer_seq (LNode.empty_root total_domain) [addr2 na]).
      exists (ANode (addr1 na) n' [ANil]). split.
      { constructor; [apply lookup_insert|]. repeat constructor. }
      exists ∅, ∅. cbn [refs foldr]. unfold root_likes. rewrite E, own_node. unfold obufs, to_likes. cbn [LNode.buffers n' LNode.extend_buffer_seq LNode.empty_root app].
      rewrite list_to_set_disj_cons, list_to_set_disj_nil.
      split; [multiset_solver|]. split; [multiset_solver|]. split; [multiset_solver|]. multiset_solver.
  Qed.
  Lemma grow_change l a t : lunf l t → a ∉ dom (lb_dv l) →
    ∃ t', lunf (Linked.grow l a) t' ∧ change t t' ∅ {[+ a +]} ∅ ∅.
  Proof.
    intros Hu Hf. apply not_elem_of_dom in Hf. eexists (ANode a _ [t]). split.
    { unfold Linked.grow. cbn [lb_root lb_dv]. constructor; [apply lookup_insert|]. cbn [LNode.children]. constructor; [|constructor].
      eapply unf_mono; [by apply insert_subseteq|done]. }
    exists (nodes t), (bufs t). cbn [refs foldr]. rewrite own_node. unfold obufs, to_likes. cbn [LNode.buffers].
    rewrite list_to_set_disj_nil. repeat split; multiset_solver.
  Qed.
  (** One child replaced. *)
  Lemma child_lookup n cs dv i c m : Forall2 (unf dv) (LNode.children n) cs → LNode.children n !! i = Some (Some c) → dv !! c = Some m →
    ∃ ds, cs !! i = Some (ANode c m ds) ∧ Forall2 (unf dv) (LNode.children m) ds.
  Proof.
    intros Hc Hi Hm. destruct (Forall2_lookup_l _ _ _ _ _ Hc Hi) as (t&Ht&Hu).
    destruct (unf_Some _ _ _ _ Hm Hu) as (ds&->&Hds). eauto.
  Qed.
  Lemma child_root l t i : lunf l t → Linked.has_root l → i < length (LNode.children (Linked.root_node l)) →
    Linked.has_root (Linked.child_at_idx l i) →
    ∃ c m, LNode.children (Linked.root_node l) !! i = Some (Some c) ∧ lb_dv l !! c = Some m ∧
      Linked.root_node (Linked.child_at_idx l i) = m ∧ root_likes (Linked.child_at_idx l i) = {[+ c +]}.
  Proof.
    intros Hu Hh Hi (m&c&E&Hm). cbn [Linked.child_at_idx Linked.with_root lb_root lb_dv] in E, Hm.
    unfold LNode.child_at in E. exists c, m.
    destruct (lookup_lt_is_Some_2 _ _ Hi) as [q Hq]. rewrite (nth_lookup_Some _ _ _ _ Hq) in E. subst q.
    split; [done|]. split; [done|]. unfold Linked.root_node at 1, root_likes, Linked.child_at_idx, LNode.child_at.
    cbn [Linked.with_root lb_root lb_dv]. rewrite (nth_lookup_Some _ _ _ _ Hq), Hm. done.
  Qed.
  Lemma flush_change l i gc na t : lunf l t → Linked.can_flush l i gc → Linked.wf l → two_no_dup na →
    addr1 na ∉ dom (lb_dv l) → addr2 na ∉ dom (lb_dv l) →
    ∃ t', lunf (Linked.flush l i gc na) t' ∧
      change t t' (root_likes l ⊎ root_likes (Linked.child_at_idx l i)) (two_likes na)
        (to_likes (subrange (LNode.buffers (Linked.root_node l)) 0 gc)) (to_likes (Linked.flush_buffers l i)).
  Proof.
    intros Hu (_&Hh&(Hi&Hoc)&_) Hw Hd H1%not_elem_of_dom H2%not_elem_of_dom.
    assert (Hch : Linked.has_root (Linked.child_at_idx l i)).
    { unfold LNode.child_at in Hoc. destruct (lookup_lt_is_Some_2 _ _ Hi) as [q Hq].
      rewrite (nth_lookup_Some _ _ _ _ Hq) in Hoc. destruct q as [c|]; [|done].
      destruct (lunf_root _ _ Hu Hh) as (a&n&cs&E&Hn&En&_). rewrite En in Hq. destruct Hw as [[_ Hw] _].
      destruct (proj1 (Hw _ _ Hn) i _ Hq c eq_refl) as [m Hm]. exists m, c. cbn. unfold LNode.child_at.
      rewrite En, (nth_lookup_Some _ _ _ _ Hq). done. }
    destruct (child_root _ _ _ Hu Hh Hi Hch) as (c&m&Hic&Hm&Em&->).
    destruct (lunf_root _ _ Hu Hh) as (a&n&cs&E&Hn&En&->&Hc&->). 
    unfold Linked.flush_buffers, Linked.flush. rewrite Em. unfold Linked.flush_buffers. rewrite En in *. cbn [lb_root lb_dv].
    destruct (child_lookup _ _ _ _ _ _ Hc Hic Hm) as (ds&Hds&Hcd).
    set (n' := LNode.mk _ _ _ _). set (m' := LNode.extend_buffer_seq m _).
    assert (Hsub : lb_dv l ⊆ <[addr2 na := m']> (<[addr1 na := n']> (lb_dv l))).
    { etransitivity; [by apply (insert_subseteq _ (addr1 na) n')|]. apply insert_subseteq. by rewrite lookup_insert_ne. }
    exists (ANode (addr1 na) n' (<[i := ANode (addr2 na) m' ds]> cs)). split.
    { constructor; [rewrite lookup_insert_ne by done; apply lookup_insert|]. cbn [LNode.children n'].
      apply Forall2_insert; [by eapply unf_mono_all|]. constructor; [apply lookup_insert|]. by eapply unf_mono_all. }
    destruct (refs_split onode cs i _ Hds) as (R&ER&ER'). destruct (refs_split obufs cs i _ Hds) as (S&ES&ES').
    exists (R ⊎ refs_all onode ds),
      (S ⊎ to_likes (LNode.buffers m) ⊎ refs_all obufs ds ⊎ to_likes (subrange (LNode.buffers n) gc (length (LNode.buffers n)))).
    cbn [refs]. rewrite ER, ER', ES, ES'. cbn [refs]. rewrite !own_node. unfold obufs. cbn [LNode.buffers n' m' LNode.extend_buffer_seq].
    unfold two_likes. split; [multiset_solver|]. split; [multiset_solver|]. split.
    - replace (to_likes (LNode.buffers n)) with (to_likes (subrange (LNode.buffers n) 0 gc) ⊎ to_likes (subrange (LNode.buffers n) gc (length (LNode.buffers n)))); [multiset_solver|].
      unfold to_likes. rewrite <-list_to_set_disj_app. f_equal. unfold subrange. rewrite drop_0, Nat.sub_0_r.
      rewrite (take_ge (drop gc _)) by (rewrite drop_length; lia). apply take_drop.
    - unfold to_likes. rewrite list_to_set_disj_app. multiset_solver.
  Qed.
  Lemma compact_change l (a b : nat) cb na t : lunf l t → Linked.has_root l → a < b ≤ length (LNode.buffers (Linked.root_node l)) →
    addr1 na ∉ dom (lb_dv l) →
    ∃ t', lunf (Linked.compact l a b cb na) t' ∧
      change t t' (root_likes l) {[+ addr1 na +]}
        (to_likes (subrange (LNode.buffers (Linked.root_node l)) a b)) {[+ addr2 na +]}.
  Proof.
    intros Hu Hh Hab H1%not_elem_of_dom. destruct (lunf_root _ _ Hu Hh) as (x&n&cs&E&Hn&En&->&Hc&->).
    unfold Linked.compact. rewrite En in *. cbn [lb_root lb_dv]. set (n' := LNode.mk _ _ _ _).
    exists (ANode (addr1 na) n' cs). split.
    { constructor; [apply lookup_insert|]. cbn [LNode.children n']. eapply unf_mono_all; [by apply insert_subseteq|done]. }
    exists (refs_all onode cs), (refs_all obufs cs ⊎ to_likes (subrange (LNode.buffers n) 0 a) ⊎ to_likes (subrange (LNode.buffers n) b (length (LNode.buffers n)))).
    cbn [refs]. rewrite !own_node. unfold obufs. cbn [LNode.buffers n']. split; [multiset_solver|]. split; [multiset_solver|]. split.
    - replace (to_likes (LNode.buffers n)) with (to_likes (subrange (LNode.buffers n) 0 a) ⊎ (to_likes (subrange (LNode.buffers n) a b) ⊎ to_likes (subrange (LNode.buffers n) b (length (LNode.buffers n))))); [multiset_solver|].
      unfold to_likes. rewrite <-!list_to_set_disj_app. f_equal. unfold subrange. rewrite drop_0, Nat.sub_0_r.
      rewrite (take_ge (drop b _)) by (rewrite drop_length; lia).
      replace (drop b (LNode.buffers n)) with (drop (b - a) (drop a (LNode.buffers n))) by (rewrite drop_drop; f_equal; lia).
      rewrite take_drop. apply take_drop.
    - unfold ls_update_subrange, to_likes. rewrite !list_to_set_disj_app. cbn [app]. rewrite list_to_set_disj_cons, list_to_set_disj_nil. multiset_solver.
  Qed.
  Lemma split_change l rq na t : lunf l t → Linked.can_split_parent l rq → split_no_dup na →
    split_repr na ## dom (lb_dv l) →
    ∃ t', lunf (Linked.split_parent l rq na) t' ∧
      change t t' (root_likes l ⊎ root_likes (Linked.child_at_idx l (request_child rq))) (split_likes na)
        ∅ (buffer_likes (Linked.child_at_idx l (request_child rq)) (root_likes (Linked.child_at_idx l (request_child rq)))).
  Proof.
    intros Hu (_&Hh&Hi&Hch&Hsp) (Hd1&Hd2&Hd3) Hf.
    assert (H1 : lb_dv l !! sa_left na = None) by (apply not_elem_of_dom; unfold split_repr in Hf; set_solver).
    assert (H2 : lb_dv l !! sa_right na = None) by (apply not_elem_of_dom; unfold split_repr in Hf; set_solver).
    assert (H3 : lb_dv l !! sa_parent na = None) by (apply not_elem_of_dom; unfold split_repr in Hf; set_solver).
    destruct (child_root _ _ _ Hu Hh Hi Hch) as (c&m&Hic&Hm&Em&Hrl). rewrite Hrl.
    destruct (lunf_root _ _ Hu Hh) as (x&n&cs&E&Hn&En&->&Hc&->). rewrite En in *.
    rewrite (buffer_likes_one (Linked.child_at_idx l (request_child rq)) c m Hm).
    destruct (child_lookup _ _ _ _ _ _ Hc Hic Hm) as (ds&Hds&Hcd).
    set (i := request_child rq) in *.
    assert (∃ nl nr e dl dr, Linked.split_parent l rq na =
       mkLB (Some (sa_parent na))
         (<[sa_parent na := LNode.mk (LNode.buffers n) (pt_insert (LNode.pivots n) (i + 1) e)
              (seq_insert (<[i := Some (sa_left na)]> (LNode.children n)) (i + 1) (Some (sa_right na))) (ofs_dup (LNode.flushed n) i)]>
           (<[sa_right na := nr]> (<[sa_left na := nl]> (lb_dv l)))) (lb_bdv l) ∧
       LNode.buffers nl = LNode.buffers m ∧ LNode.buffers nr = LNode.buffers m ∧
       Forall2 (unf (lb_dv l)) (LNode.children nl) dl ∧ Forall2 (unf (lb_dv l)) (LNode.children nr) dr ∧
       ∀ own, refs_all own dl ⊎ refs_all own dr = refs_all own ds) as (nl&nr&e&dl&dr&->&Hbl&Hbr&Hl&Hr&Hsum).
    { destruct rq as [j k|j k]; cbn [request_child] in i; subst i.
      - destruct Hsp as (_&(Hlf&_)&_). cbn [request_child] in *. rewrite Em in Hlf.
        exists (LNode.split_leaf m k).1, (LNode.split_leaf m k).2, (to_element k), ds, [ANil].
        unfold Linked.split_parent. rewrite Em, En. split; [done|]. split; [done|]. split; [done|]. split; [done|].
        rewrite Hlf in Hcd. split; [cbn; rewrite Hlf; repeat constructor|].
        inversion Hcd as [|? ? ? ? Hz Hzs]; subst. inversion Hzs; subst. inversion Hz; subst. intros own. cbn. multiset_solver.
      - cbn [request_child] in *. exists (LNode.split_index m k).1, (LNode.split_index m k).2, (pivot_at (LNode.pivots m) k), (take k ds), (drop k ds).
        unfold Linked.split_parent. rewrite Em, En. split; [done|]. split; [done|]. split; [done|].
        unfold LNode.split_index, subrange. cbn [fst snd LNode.children]. rewrite drop_0, Nat.sub_0_r.
        rewrite (take_ge (drop k _)) by (rewrite drop_length; lia).
        split; [by apply Forall2_take|]. split; [by apply Forall2_drop|]. intros own. by rewrite <-refs_app, take_drop. }
    cbn [lb_root lb_dv]. set (n' := LNode.mk _ _ _ _). set (dv1 := <[sa_right na := nr]> (<[sa_left na := nl]> (lb_dv l))).
    assert (Hs1 : lb_dv l ⊆ dv1).
    { etransitivity; [by apply (insert_subseteq _ (sa_left na) nl)|]. apply insert_subseteq. by rewrite lookup_insert_ne. }
    assert (Hs2 : dv1 ⊆ <[sa_parent na := n']> dv1).
    { apply insert_subseteq. unfold dv1. by rewrite !lookup_insert_ne. }
    assert (Hil : i < length cs) by (by apply lookup_lt_Some in Hds).
    exists (ANode (sa_parent na) n' (seq_insert (<[i := ANode (sa_left na) nl dl]> cs) (i + 1) (ANode (sa_right na) nr dr))). split.
    { constructor; [apply lookup_insert|]. cbn [LNode.children n']. unfold seq_insert.
      assert (Hins : Forall2 (unf (<[sa_parent na:=n']> dv1)) (<[i:=Some (sa_left na)]> (LNode.children n)) (<[i:=ANode (sa_left na) nl dl]> cs)).
      { apply Forall2_insert; [eapply unf_mono_all; [|exact Hc]; by etransitivity|].
        constructor.
        - rewrite lookup_insert_ne by done. unfold dv1. rewrite lookup_insert_ne by done. apply lookup_insert.
        - eapply unf_mono_all; [|exact Hl]. by etransitivity. }
      apply Forall2_app; [by apply Forall2_take|]. constructor; [|by apply Forall2_drop].
      constructor.
      - rewrite lookup_insert_ne by done. apply lookup_insert.
      - eapply unf_mono_all; [|exact Hr]. by etransitivity. }
    assert (Hsi : ∀ own L i (x : atree), refs_all own (seq_insert L i x) = refs_all own L ⊎ refs own x).
    { intros own L j y. unfold seq_insert. rewrite refs_app. cbn [foldr].
      rewrite <-(take_drop j L) at 3. rewrite refs_app. multiset_solver. }
    destruct (refs_split onode cs i _ Hds) as (R&ER&ER'). destruct (refs_split obufs cs i _ Hds) as (S&ES&ES').
    exists (R ⊎ refs_all onode ds), (S ⊎ to_likes (LNode.buffers n) ⊎ to_likes (LNode.buffers m) ⊎ refs_all obufs ds).
    cbn [refs]. rewrite !Hsi, ER, ER', ES, ES'. cbn [refs]. rewrite !own_node, <-!Hsum. unfold obufs at 1 4 7 8 9.
    cbn [LNode.buffers n']. rewrite ?Hbl, ?Hbr. unfold split_likes, obufs. rewrite ?Hbl, ?Hbr.
    split; [multiset_solver|]. split; [multiset_solver|]. split; [multiset_solver|]. multiset_solver.
  Qed.

  (** Replacing the tree at the end of a path. *)
  Lemma substitute_change l key depth r t tt' pa new :
    lunf l t → Linked.path_valid l key depth → depth = length pa → NoDup pa →
    list_to_set pa ## dom (lb_dv l) → new ## list_to_set pa →
    lb_dv l ⊆ lb_dv r → dom (lb_dv r) ⊆ dom (lb_dv l) ∪ new → lunf r tt' →
    ∃ tt t' R bR, lunf (Linked.path_target l key depth) tt ∧ lunf (Linked.path_substitute l key depth r pa) t' ∧
      nodes t = R ⊎ to_likes (addrs_on_path l key depth) ⊎ nodes tt ∧ nodes t' = R ⊎ to_likes pa ⊎ nodes tt' ∧
      bufs t = bR ⊎ bufs tt ∧ bufs t' = bR ⊎ bufs tt' ∧
      lb_dv r ⊆ lb_dv (Linked.path_substitute l key depth r pa) ∧
      dom (lb_dv (Linked.path_substitute l key depth r pa)) ⊆ dom (lb_dv r) ∪ list_to_set pa.
  Proof.
    intros Hu Hv -> Hnd Hfr Hdj Hsub Hdom Hr. revert l t Hu Hv Hnd Hfr Hdj Hsub Hdom.
    induction pa as [|x pa IH]; intros l t Hu Hv Hnd Hfr Hdj Hsub Hdom.
    { exists t, tt', ∅, ∅. cbn [length Linked.path_target Linked.path_substitute addrs_on_path]. unfold to_likes. rewrite list_to_set_disj_nil.
      split; [done|]. split; [done|]. split; [multiset_solver|]. split; [multiset_solver|]. split; [multiset_solver|].
      split; [multiset_solver|]. split; [done|]. set_solver. }
    cbn [length] in *. destruct Hv as (Hh&Hac&Hk&Hi&Hv).
    destruct (lunf_root _ _ Hu Hh) as (a&n&cs&E&Hn&En&->&Hc&Hrl).
    cbn [Linked.path_target Linked.path_substitute addrs_on_path]. rewrite E, En in *.
    set (i := route_idx (LNode.pivots n) key) in *.
    assert (Hck : Linked.child_for_key l key = Linked.with_root l (LNode.child_ptr n key)) by (unfold Linked.child_for_key; by rewrite En).
    assert (∃ q c, LNode.children n !! i = Some q ∧ cs !! i = Some c ∧ unf (lb_dv l) q c ∧ LNode.child_ptr n key = q) as (q&c&Hq&Hci&Hqc&Ep).
    { assert (Hcr : Linked.has_root (Linked.child_for_key l key)) by (destruct pa; apply Hv).
      destruct Hcr as (m&y&Ey&Hm). rewrite Hck in Ey. cbn in Ey. unfold LNode.child_ptr, LNode.child_at in *. fold i in Ey.
      destruct (LNode.children n !! i) as [q|] eqn:Hq.
      - destruct (Forall2_lookup_l _ _ _ _ _ Hc Hq) as (c&?&?). exists q, c.
        split; [done|]. split; [done|]. split; [done|]. by apply nth_lookup_Some.
      - rewrite nth_overflow in Ey by by apply lookup_ge_None_1. done. }
    destruct (IH (Linked.child_for_key l key) c) as (tt&t'&R&bR&H1&H2&H3&H4&H5&H6&H7&H8); try done.
    { rewrite Hck, Ep. done. }
    { by inversion Hnd. } { cbn in Hfr. set_solver. } { cbn in Hdj. set_solver. }
    set (sub := Linked.path_substitute (Linked.child_for_key l key) key (length pa) r pa) in *.
    set (n' := LNode.mk _ _ _ _).
    assert (Hx : lb_dv sub !! x = None).
    { apply not_elem_of_dom. intros Hx%H8. inversion Hnd; subst. cbn in Hfr, Hdj. apply elem_of_union in Hx as [Hx|Hx]; [apply Hdom in Hx|]; set_solver. }
    assert (Hs : lb_dv sub ⊆ <[x := n']> (lb_dv sub)) by by apply insert_subseteq.
    destruct (refs_split onode cs i _ Hci) as (Q&EQ&EQ'). destruct (refs_split obufs cs i _ Hci) as (S&ES&ES').
    exists tt, (ANode x n' (<[i := t']> cs)), (Q ⊎ R), (S ⊎ bR ⊎ to_likes (LNode.buffers n)).
    split; [done|]. cbn [lb_root lb_dv]. split.
    { constructor; [apply lookup_insert|]. cbn [LNode.children n']. apply Forall2_insert.
      - eapply unf_mono_all; [|exact Hc]. etransitivity; [exact Hsub|]. by etransitivity.
      - by eapply unf_mono. }
    cbn [refs]. rewrite EQ, EQ', ES, ES', !own_node, H3, H4, H5, H6. unfold obufs. cbn [LNode.buffers n'].
    unfold to_likes. rewrite !list_to_set_disj_cons.
    split; [multiset_solver|]. split; [multiset_solver|]. split; [multiset_solver|]. split; [multiset_solver|].
    split; [by etransitivity|]. rewrite dom_insert. cbn. set_solver.
  Qed.
End Ops.
