(** The property forms of the reference counting results (C37). *)
From Verif Require Import Spec_Model Abs_Model Betree_Model Betree_Spec LinkedBetree_Model LinkedBetree_Spec
  LikesBetree_Model LikesBetree_Spec Spec_Proof LinkedBetree_Proof LinkedBetree_Facts LikesTree_Proof LikesOps_Proof LikesBetree_Proof.
From Coq Require Import ZifyBool ZifyNat ZifyN Lia.
Implicit Types (w : SLB) (t : atree) (s : LikesBetree.State) (x : AllocBetree.State).

(** ** The unit counts follow the page counts *)
Lemma to_au_sub (X D A : gmultiset Address) : D ⊆ X →
  to_au_likes (X ∖ D ⊎ A) = to_au_likes X ∖ to_au_likes D ⊎ to_au_likes A.
Proof.
  intros Hs. rewrite (gmultiset_disj_union_difference D X Hs) at 2. rewrite !to_au_disj. multiset_solver.
Qed.
Definition same x s : Prop :=
  AllocBetree.betree x = LikesBetree.betree s ∧
  AllocBetree.betree_aus x = to_au_likes (LikesBetree.betree_likes s) ∧
  AllocBetree.buffer_aus x = to_au_likes (LikesBetree.buf_likes s).
Definition sexact s := exact (LikesBetree.betree s) (LikesBetree.betree_likes s) (LikesBetree.buf_likes s).
Lemma nodes_on_disk (l : SLB) t : lunf l t → mdom (nodes t) ⊆ dom (lb_dv l).
Proof. intros Hu a Ha%elem_mdom. by eapply unf_nodes_dom. Qed.
Lemma bufs_on_disk (w l : SLB) t (aus : gmultiset nat) : (∀ ba, ba ∈ bufs t → is_Some (lb_bdv w !! ba)) → aus = to_au_likes (bufs t) →
  restrict_domain_au (lb_bdv w) (mdom aus) ⊆ dom (lb_bdv l) → mdom (bufs t) ⊆ dom (lb_bdv l).
Proof.
  intros Hw -> Hk ba Hba%elem_mdom. apply Hk. unfold restrict_domain_au. apply elem_of_filter. split.
  - apply elem_mdom, to_au_elem. by exists ba.
  - apply elem_of_dom. by apply Hw.
Qed.
Lemma alloc_sim x s x' lb : same x s → sexact s → AllocBetree.next x x' lb →
  ∃ s', LikesBetree.next s s' lb ∧ same x' s'.
Proof.
  intros (E0&Ea&Eb) (Hli&t&Hu&Et&Ebt) Hn. pose proof Hli as (Hw&ft&Hr&_). rewrite Et in Ea. rewrite Ebt in Eb.
  destruct Hn as [(new&Hf&Hx&->)|[(new&na&Hx&Hf&[Hk1 Hk2]&->)|[(new&a&Hx&Hf&->)|[(new&key&dp&rq&na&pa&Hx&Hf&[Hk1 Hk2]&->)|
    [(new&key&dp&i&gc&na&pa&Hx&Hf&[Hk1 Hk2]&->)|[(new&key&dp&i&j&cb&na&pa&Hx&Hf&[Hk1 Hk2]&->)|[(new&Hx&->)|(Hx&->)]]]]]]];
    unfold AllocBetree.is_fresh in *; rewrite ?E0 in *.
  - eexists (LikesBetree.mkState new _ _). split; [left; exists new; split; [done|]; split; [done|]; done|].
    split; [done|]. cbn [AllocBetree.betree_aus AllocBetree.buffer_aus LikesBetree.betree_likes LikesBetree.buf_likes]. by rewrite Et, Ebt.
  - pose proof Hx as (El&Hnd&Hb&Hvw&Enew).
    destruct (op_counts _ _ _ _ _ _ _ _ (op_push _ _ _ Hu Hr Hw _ _ _ Hnd Hf eq_refl) Hvw) as (t'&Hu1&Hu'&E1&E2&S1&_&Hin).
    assert (Er : root_likes (root new) = {[+ addr1 na +]}).
    { destruct Hvw as ((_&Hd)&Ert&_). cbn in Ert. destruct (Hd (addr1 na)) as [n Hn]; [done|]. by eapply root_likes_node. }
    assert (E2' : bufs t ⊎ {[+ addr2 na +]} = bufs t') by (rewrite <-E2; multiset_solver).
    unfold flush_memtable_au_likes in *. cbn [fst snd] in *.
    assert (Ebu : AllocBetree.buffer_aus x ⊎ {[+ au (addr2 na) +]} = to_au_likes (bufs t')).
    { by rewrite <-E2', to_au_disj, to_au_singleton, Eb. }
    eexists (LikesBetree.mkState new _ _). split.
    + right; left. exists new, na. split; [done|]. split; [done|]. cbv zeta. split; [|split; [|done]].
      * rewrite Et, Er, E1. by apply nodes_on_disk.
      * rewrite Ebt, E2'. by eapply bufs_on_disk.
    + split; [done|]. cbn [AllocBetree.betree_aus AllocBetree.buffer_aus LikesBetree.betree_likes LikesBetree.buf_likes]. rewrite Et, Ebt, E2', Ebu, Ea, Er. split; [|done]. by rewrite to_au_sub.
  - pose proof Hx as (El&Enew). eexists (LikesBetree.mkState new _ _). split.
    + right; right; left. exists new, a. done.
    + split; [done|]. cbn [AllocBetree.betree_aus AllocBetree.buffer_aus LikesBetree.betree_likes LikesBetree.buf_likes]. by rewrite to_au_disj, to_au_singleton, Et, Ea, Ebt.
  - pose proof Hx as (El&Hc&Hv&Hvw&Enew).
    destruct (op_counts _ _ _ _ _ _ _ _ (op_split _ _ _ Hu Hr Hw _ _ _ _ _ Hc Hv Hf) Hvw) as (t'&Hu1&Hu'&E1&E2&S1&_&Hin).
    assert (E2' : bufs t ⊎ split_add_buffers (root (LikesBetree.betree s)) key dp rq = bufs t') by (rewrite <-E2; multiset_solver).
    unfold internal_split_au_likes in *. cbn [fst snd] in *.
    rewrite Eb in Hk2 |- *. rewrite <-to_au_disj, E2' in Hk2 |- *. rewrite Ea, <-to_au_sub, E1 by done.
    assert (Hb : mdom (bufs t') ⊆ dom (lb_bdv (root new))) by by eapply bufs_on_disk.
    eexists (LikesBetree.mkState new _ _). split.
    + do 3 right; left. exists new, key, dp, rq, na, pa. split; [done|]. split; [done|]. cbv zeta. split; [|split; [|done]].
      * rewrite Et, E1. by apply nodes_on_disk.
      * rewrite Ebt. intros ba Hba%elem_mdom. apply Hb, elem_mdom. rewrite <-E2'. multiset_solver.
    + split; [done|]. cbn [AllocBetree.betree_aus AllocBetree.buffer_aus LikesBetree.betree_likes LikesBetree.buf_likes]. by rewrite Et, Ebt, E2', E1.
  - pose proof Hx as (El&Hc&Hv&Hvw&Enew).
    destruct (op_counts _ _ _ _ _ _ _ _ (op_flush _ _ _ Hu Hr Hw _ _ _ _ _ _ Hc Hv Hf) Hvw) as (t'&Hu1&Hu'&E1&E2&S1&S2&Hin).
    unfold internal_flush_au_likes in *. cbn [fst snd] in *.
    rewrite Eb in Hk2 |- *. rewrite <-to_au_sub, E2 in Hk2 |- * by done. rewrite Ea, <-to_au_sub, E1 by done.
    eexists (LikesBetree.mkState new _ _). split.
    + do 4 right; left. exists new, key, dp, i, gc, na, pa. split; [done|]. split; [done|]. cbv zeta. split; [|split; [|done]].
      * rewrite Et, E1. by apply nodes_on_disk.
      * rewrite Ebt, E2. by eapply bufs_on_disk.
    + split; [done|]. cbn [AllocBetree.betree_aus AllocBetree.buffer_aus LikesBetree.betree_likes LikesBetree.buf_likes]. by rewrite Et, Ebt, E2, E1.
  - pose proof Hx as (El&Hc&Hv&Hvw&Enew).
    destruct (op_counts _ _ _ _ _ _ _ _ (op_compact _ _ _ Hu Hr Hw _ _ _ _ _ _ _ _ Hc Hv Hf) Hvw) as (t'&Hu1&Hu'&E1&E2&S1&S2&Hin).
    unfold internal_compact_complete_au_likes in *. cbn [fst snd] in *.
    rewrite Eb in Hk2 |- *. rewrite <-to_au_sub, E2 in Hk2 |- * by done. rewrite Ea, <-to_au_sub, E1 by done.
    eexists (LikesBetree.mkState new _ _). split.
    + do 5 right; left. exists new, key, dp, i, j, cb, na, pa. split; [done|]. split; [done|]. cbv zeta. split; [|split; [|done]].
      * rewrite Et, E1. by apply nodes_on_disk.
      * rewrite Ebt, E2. by eapply bufs_on_disk.
    + split; [done|]. cbn [AllocBetree.betree_aus AllocBetree.buffer_aus LikesBetree.betree_likes LikesBetree.buf_likes]. by rewrite Et, Ebt, E2, E1.
  - eexists (LikesBetree.mkState new _ _). split; [do 6 right; left; by exists new|]. split; [done|]. cbn [AllocBetree.betree_aus AllocBetree.buffer_aus LikesBetree.betree_likes LikesBetree.buf_likes]. by rewrite Et, Ebt.
  - exists s. split; [do 7 right; done|]. split; [done|]. by rewrite Et, Ebt.
Qed.

(** ** Runs *)
Lemma likes_init s b : LikesBetree.initialize s b → sexact s ∧ LikesBetree.betree s = b.
Proof. intros (Hi&tl&bl&Ht&->). split; [by eapply exact_init|done]. Qed.
Lemma likes_run s0 b ls s : LikesBetree.initialize s0 b → run LikesBetree.next s0 ls s →
  run Linked.strong_next b ls (LikesBetree.betree s) ∧ sexact s.
Proof.
  intros Hi Hr. destruct (likes_init _ _ Hi) as [He Eb]. rewrite <-Eb. clear Hi Eb.
  induction Hr as [s|s ls s1 lb s2 Hr IH Hn]; [split; [constructor|done]|].
  destruct (IH He) as [Hr1 He1]. destruct (likes_strong _ _ _ He1 Hn) as [Hn' He2].
  split; [by eapply run_snoc|done].
Qed.
Lemma alloc_run x0 b ls x : AllocBetree.initialize x0 b → run AllocBetree.next x0 ls x →
  ∃ s0 s, LikesBetree.initialize s0 b ∧ run LikesBetree.next s0 ls s ∧ same x s.
Proof.
  intros (Hi&tl&bl&Ht&->) Hr.
  assert (Hi0 : LikesBetree.initialize (LikesBetree.mkState b tl bl) b) by (split; [done|]; by exists tl, bl).
  exists (LikesBetree.mkState b tl bl).
  assert (H0 : same (AllocBetree.mkState b (to_au_likes tl) (to_au_likes bl)) (LikesBetree.mkState b tl bl)) by done.
  revert H0. remember (AllocBetree.mkState b (to_au_likes tl) (to_au_likes bl)) as x1. intros H0. clear Heqx1.
  induction Hr as [x|x ls x1 lb x2 Hr IH Hn].
  - exists (LikesBetree.mkState b tl bl). split; [done|]. split; [constructor|done].
  - destruct (IH H0) as (s1&_&Hr1&Hs1). destruct (likes_run _ _ _ _ Hi0 Hr1) as [_ He].
    destruct (alloc_sim _ _ _ _ Hs1 He Hn) as (s2&Hn2&Hs2). exists s2. split; [done|]. split; [by eapply run_snoc|done].
Qed.

(** ** Property forms *)
Lemma node_refs_exactly (l : SLB) t (P : Address → Prop) `{!∀ y, Decision (P y)} : lunf l t →
  exactly (λ is, ∃ a, node_ref l is a ∧ P a) (cnt P (nodes t)).
Proof.
  intros Hu. destruct (refs_exactly onode P _ _ _ Hu) as (L&HN&HL&<-).
  assert (HL0 : ∀ isj, isj ∈ L → isj.2 = 0).
  { intros [is j] (a&(b&n&_&_&Ho)&_)%HL. unfold onode in Ho. cbn in Ho. by destruct j. }
  exists (L.*1). split; [|split; [|apply fmap_length]].
  - clear HL. induction HN as [|y L Hy HN IH]; [constructor|]. cbn. constructor.
    + intros (z&Ez&Hz)%elem_of_list_fmap. apply Hy. replace y with z; [done|].
      destruct y as [y1 y2], z as [z1 z2]. cbn in Ez. subst. f_equal.
      pose proof (HL0 (z1, y2) ltac:(left)). pose proof (HL0 (z1, z2) ltac:(by right)). cbn in *. congruence.
    + apply IH. intros. apply HL0. by right.
  - intros is. rewrite elem_of_list_fmap. split.
    + intros ([is' j]&->&Hj). pose proof (HL0 _ Hj) as E. cbn in E. subst j. apply HL in Hj as (a&(b&n&Hl&Hn&Ho)&HP).
      injection Ho as ->. cbn. exists a. done.
    + intros (a&Hl&HP). exists (is, 0). split; [done|]. apply HL.
      assert (∃ n, lb_dv l !! a = Some n) as [n Hn] by (clear -Hl; induction Hl; eauto).
      exists a. split; [|done]. by exists a, n.
Qed.
Lemma buf_refs_exactly (l : SLB) t (P : Address → Prop) `{!∀ y, Decision (P y)} : lunf l t →
  exactly (λ isj, ∃ ba, buffer_ref l isj ba ∧ P ba) (cnt P (bufs t)).
Proof. intros Hu. exact (refs_exactly obufs P _ _ _ Hu). Qed.
Lemma likes_counts s0 b ls s : LikesBetree.initialize s0 b → run LikesBetree.next s0 ls s →
  ∀ a, exactly (λ is, node_ref (root (LikesBetree.betree s)) is a) (multiplicity a (LikesBetree.betree_likes s)) ∧
       exactly (λ isj, buffer_ref (root (LikesBetree.betree s)) isj a) (multiplicity a (LikesBetree.buf_likes s)).
Proof.
  intros Hi Hr a. destruct (likes_run _ _ _ _ Hi Hr) as [_ (_&t&Hu&->&->)]. rewrite <-!cnt_eq. split.
  - eapply exactly_iff; [|by apply (node_refs_exactly _ _ (λ y, y = a) Hu)]. intros is. cbn. naive_solver.
  - eapply exactly_iff; [|by apply (buf_refs_exactly _ _ (λ y, y = a) Hu)]. intros is. cbn. naive_solver.
Qed.
Lemma alloc_counts x0 b ls x : AllocBetree.initialize x0 b → run AllocBetree.next x0 ls x →
  ∀ u, exactly (λ is, ∃ a, node_ref (root (AllocBetree.betree x)) is a ∧ au a = u) (multiplicity u (AllocBetree.betree_aus x)) ∧
       exactly (λ isj, ∃ ba, buffer_ref (root (AllocBetree.betree x)) isj ba ∧ au ba = u) (multiplicity u (AllocBetree.buffer_aus x)).
Proof.
  intros Hi Hr u. destruct (alloc_run _ _ _ _ Hi Hr) as (s0&s&Hi'&Hr'&(->&->&->)).
  destruct (likes_run _ _ _ _ Hi' Hr') as [_ (_&t&Hu&->&->)]. rewrite !to_au_cnt. split.
  - by apply (node_refs_exactly _ _ (λ y, au y = u) Hu).
  - by apply (buf_refs_exactly _ _ (λ y, au y = u) Hu).
Qed.
Lemma live_reach (l : SLB) a : node_live l a ↔ Linked.reachable_node (lb_dv l) (lb_root l) a.
Proof. symmetry. apply leads_reach. Qed.
Lemma blive_reach (l : SLB) ba : buffer_live l ba ↔ Linked.reachable_buffer l ba.
Proof.
  unfold buffer_live, buffer_ref, Linked.reachable_buffer. split.
  - intros ([is j]&a&n&Hl&Hn&Hb). exists a, n. split; [apply live_reach; by exists is|]. split; [done|].
    by eapply elem_of_list_lookup_2.
  - intros (a&n&[is Hl]%live_reach&Hn&[j Hj]%elem_of_list_lookup). by exists (is, j), a, n.
Qed.
Lemma linv_missing (b : BState SLB) : linv b → nothing_missing (root b).
Proof.
  intros Hl. pose proof (linv_legal _ Hl) as (_&Hb&_). destruct Hl as ((Hw&Hd)&_). split; [|split].
  - intros a Ha. by apply Hd.
  - intros a n c _ Hn [i Hi]%elem_of_list_lookup. by eapply (proj1 (proj2 Hw _ _ Hn)).
  - intros a n ba Ha Hn Hba. apply Hb. exists a, n. split; [by apply live_reach|done].
Qed.
Lemma likes_refines s0 b ls s : LikesBetree.initialize s0 b → run LikesBetree.next s0 ls s →
  Linked.initialize b b ∧ run Linked.strong_next b ls (LikesBetree.betree s).
Proof. intros Hi Hr. split; [apply Hi|]. by apply (likes_run _ _ _ _ Hi Hr). Qed.
Lemma likes_missing s0 b ls s : LikesBetree.initialize s0 b → run LikesBetree.next s0 ls s →
  nothing_missing (root (LikesBetree.betree s)).
Proof. intros Hi Hr. destruct (likes_run _ _ _ _ Hi Hr) as [_ (Hl&_)]. by apply linv_missing. Qed.
Lemma likes_faithful s0 b ls s : LikesBetree.initialize s0 b → run LikesBetree.next s0 ls s →
  ∃ m, holds linked_answers (root b) m ∧
       acts_as_map linked_answers (mkStamped m (mt_seq_end (memtable b))) ls (LikesBetree.betree s).
Proof. intros Hi Hr. destruct (likes_refines _ _ _ _ Hi Hr) as [Hi' Hr']. by eapply linked_faithful. Qed.
Lemma likes_kept s0 b ls s s' lb : LikesBetree.initialize s0 b → run LikesBetree.next s0 ls s → LikesBetree.next s s' lb →
  pages_kept (root (LikesBetree.betree s)) (root (LikesBetree.betree s')).
Proof.
  intros Hi Hr Hn. destruct (likes_refines _ _ _ _ Hi Hr) as [Hi' Hr']. destruct (likes_run _ _ _ _ Hi Hr) as [_ He].
  eapply linked_kept; [exact Hi'|exact Hr'|]. by eapply likes_strong.
Qed.
Lemma alloc_faithful x0 b ls x : AllocBetree.initialize x0 b → run AllocBetree.next x0 ls x →
  ∃ m, holds linked_answers (root b) m ∧
       acts_as_map linked_answers (mkStamped m (mt_seq_end (memtable b))) ls (AllocBetree.betree x).
Proof.
  intros Hi Hr. destruct (alloc_run _ _ _ _ Hi Hr) as (s0&s&Hi'&Hr'&(->&_)). by eapply likes_faithful.
Qed.
Lemma alloc_missing x0 b ls x : AllocBetree.initialize x0 b → run AllocBetree.next x0 ls x →
  nothing_missing (root (AllocBetree.betree x)).
Proof. intros Hi Hr. destruct (alloc_run _ _ _ _ Hi Hr) as (s0&s&Hi'&Hr'&(->&_)). by eapply likes_missing. Qed.
Lemma alloc_kept x0 b ls x x' lb : AllocBetree.initialize x0 b → run AllocBetree.next x0 ls x → AllocBetree.next x x' lb →
  pages_kept (root (AllocBetree.betree x)) (root (AllocBetree.betree x')).
Proof.
  intros Hi Hr Hn. destruct (alloc_run _ _ _ _ Hi Hr) as (s0&s&Hi'&Hr'&Hs). destruct (likes_run _ _ _ _ Hi' Hr') as [_ He].
  destruct (alloc_sim _ _ _ _ Hs He Hn) as (s'&Hn'&(->&_)). destruct Hs as (->&_). by eapply likes_kept.
Qed.

(** Collecting the garbage. *)
Lemma collect (b : BState SLB) : linv b → ∃ b', Linked.internal_buffer_noop b b' Internal (root b') ∧
  nothing_unused (root b') ∧ memtable b' = memtable b ∧
  ∀ k m, linked_answers (root b') k m ↔ linked_answers (root b) k m.
Proof.
  intros Hl. pose proof Hl as ((Hw&Hd)&ft&Hr&_). pose proof (linv_legal _ Hl) as (Hac&Hb&_).
  destruct (unf_exists _ Hac) as [t Hu]. set (l := root b) in *.
  set (dv' := filter (λ an, an.1 ∈ nodes t) (lb_dv l)). set (bdv' := filter (λ an, an.1 ∈ bufs t) (lb_bdv l)).
  set (l' := mkLB (lb_root l) dv' bdv').
  assert (Hdv : dv' ⊆ lb_dv l) by apply map_filter_subseteq.
  assert (Hbdv : bdv' ⊆ lb_bdv l) by apply map_filter_subseteq.
  assert (Hin : ∀ a n, dv' !! a = Some n ↔ lb_dv l !! a = Some n ∧ a ∈ nodes t) by (intros a n; apply map_filter_lookup_Some).
  assert (Hbin : ∀ a n, bdv' !! a = Some n ↔ lb_bdv l !! a = Some n ∧ a ∈ bufs t) by (intros a n; apply map_filter_lookup_Some).
  assert (Hw' : Linked.wf l').
  { split; [split|].
    - intros a n [Hn _]%Hin. by eapply (proj1 Hw).
    - intros a n [Hn Ha]%Hin. destruct (proj2 Hw _ _ Hn) as [H1 H2]. split.
      + intros i p Hp c ->. destruct (H1 _ _ Hp c eq_refl) as [m Hm]. exists m. apply Hin. split; [done|].
        apply (nodes_elem _ _ _ _ Hu). apply (nodes_elem _ _ _ _ Hu) in Ha. clear -Ha Hn Hp Hm.
        induction Ha as [a n' Hn'|a n' j q b1 Hn' Hq Ha IH].
        * eapply Linked.reach_child; [exact Hn|exact Hp|by eapply Linked.reach_here].
        * eapply Linked.reach_child; [exact Hn'|exact Hq|by apply IH].
      + intros i c m Hc [Hm _]%Hin. by eapply H2.
    - intros a Ha. destruct (Hd a Ha) as [n Hn]. exists n. apply Hin. split; [done|].
      apply (nodes_elem _ _ _ _ Hu). cbn [lb_root l'] in Ha. rewrite Ha. by eapply Linked.reach_here. }
  assert (Hvw : Linked.valid_view l l').
  { split; [done|]. split; [done|]. split; [done|]. intros a y z Hy Hz. pose proof (lookup_weaken _ _ _ _ Hy Hbdv). congruence. }
  assert (Hp : Linked.reachable_buffers_preserved l l').
  { intros ba Hba. destruct (Hb ba Hba) as [y Hy]. exists y. apply Hbin. split; [done|]. by apply (bufs_elem _ _ _ Hu). }
  pose proof (view_unf _ _ _ Hvw Hu) as Hu'.
  exists (mkBS (memtable b) l'). split; [done|]. cbn [root memtable]. split; [|split; [done|]].
  - split.
    + intros a. rewrite live_reach, <-(nodes_elem _ _ _ _ Hu'). cbn [lb_dv l']. split.
      * by intros [n [_ Hn]%Hin].
      * intros Ha. pose proof (unf_nodes_dom _ _ _ _ Hu Ha) as [n Hn]%elem_of_dom. exists n. by apply Hin.
    + intros a. rewrite blive_reach, <-(bufs_elem _ _ _ Hu'). cbn [lb_bdv l']. split.
      * by intros [n [_ Hn]%Hbin].
      * intros Ha. destruct (Hb a) as [n Hn]; [by apply (bufs_elem _ _ _ Hu)|]. exists n. by apply Hbin.
  - intros k m. destruct (view_repr _ _ _ Hvw Hp Hr) as [_ Hr']. rewrite (ans_iff l' ft); [|done|done].
    by rewrite (ans_iff l ft); [|done|done].
Qed.
Lemma likes_collect s0 b ls s : LikesBetree.initialize s0 b → run LikesBetree.next s0 ls s →
  ∃ s', LikesBetree.next s s' Internal ∧ nothing_unused (root (LikesBetree.betree s')) ∧
    LikesBetree.betree_likes s' = LikesBetree.betree_likes s ∧ LikesBetree.buf_likes s' = LikesBetree.buf_likes s ∧
    memtable (LikesBetree.betree s') = memtable (LikesBetree.betree s) ∧
    ∀ k m, linked_answers (root (LikesBetree.betree s')) k m ↔ linked_answers (root (LikesBetree.betree s)) k m.
Proof.
  intros Hi Hr. destruct (likes_run _ _ _ _ Hi Hr) as [_ (Hl&_)]. destruct (collect _ Hl) as (b'&Hn&Hu&Hm&Ha).
  exists (LikesBetree.mkState b' (LikesBetree.betree_likes s) (LikesBetree.buf_likes s)).
  split; [do 6 right; left; by exists b'|]. done.
Qed.
Lemma alloc_collect x0 b ls x : AllocBetree.initialize x0 b → run AllocBetree.next x0 ls x →
  ∃ x', AllocBetree.next x x' Internal ∧ nothing_unused (root (AllocBetree.betree x')) ∧
    AllocBetree.betree_aus x' = AllocBetree.betree_aus x ∧ AllocBetree.buffer_aus x' = AllocBetree.buffer_aus x ∧
    memtable (AllocBetree.betree x') = memtable (AllocBetree.betree x) ∧
    ∀ k m, linked_answers (root (AllocBetree.betree x')) k m ↔ linked_answers (root (AllocBetree.betree x)) k m.
Proof.
  intros Hi Hr. destruct (alloc_run _ _ _ _ Hi Hr) as (s0&s&Hi'&Hr'&(E&_)).
  destruct (likes_run _ _ _ _ Hi' Hr') as [_ (Hl&_)]. rewrite <-E in Hl. destruct (collect _ Hl) as (b'&Hn&Hu&Hm&Ha).
  exists (AllocBetree.mkState b' (AllocBetree.betree_aus x) (AllocBetree.buffer_aus x)).
  split; [do 6 right; left; by exists b'|]. done.
Qed.

(** No page becomes shared. *)
Definition single (m : gmultiset Address) : Prop := ∀ a, multiplicity a m ≤ 1.
Lemma single_add (X D A : gmultiset Address) (dv : gmap Address LNode.t) : single X → (∀ a, a ∈ X → a ∈ dom dv) →
  single A → (∀ a, a ∈ A → a ∉ dom dv) → single (X ∖ D ⊎ A).
Proof.
  intros HX Hd HA Hf a. rewrite multiplicity_disj_union, multiplicity_difference. specialize (HX a). specialize (HA a).
  destruct (decide (a ∈ A)) as [H|H].
  - assert (multiplicity a X = 0); [|lia]. destruct (decide (a ∈ X)) as [H'|H'].
    + exfalso. apply (Hf a H). by apply Hd.
    + rewrite elem_of_multiplicity in H'. lia.
  - rewrite elem_of_multiplicity in H. lia.
Qed.
Lemma single_list (L : list Address) : NoDup L → single (to_likes L).
Proof.
  intros HN a. rewrite <-cnt_eq. unfold to_likes. rewrite cnt_list. induction HN as [|y L Hy HN IH]; [simpl; lia|].
  rewrite filter_cons. case_decide; [|done]. subst. cbn [length].
  assert (filter (λ y, y = a) L = []) as ->; [|simpl; lia]. apply elem_of_nil_inv. intros z [-> Hz]%elem_of_list_filter. done.
Qed.
Lemma single_step s s' lb : sexact s → single (LikesBetree.betree_likes s) → LikesBetree.next s s' lb → single (LikesBetree.betree_likes s').
Proof.
  intros (Hli&t&Hu&Et&_) Hs Hn.
  assert (Hdom : ∀ a, a ∈ LikesBetree.betree_likes s → a ∈ dom (lb_dv (root (LikesBetree.betree s)))).
  { intros a. rewrite Et. by eapply unf_nodes_dom. }
  destruct Hn as [(new&Hf&Hx&->)|[(new&na&Hx&Hf&Hm1&Hm2&->)|[(new&a&Hx&Hf&->)|[(new&key&dp&rq&na&pa&Hx&Hf&Hm1&Hm2&->)|
    [(new&key&dp&i&gc&na&pa&Hx&Hf&Hm1&Hm2&->)|[(new&key&dp&i&j&cb&na&pa&Hx&Hf&Hm1&Hm2&->)|[(new&Hx&->)|(Hx&->)]]]]]]];
    cbn [LikesBetree.betree_likes]; try done.
  - destruct Hx as (_&_&_&((_&Hd)&Ert&_)&_). cbn in Ert. destruct (Hd (addr1 na)) as [n Hn]; [done|].
    rewrite (root_likes_node _ _ _ (eq_sym Ert) Hn). eapply single_add; [done|exact Hdom| |].
    + intros a. rewrite multiplicity_singleton'. case_decide; lia.
    + intros a ->%gmultiset_elem_of_singleton. destruct Hf as [Hf _]. unfold two_repr in Hf. set_solver.
  - replace (LikesBetree.betree_likes s) with (LikesBetree.betree_likes s ∖ ∅) by multiset_solver.
    eapply single_add; [done|exact Hdom| |].
    + intros b. rewrite multiplicity_singleton'. case_decide; lia.
    + intros b ->%gmultiset_elem_of_singleton. destruct Hf as [Hf _]. set_solver.
  - destruct Hx as (_&_&(_&Hnd&_&(D1&D2&D3)&Hdj)&_). unfold split_repr in *.
    replace (add_betree_likes (split_likes na) pa) with (to_likes (sa_parent na :: sa_left na :: sa_right na :: pa)).
    2: { unfold add_betree_likes, split_likes, to_likes. rewrite !list_to_set_disj_cons. multiset_solver. }
    eapply single_add; [done|exact Hdom| |].
    + apply single_list. repeat (apply stdpp.list.NoDup_cons; split); [| | |done]; rewrite ?elem_of_cons;
        rewrite <-?(elem_of_list_to_set (C:=gset Address)); set_solver.
    + intros a. unfold to_likes. rewrite elem_of_list_to_set_disj, !elem_of_cons. rewrite <-(elem_of_list_to_set (C:=gset Address)).
      destruct Hf as [Hf _]. set_solver.
  - destruct Hx as (_&_&(_&Hnd&_&D1&Hdj)&_). unfold two_repr, two_no_dup in *.
    replace (add_betree_likes (two_likes na) pa) with (to_likes (addr1 na :: addr2 na :: pa)).
    2: { unfold add_betree_likes, two_likes, to_likes. rewrite !list_to_set_disj_cons. multiset_solver. }
    eapply single_add; [done|exact Hdom| |].
    + apply single_list. repeat (apply stdpp.list.NoDup_cons; split); [| |done]; rewrite ?elem_of_cons;
        rewrite <-?(elem_of_list_to_set (C:=gset Address)); set_solver.
    + intros a. unfold to_likes. rewrite elem_of_list_to_set_disj, !elem_of_cons. rewrite <-(elem_of_list_to_set (C:=gset Address)).
      destruct Hf as [Hf _]. set_solver.
  - destruct Hx as (_&_&(_&Hnd&_&D1&Hdj)&_). unfold two_repr, two_no_dup in *.
    replace (compact_add_betree na pa) with (to_likes (addr1 na :: pa)).
    2: { unfold compact_add_betree, to_likes. rewrite !list_to_set_disj_cons. multiset_solver. }
    eapply single_add; [done|exact Hdom| |].
    + apply single_list. repeat (apply stdpp.list.NoDup_cons; split); [|done]; rewrite ?elem_of_cons;
        rewrite <-?(elem_of_list_to_set (C:=gset Address)); set_solver.
    + intros a. unfold to_likes. rewrite elem_of_list_to_set_disj, !elem_of_cons. rewrite <-(elem_of_list_to_set (C:=gset Address)).
      destruct Hf as [Hf _]. set_solver.
Qed.
Lemma single_unshared (l : SLB) t : lunf l t → single (nodes t) ↔ unshared l.
Proof.
  intros Hu. split.
  - intros Hs a p p' H1 H2. specialize (Hs a). rewrite <-cnt_eq in Hs.
    destruct (node_refs_exactly l t (λ y, y = a) Hu) as (L&HN&HL&E). rewrite <-E in Hs.
    assert (p ∈ L) as [i1 Hi1]%elem_of_list_lookup by (apply HL; by exists a).
    assert (p' ∈ L) as [i2 Hi2]%elem_of_list_lookup by (apply HL; by exists a).
    pose proof (lookup_lt_Some _ _ _ Hi1). pose proof (lookup_lt_Some _ _ _ Hi2).
    assert (i1 = i2) by lia. congruence.
  - intros Hs a. rewrite <-cnt_eq. destruct (node_refs_exactly l t (λ y, y = a) Hu) as (L&HN&HL&<-).
    destruct L as [|y [|z L]]; simpl; [lia|lia|]. exfalso.
    destruct (proj1 (HL y)) as (?&Hy&->); [left|]. destruct (proj1 (HL z)) as (?&Hz&->); [right; left|].
    rewrite (Hs _ _ _ Hy Hz) in HN. inversion HN as [|?? Hni]. apply Hni. left.
Qed.
Lemma likes_unshared s0 b ls s : LikesBetree.initialize s0 b → run LikesBetree.next s0 ls s →
  unshared (root b) → unshared (root (LikesBetree.betree s)).
Proof.
  intros Hi Hr Hs. destruct (likes_run _ _ _ _ Hi Hr) as [_ (_&t&Hu&Et&_)]. apply (single_unshared _ t Hu). rewrite <-Et. clear Et Hu t.
  destruct (likes_init _ _ Hi) as [(_&t0&Hu0&Et0&_) Eb].
  assert (Hs0 : single (LikesBetree.betree_likes s0)). { rewrite Et0. apply (single_unshared _ t0 Hu0). by rewrite Eb. }
  clear Hs t0 Hu0 Et0 Eb. induction Hr as [s|s ls s1 lb s2 Hr IH Hn]; [done|].
  eapply single_step; [|by apply IH|exact Hn]. by apply (likes_run _ _ _ _ Hi Hr).
Qed.
Lemma alloc_unshared x0 b ls x : AllocBetree.initialize x0 b → run AllocBetree.next x0 ls x →
  unshared (root b) → unshared (root (AllocBetree.betree x)).
Proof. intros Hi Hr. destruct (alloc_run _ _ _ _ Hi Hr) as (s0&s&Hi'&Hr'&(->&_)). by eapply likes_unshared. Qed.

(** Counting forbids no step. *)
Lemma bufs_preserved (w l : SLB) t : lunf w t → Linked.reachable_buffers_preserved w l → mdom (bufs t) ⊆ dom (lb_bdv l).
Proof. intros Hu Hp ba Hba%elem_mdom. apply elem_of_dom, Hp. by apply (bufs_elem _ _ _ Hu). Qed.
Lemma fresh_union (l : SLB) X Y : Linked.is_fresh l X → Linked.is_fresh l Y → Linked.is_fresh l (X ∪ Y).
Proof. intros [H1 H2] [H3 H4]. split; set_solver. Qed.
Lemma likes_complete_step s b' lb : sexact s → Linked.strong_next (LikesBetree.betree s) b' lb →
  ∃ s', LikesBetree.next s s' lb ∧ LikesBetree.betree s' = b'.
Proof.
  intros (Hli&t&Hu&Et&Eb) Hn. pose proof Hli as (Hw&ft&Hr&_).
  destruct Hn as [(rc&Hx)|[Hx|[Hx|[(sl&new&na&Hx&Hf&Hp)|[(a&Hx&Hf)|[(new&key&dp&rq&na&pa&Hx&Hf1&Hf2&Hp)|
    [(new&key&dp&i&gc&na&pa&Hx&Hf1&Hf2&Hp)|[(new&key&dp&i&j&cb&na&pa&Hx&Hf1&Hf2&Hp)|[(new&Hx)|Hx]]]]]]]]].
  - eexists (LikesBetree.mkState b' _ _). split; [left; exists b'; split; [|split; [left; by exists rc|done]]|done].
    destruct Hx as (?&?&?&?&->&_). done.
  - eexists (LikesBetree.mkState b' _ _). split; [left; exists b'; split; [|split; [by right; left|done]]|done].
    destruct Hx as (?&->&_). done.
  - eexists (LikesBetree.mkState b' _ _). split; [left; exists b'; split; [|split; [by right; right; left|done]]|done].
    destruct Hx as (_&->&_). done.
  - pose proof Hx as (El&Hnd&Hb&Hvw&Enew). cbn [buf_i simple_buffer] in Hb. subst sl.
    destruct (op_counts _ _ _ _ _ _ _ _ (op_push _ _ _ Hu Hr Hw _ _ _ Hnd Hf eq_refl) Hvw) as (t'&Hu1&Hu'&E1&E2&_).
    assert (Er : root_likes new = {[+ addr1 na +]}).
    { destruct Hvw as ((_&Hd)&Ert&_). cbn in Ert. destruct (Hd (addr1 na)) as [n Hn]; [done|]. by eapply root_likes_node. }
    eexists (LikesBetree.mkState b' _ _). split; [|done]. right; left. exists b', na.
    assert (Erb : root b' = new) by by rewrite Enew.
    split; [by rewrite Erb|]. rewrite <-Erb in *. split; [done|]. cbv zeta. split; [|split; [|done]].
    + rewrite Et, Er, E1. by apply nodes_on_disk.
    + replace (LikesBetree.buf_likes s ⊎ {[+ addr2 na +]}) with (bufs t') by (rewrite <-E2, Eb; multiset_solver).
      exact (bufs_preserved _ _ _ Hu1 Hp).
  - eexists (LikesBetree.mkState b' _ _). split; [|done]. right; right; left. by exists b', a.
  - pose proof Hx as (El&Hc&Hv&Hvw&Enew). pose proof (fresh_union _ _ _ Hf1 Hf2) as Hf.
    destruct (op_counts _ _ _ _ _ _ _ _ (op_split _ _ _ Hu Hr Hw _ _ _ _ _ Hc Hv Hf) Hvw) as (t'&Hu1&Hu'&E1&E2&_).
    eexists (LikesBetree.mkState b' _ _). split; [|done]. do 3 right; left. exists b', key, dp, rq, na, pa.
    assert (Erb : root b' = new) by by rewrite Enew.
    split; [by rewrite Erb|]. rewrite <-Erb in *. split; [done|]. cbv zeta. split; [|split; [|done]].
    + rewrite Et, E1. by apply nodes_on_disk.
    + etrans; [|exact (bufs_preserved _ _ _ Hu1 Hp)]. rewrite Eb, <-E2. intros ba Hba%elem_mdom. apply elem_mdom. multiset_solver.
  - pose proof Hx as (El&Hc&Hv&Hvw&Enew). pose proof (fresh_union _ _ _ Hf1 Hf2) as Hf.
    destruct (op_counts _ _ _ _ _ _ _ _ (op_flush _ _ _ Hu Hr Hw _ _ _ _ _ _ Hc Hv Hf) Hvw) as (t'&Hu1&Hu'&E1&E2&_).
    eexists (LikesBetree.mkState b' _ _). split; [|done]. do 4 right; left. exists b', key, dp, i, gc, na, pa.
    assert (Erb : root b' = new) by by rewrite Enew.
    split; [by rewrite Erb|]. rewrite <-Erb in *. split; [done|]. cbv zeta. split; [|split; [|done]].
    + rewrite Et, E1. by apply nodes_on_disk.
    + rewrite Eb, E2. exact (bufs_preserved _ _ _ Hu1 Hp).
  - pose proof Hx as (El&Hc&Hv&Hvw&Enew). pose proof (fresh_union _ _ _ Hf1 Hf2) as Hf.
    destruct (op_counts _ _ _ _ _ _ _ _ (op_compact _ _ _ Hu Hr Hw _ _ _ _ _ _ _ _ Hc Hv Hf) Hvw) as (t'&Hu1&Hu'&E1&E2&_).
    eexists (LikesBetree.mkState b' _ _). split; [|done]. do 5 right; left. exists b', key, dp, i, j, cb, na, pa.
    assert (Erb : root b' = new) by by rewrite Enew.
    split; [by rewrite Erb|]. rewrite <-Erb in *. split; [done|]. cbv zeta. split; [|split; [|done]].
    + rewrite Et, E1. by apply nodes_on_disk.
    + rewrite Eb, E2. exact (bufs_preserved _ _ _ Hu1 Hp).
  - eexists (LikesBetree.mkState b' _ _). split; [|done]. do 6 right; left. exists b'.
    assert (Erb : root b' = new) by by destruct Hx as (_&_&_&->). split; [by rewrite Erb|done].
  - exists s. pose proof Hx as (El&->). split; [do 7 right; done|done].
Qed.
Lemma likes_complete s0 b ls b' : LikesBetree.initialize s0 b → run Linked.strong_next b ls b' →
  ∃ s, run LikesBetree.next s0 ls s ∧ LikesBetree.betree s = b'.
Proof.
  intros Hi Hr. destruct (likes_init _ _ Hi) as [_ Eb].
  induction Hr as [b|b ls b1 lb b2 Hr IH Hn]; [exists s0; split; [constructor|done]|].
  destruct (IH Hi Eb) as (s&Hs&<-). destruct (likes_run _ _ _ _ Hi Hs) as [_ He].
  destruct (likes_complete_step _ _ _ He Hn) as (s'&Hn'&<-). exists s'. split; [by eapply run_snoc|done].
Qed.
Lemma likes_same_runs s0 b ls b' : LikesBetree.initialize s0 b →
  (run Linked.strong_next b ls b' ↔ ∃ s, run LikesBetree.next s0 ls s ∧ LikesBetree.betree s = b').
Proof.
  intros Hi. split; [by apply likes_complete|]. intros (s&Hr&<-). by apply (likes_run _ _ _ _ Hi Hr).
Qed.
