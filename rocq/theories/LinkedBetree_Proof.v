(** The be-tree linked on disk behaves as the versioned map (C18): the disk always
    represents a filtered tree, and every step is a filtered step on it. *)
From Verif Require Import Spec_Model Abs_Model Betree_Model Betree_Spec LinkedBetree_Model LinkedBetree_Spec
  Spec_Proof Abs_Proof Route_Proof Betree_Common Routed_Proof.
From Verif Require FilteredBetree_Proof.
From Coq Require Import ZifyBool ZifyNat ZifyN Lia.

Notation FTree := (Routed.BetreeNode Filtered.Contents).
Notation Bufs := (gmap N Message).
Notation LB := (LinkedBetree (gmap N Message)).
Notation fwf := (Routed.wf Filtered.dwf).
Notation RNode := Routed.Node.
Notation RNil := Routed.Nil.
Implicit Types (dv : gmap Address LNode.t) (p : option Address) (t : FTree) (B : Address → Bufs → Prop).

(** ** The tree a disk represents *)
Fixpoint repr dv (B : Address → Bufs → Prop) p t : Prop :=
  match t with
  | Routed.Nil => p = None
  | Routed.Node c pv chs =>
      ∃ a n, p = Some a ∧ dv !! a = Some n ∧ LNode.pivots n = pv ∧ LNode.flushed n = Filtered.flushed c ∧
        Forall2 B (LNode.buffers n) (Filtered.buffers c) ∧
        (fix go (ps : list (option Address)) (ts : list FTree) {struct ts} : Prop :=
           match ts, ps with
           | [], [] => True
           | t :: ts, q :: ps => repr dv B q t ∧ go ps ts
           | _, _ => False
           end) (LNode.children n) chs
  end.
Lemma repr_node dv B p c pv chs :
  repr dv B p (RNode c pv chs) ↔
  ∃ a n, p = Some a ∧ dv !! a = Some n ∧ LNode.pivots n = pv ∧ LNode.flushed n = Filtered.flushed c ∧
    Forall2 B (LNode.buffers n) (Filtered.buffers c) ∧ Forall2 (repr dv B) (LNode.children n) chs.
Proof.
  cbn [repr].
  assert (H : ∀ ps ts, (fix go (ps : list (option Address)) (ts : list FTree) {struct ts} : Prop :=
           match ts, ps with
           | [], [] => True
           | t :: ts, q :: ps => repr dv B q t ∧ go ps ts
           | _, _ => False
           end) ps ts ↔ Forall2 (repr dv B) ps ts).
  { induction ps as [|q ps IH]; intros [|t ts].
    - split; [constructor|done].
    - split; [done|inversion 1].
    - split; [done|inversion 1].
    - rewrite IH. split; [intros []; by constructor|by inversion 1]. }
  setoid_rewrite H. done.
Qed.
Lemma repr_nil dv B p : repr dv B p RNil ↔ p = None.
Proof. done. Qed.
Lemma repr_None dv B t : repr dv B None t ↔ t = RNil.
Proof.
  destruct t; [done|]. rewrite repr_node. split; [|done]. by intros (a&n&?&_).
Qed.
Lemma repr_Some dv B a n t : dv !! a = Some n → repr dv B (Some a) t →
  ∃ c chs, t = RNode c (LNode.pivots n) chs ∧ LNode.flushed n = Filtered.flushed c ∧
    Forall2 B (LNode.buffers n) (Filtered.buffers c) ∧ Forall2 (repr dv B) (LNode.children n) chs.
Proof.
  intros Ha. destruct t as [|c pv chs]; [done|]. intros (a'&n'&[= <-]&Hn&<-&Hf&Hb&Hc)%repr_node.
  rewrite Ha in Hn. injection Hn as <-. eauto 10.
Qed.
Lemma repr_intro dv B a n c chs :
  dv !! a = Some n → LNode.flushed n = Filtered.flushed c →
  Forall2 B (LNode.buffers n) (Filtered.buffers c) → Forall2 (repr dv B) (LNode.children n) chs →
  repr dv B (Some a) (RNode c (LNode.pivots n) chs).
Proof. intros. apply repr_node. eauto 10. Qed.

Lemma repr_mono dv dv' (B B' : Address → Bufs → Prop) p t :
  dv ⊆ dv' → (∀ a b, B a b → B' a b) → repr dv B p t → repr dv' B' p t.
Proof.
  intros Hd Hb. revert p. induction t as [|c pv chs IH] using node_ind; intros p; [done|].
  rewrite !repr_node. intros (a&n&->&Hn&<-&Hf&HB&Hc). exists a, n.
  split; [done|]. split; [by eapply lookup_weaken|]. split; [done|]. split; [done|].
  split; [by eapply Forall2_impl|].
  apply Forall2_same_length_lookup. apply Forall2_same_length_lookup in Hc as [Hl Hc].
  split; [done|]. intros i x y Hx Hy. apply (proj1 (Forall_lookup _ _) IH _ _ Hy). by eapply Hc.
Qed.
Lemma Forall2_fun {A C} (R : A → C → Prop) l k k' :
  (∀ x y y', R x y → R x y' → y = y') → Forall2 R l k → Forall2 R l k' → k = k'.
Proof.
  intros HR H. revert k'. induction H as [|x y l k Hxy H IH]; intros k' H'; inversion H'; subst; [done|].
  f_equal; eauto.
Qed.
Lemma repr_fun dv B p t t' :
  (∀ a b b', B a b → B a b' → b = b') → repr dv B p t → repr dv B p t' → t = t'.
Proof.
  intros HB. revert p t'. induction t as [|c pv chs IH] using node_ind; intros p t'.
  { rewrite repr_nil. intros ->. by rewrite repr_None. }
  intros (a&n&->&Hn&<-&Hf&Hb&Hc)%repr_node Ht'.
  destruct (repr_Some _ _ _ _ _ Hn Ht') as (c'&chs'&->&Hf'&Hb'&Hc').
  f_equal.
  - destruct c as [bs fl], c' as [bs' fl']. simpl in *. f_equal; [by eapply Forall2_fun|congruence].
  - apply list_eq_same_length with (length chs); [|done|].
    { apply Forall2_length in Hc, Hc'. lia. }
    apply Forall2_same_length_lookup in Hc as [Hl Hc]. apply Forall2_same_length_lookup in Hc' as [Hl' Hc'].
    intros i x y Hi Hx Hy. destruct (lookup_lt_is_Some_2 (LNode.children n) i) as [q Hq]; [lia|].
    eapply (proj1 (Forall_lookup _ _) IH _ _ Hx); eauto.
Qed.

(** ** Reachability *)
Lemma reach_in dv p a : Linked.reachable_node dv p a → is_Some (dv !! a).
Proof. induction 1; eauto. Qed.
Definition reach_buf dv p (ba : Address) : Prop :=
  ∃ a n, Linked.reachable_node dv p a ∧ dv !! a = Some n ∧ ba ∈ LNode.buffers n.
Lemma reach_buf_here dv a n ba : dv !! a = Some n → ba ∈ LNode.buffers n → reach_buf dv (Some a) ba.
Proof. intros. exists a, n. split; [by econstructor|done]. Qed.
Lemma reach_buf_child dv a n i q ba :
  dv !! a = Some n → LNode.children n !! i = Some q → reach_buf dv q ba → reach_buf dv (Some a) ba.
Proof. intros H1 H2 (b&m&H&?&?). exists b, m. split; [|done]. by eapply Linked.reach_child. Qed.

(** A sub-disk that is closed still represents the tree. *)
Lemma repr_shrink dv dv' (B B' : Address → Bufs → Prop) p t :
  dv' ⊆ dv → (∀ a n, dv' !! a = Some n → nd_nondangling_children dv' n) → nd_nondangling dv' p →
  (∀ ba b, reach_buf dv p ba → B ba b → B' ba b) →
  repr dv B p t → repr dv' B' p t.
Proof.
  intros Hd Hnd. revert p. induction t as [|c pv chs IH] using node_ind; intros p Hp HB; [done|].
  rewrite !repr_node. intros (a&n&->&Hn&<-&Hf&Hb&Hc).
  destruct (Hp a eq_refl) as [n' Hn']. pose proof (lookup_weaken _ _ _ _ Hn' Hd) as E.
  rewrite Hn in E. injection E as <-.
  exists a, n. split; [done|]. split; [done|]. split; [done|]. split; [done|]. split.
  - apply Forall2_same_length_lookup. apply Forall2_same_length_lookup in Hb as [Hl Hb].
    split; [done|]. intros i x y Hx Hy. apply HB; [|by eapply Hb].
    eapply reach_buf_here; [done|]. by eapply elem_of_list_lookup_2.
  - apply Forall2_same_length_lookup. apply Forall2_same_length_lookup in Hc as [Hl Hc].
    split; [done|]. intros i x y Hx Hy. apply (proj1 (Forall_lookup _ _) IH _ _ Hy).
    + exact (Hnd _ _ Hn' _ _ Hx).
    + intros ba b Hr. apply HB. by eapply reach_buf_child.
    + by eapply Hc.
Qed.

Notation inB bdv := (λ (ba : Address) (b : Bufs), bdv !! ba = Some b).
Notation lrepr l t := (repr (lb_dv l) (inB (lb_bdv l)) (lb_root l) t).
Lemma inB_fun (bdv : gmap Address Bufs) a b b' : bdv !! a = Some b → bdv !! a = Some b' → b = b'.
Proof. congruence. Qed.

Lemma bufs_exist (bdv : gmap Address Bufs) (l : list Address) :
  (∀ a, a ∈ l → is_Some (bdv !! a)) → ∃ bs, Forall2 (inB bdv) l bs.
Proof.
  induction l as [|x l IH]; intros H; [exists []; constructor|].
  destruct (H x) as [b Hb]; [left|]. destruct IH as [bs Hbs]; [intros; apply H; by right|].
  exists (b :: bs). by constructor.
Qed.
Lemma Forall2_choose {A C} (R : A → C → Prop) l : Forall (λ x, ∃ y, R x y) l → ∃ k, Forall2 R l k.
Proof.
  induction 1 as [|x l [y Hy] _ [k Hk]]; [exists []; constructor|]. exists (y :: k). by constructor.
Qed.
(** Every acyclic disk with all buffers present represents a tree. *)
Lemma repr_exists dv (bdv : gmap Address Bufs) r :
  nd_valid_ranking dv r →
  ∀ k a ra, r !! a = Some ra → ra < k → is_Some (dv !! a) →
    (∀ ba, reach_buf dv (Some a) ba → is_Some (bdv !! ba)) → ∃ t, repr dv (inB bdv) (Some a) t.
Proof.
  intros [Hwf Hr]. induction k as [|k IH]; intros a ra Ha Hlt [n Hn] Hb; [lia|].
  destruct (bufs_exist bdv (LNode.buffers n)) as [bs Hbs].
  { intros ba Hba. apply Hb. by eapply reach_buf_here. }
  assert (∃ ts, Forall2 (repr dv (inB bdv)) (LNode.children n) ts) as [ts Hts].
  { apply Forall2_choose. apply Forall_lookup. intros i [c|] Hc; [|by exists RNil].
    destruct (Hr a n Hn ltac:(by eexists) i c ra Hc Ha) as (rc&Hrc&Hlt').
    destruct (proj2 Hwf _ _ Hn) as [Hnd _]. 
    apply (IH c rc); [done|lia|by apply (Hnd _ _ Hc)|].
    intros ba Hba. apply Hb. by eapply reach_buf_child. }
  exists (RNode (Filtered.mkC bs (LNode.flushed n)) (LNode.pivots n) ts). by apply repr_intro.
Qed.

Lemma linked_repr_exists (l : LB) : Linked.acyclic l → Linked.valid_buffer_dv l → ∃ t, lrepr l t.
Proof.
  intros [_ (r&Hw&Hr&Hrt)] Hb. destruct (lb_root l) as [a|] eqn:E; [|by exists RNil].
  assert (Ha : is_Some (lb_dv l !! a)) by (by apply Hw).
  destruct (Hrt) with a as [ra Hra]; [|done|].
  { destruct Ha as [n Hn]. exists n, a. done. }
  apply (repr_exists _ _ r Hr (S ra) a ra Hra); [lia|done|].
  intros ba Hba. apply Hb. unfold Linked.reachable_buffer. by rewrite E.
Qed.

(** ** Represented trees are well formed *)
Lemma repr_wf dv B p t : nd_wf dv → repr dv B p t →
  fwf t ∧ ∀ a n, p = Some a → dv !! a = Some n → Routed.is_node t ∧ Routed.my_domain t = LNode.my_domain n.
Proof.
  intros Hw. revert p. induction t as [|c pv chs IH] using node_ind; intros p.
  { rewrite repr_nil. intros ->. done. }
  intros (a&n&->&Hn&<-&Hf&Hb&Hc)%repr_node. split.
  2: { intros ? ? [= <-] Hn'. rewrite Hn in Hn'. injection Hn' as <-. done. }
  destruct (proj1 Hw _ _ Hn) as (Hp&Hl&Hl2&Hle). destruct (proj2 Hw _ _ Hn) as [Hnd Hlk].
  apply Forall2_same_length_lookup in Hc as [Hcl Hc].
  apply wf_node. split; [done|]. split. { unfold num_ranges in Hl. destruct Hp as [Hp _]. unfold num_ranges in Hp. lia. }
  split. { split; [congruence|]. rewrite <-Hf. by rewrite <-(Forall2_length _ _ _ Hb). }
  intros i x Hx. destruct (lookup_lt_is_Some_2 (LNode.children n) i) as [q Hq].
  { apply lookup_lt_Some in Hx. lia. }
  destruct (proj1 (Forall_lookup _ _) IH _ _ Hx q (Hc _ _ _ Hq Hx)) as [Hwx Hdx]. split; [done|].
  intros Hnx. destruct q as [ca|].
  - destruct (Hnd _ _ Hq ca eq_refl) as [m Hm]. destruct (Hdx ca m eq_refl Hm) as [_ ->].
    rewrite (Hlk _ _ _ Hq Hm). unfold LNode.child_domain. by rewrite Nat.add_1_r.
  - pose proof (Hc _ _ _ Hq Hx) as Hr. apply repr_None in Hr. by subst.
Qed.
Lemma repr_node_wf dv B p t a n : nd_wf dv → repr dv B p t → p = Some a → dv !! a = Some n → LNode.wf n.
Proof. intros Hw _ _ Hn. by apply (proj1 Hw _ _ Hn). Qed.

(** ** Represented trees are acyclic: heights give a ranking *)
Fixpoint hgt dv (fuel : nat) (a : Address) : option nat :=
  match fuel with
  | 0 => None
  | S f =>
      n ← dv !! a;
      hs ← mapM (λ p : option Address, match p with None => Some 0 | Some c => hgt dv f c end) (LNode.children n);
      Some (S (max_list hs))
  end.
Lemma max_list_le (l : list nat) i x : l !! i = Some x → x ≤ max_list l.
Proof.
  revert i. induction l as [|y l IH]; intros [|i]; simpl; [done|done| |].
  - intros [= ->]. lia.
  - intros H%IH. lia.
Qed.
Lemma hgt_S dv f a h : hgt dv f a = Some h → hgt dv (S f) a = Some h.
Proof.
  revert a h. induction f as [|f IH]; intros a h; [done|].
  cbn [hgt]. destruct (dv !! a) as [n|]; [|done]. simpl.
  destruct (mapM _ (LNode.children n)) as [hs|] eqn:E; [|done]. simpl. intros [= <-].
  assert (E' : mapM (λ p, match p with None => Some 0 | Some c => hgt dv (S f) c end) (LNode.children n) = Some hs).
  { apply mapM_Some. apply mapM_Some in E. eapply Forall2_impl; [exact E|].
    intros [c|] y; [|done]. apply IH. }
  cbn [hgt] in E'. rewrite E'. done.
Qed.
Lemma hgt_mono dv f f' a h : f ≤ f' → hgt dv f a = Some h → hgt dv f' a = Some h.
Proof. induction 1 as [|f' Hle IH]; [done|]. intros H. by apply hgt_S, IH. Qed.
Lemma Forall_bound {A} (P : nat → A → Prop) (l : list A) :
  (∀ n m x, n ≤ m → P n x → P m x) → Forall (λ x, ∃ n, P n x) l → ∃ n, Forall (P n) l.
Proof.
  intros Hm. induction 1 as [|x l [n Hn] _ [m Hf]]; [exists 0; constructor|].
  exists (n `max` m). constructor; [by eapply Hm, Hn; lia|].
  apply Forall_lookup. intros i y Hy. eapply Hm; [|exact (proj1 (Forall_lookup _ _) Hf _ _ Hy)]. lia.
Qed.
Lemma hgt_repr dv B a t : repr dv B (Some a) t → ∃ f h, hgt dv f a = Some h.
Proof.
  revert a. induction t as [|c pv chs IH] using node_ind; intros a; [done|].
  intros (a'&n&[= <-]&Hn&<-&Hf&Hb&Hc)%repr_node.
  destruct (Forall_bound (λ f (p : option Address), ∃ h, match p with None => Some 0 | Some c => hgt dv f c end = Some h)
    (LNode.children n)) as [f Hfh].
  { intros x y [q|] Hle [h Hh]; [|by exists 0]. exists h. by eapply hgt_mono. }
  { apply Forall_lookup. intros i [q|] Hq; [|by exists 0, 0].
    apply Forall2_same_length_lookup in Hc as [Hl Hc].
    destruct (lookup_lt_is_Some_2 chs i) as [x Hx]; [apply lookup_lt_Some in Hq; lia|].
    exact (proj1 (Forall_lookup _ _) IH _ _ Hx q (Hc _ _ _ Hq Hx)). }
  apply Forall2_choose in Hfh as [hs Hhs]. apply mapM_Some in Hhs.
  exists (S f), (S (max_list hs)). cbn [hgt]. rewrite Hn. simpl. by rewrite Hhs.
Qed.
Lemma repr_acyclic (l : LB) t : Linked.wf l → lrepr l t → Linked.acyclic l.
Proof.
  intros Hw Hr. split; [done|].
  assert (∃ f, ∀ a, lb_root l = Some a → is_Some (hgt (lb_dv l) f a)) as [f Hf].
  { destruct (lb_root l) as [a|] eqn:E; [|by exists 0].
    destruct (hgt_repr _ _ _ _ Hr) as (f&h&Hh). exists f. intros ? [= <-]. by exists h. }
  exists (map_imap (λ a _, hgt (lb_dv l) f a) (lb_dv l)). split; [done|]. split.
  - split; [apply Hw|]. intros a n Hn Ha i c ra Hc. rewrite map_lookup_imap, Hn. simpl. intros Hra.
    destruct f as [|f]; [done|]. cbn [hgt] in Hra. rewrite Hn in Hra. simpl in Hra.
    destruct (mapM _ (LNode.children n)) as [hs|] eqn:E; [|done]. injection Hra as <-.
    apply mapM_Some, Forall2_same_length_lookup in E as [Hl E].
    destruct (lookup_lt_is_Some_2 hs i) as [hc Hhc]; [apply lookup_lt_Some in Hc; lia|].
    pose proof (E _ _ _ Hc Hhc) as Hh. simpl in Hh. exists hc. split.
    + destruct (proj2 (proj1 Hw) _ _ Hn) as [Hnd _]. destruct (Hnd _ _ Hc c eq_refl) as [m Hm].
      rewrite map_lookup_imap, Hm. simpl. by apply hgt_S.
    + pose proof (max_list_le _ _ _ Hhc). lia.
  - intros (n&a&Ha&Hn) a' Ha'. rewrite Ha in Ha'. injection Ha' as <-.
    rewrite map_lookup_imap, Hn. simpl. by apply Hf.
Qed.

(** ** Views *)
Lemma view_repr (l new : LB) t :
  Linked.valid_view l new → Linked.reachable_buffers_preserved l new → lrepr l t →
  Linked.wf new ∧ lrepr new t.
Proof.
  intros (Hw&Hrt&Hd&Hag) Hp Hr. split; [done|]. rewrite <-Hrt.
  eapply repr_shrink; [exact Hd| | | |exact Hr].
  - intros a n Hn. by apply (proj2 (proj1 Hw) _ _ Hn).
  - rewrite Hrt. apply Hw.
  - intros ba b Hba Hb. destruct (Hp ba) as [b' Hb'].
    { exact Hba. }
    simpl in *. rewrite Hb'. f_equal. by eapply Hag.
Qed.

(** ** Answers *)
Lemma linked_answers_iff dv bdv p t k m : nd_wf dv → repr dv (inB bdv) p t →
  disk_answers dv bdv p k m ↔ filtered_answers t k m.
Proof.
  intros Hw Hr. pose proof (proj1 (repr_wf _ _ _ _ Hw Hr)) as Hwt. split.
  - intros Ha. revert t Hr Hwt. induction Ha as [k|a n k i lo hi p ofs bs m Hn Hlo Hhi Hl1 Hl2 Hc Ho Hbs Ha IH]; intros t Hr Hwt.
    + apply repr_None in Hr as ->. constructor.
    + destruct (repr_Some _ _ _ _ _ Hn Hr) as (c&chs&->&Hf&Hb&Hch).
      apply Forall2_same_length_lookup in Hch as [Hcl Hch].
      destruct (lookup_lt_is_Some_2 chs i) as [x Hx]; [apply lookup_lt_Some in Hc; lia|].
      rewrite (Forall2_fun (inB bdv) (drop ofs (LNode.buffers n)) bs (drop ofs (Filtered.buffers c)));
        [|apply inB_fun|done|by apply Forall2_drop].
      assert (omap (λ b : gmap N Message, b !! k) (drop ofs (Filtered.buffers c)) = filtered_held c i k) as ->.
      { unfold filtered_held. by rewrite <-Hf, Ho. }
      eapply routed_answers_node; eauto. apply IH; [by eapply Hch|].
      apply wf_node in Hwt as (_&_&_&Hwc). by apply (Hwc _ _ Hx).
  - revert p m Hr. induction t as [|c pv chs IH] using node_ind; intros p m Hr.
    + apply repr_nil in Hr as ->. rewrite (ans_nil filtered_held). intros ->. constructor.
    + unfold filtered_answers. rewrite ans_node. intros (i&x&m'&(lo&hi&Hlo&Hhi&Hl1&Hl2)&Hx&Ha&->).
      apply repr_node in Hr as (a&n&->&Hn&<-&Hf&Hb&Hch).
      apply Forall2_same_length_lookup in Hch as [Hcl Hch].
      destruct (lookup_lt_is_Some_2 (LNode.children n) i) as [q Hq]; [apply lookup_lt_Some in Hx; lia|].
      apply wf_node in Hwt as (_&_&Hd&Hwc).
      destruct (FilteredBetree_Proof.dwf_lookup c _ i Hd) as (o&Ho&_); [by apply lookup_lt_Some in Hx|].
      rewrite (FilteredBetree_Proof.held_eq _ _ _ _ Ho).
      eapply disk_answers_node; [exact Hn|exact Hlo|exact Hhi|done|done|exact Hq|by rewrite Hf|by apply Forall2_drop|].
      apply (proj1 (Forall_lookup _ _) IH _ _ Hx); [by apply (Hwc _ _ Hx)|by eapply Hch|done].
Qed.

(** ** Paths *)
Lemma root_node_eq (l : LB) a n : lb_root l = Some a → lb_dv l !! a = Some n → Linked.root_node l = n.
Proof. intros H1 H2. unfold Linked.root_node. by rewrite H1, H2. Qed.
Lemma lrepr_node (l : LB) t : lrepr l t → Linked.has_root l →
  ∃ a n c chs, lb_root l = Some a ∧ lb_dv l !! a = Some n ∧ Linked.root_node l = n ∧
    t = RNode c (LNode.pivots n) chs ∧ LNode.flushed n = Filtered.flushed c ∧
    Forall2 (inB (lb_bdv l)) (LNode.buffers n) (Filtered.buffers c) ∧
    Forall2 (repr (lb_dv l) (inB (lb_bdv l))) (LNode.children n) chs.
Proof.
  intros Hr (n&a&Ha&Hn). rewrite Ha in Hr. destruct (repr_Some _ _ _ _ _ Hn Hr) as (c&chs&->&?&?&?).
  exists a, n, c, chs. split; [done|]. split; [done|]. split; [by eapply root_node_eq|]. done.
Qed.
Lemma repr_nth dv B ps ts i : Forall2 (repr dv B) ps ts → repr dv B (nth i ps None) (nth i ts RNil).
Proof. intros H. revert i. induction H as [|q t ps ts Hq H IH]; intros [|i]; done || apply IH. Qed.
Lemma repr_index dv B ps ts : Forall2 (repr dv B) ps ts →
  Forall (λ q, q ≠ None) ps → Forall Routed.is_node ts.
Proof.
  induction 1 as [|q t ps ts Hq H IH]; [constructor|]. inversion 1; subst. constructor; [|by apply IH].
  intros ->. by apply repr_nil in Hq.
Qed.
Lemma child_repr (l : LB) t k : lrepr l t → Linked.has_root l → lrepr (Linked.child_for_key l k) (Routed.child t k).
Proof.
  intros Hr Hh. destruct (lrepr_node _ _ Hr Hh) as (a&n&c&chs&Ha&Hn&Hrn&->&Hf&Hb&Hc).
  unfold Linked.child_for_key, Linked.with_root. cbn [lb_dv lb_bdv lb_root]. rewrite Hrn.
  unfold LNode.child_ptr, LNode.child_at, Routed.child, Routed.child_at. cbn [Routed.pivots_of Routed.children_of].
  by apply repr_nth.
Qed.
Lemma child_idx_repr (l : LB) t i : lrepr l t → Linked.has_root l → lrepr (Linked.child_at_idx l i) (Routed.child_at t i).
Proof.
  intros Hr Hh. destruct (lrepr_node _ _ Hr Hh) as (a&n&c&chs&Ha&Hn&Hrn&->&Hf&Hb&Hc).
  unfold Linked.child_at_idx, Linked.with_root. cbn [lb_dv lb_bdv lb_root]. rewrite Hrn. by apply repr_nth.
Qed.
Lemma target_disk (l : LB) key depth :
  lb_dv (Linked.path_target l key depth) = lb_dv l ∧ lb_bdv (Linked.path_target l key depth) = lb_bdv l.
Proof. revert l. induction depth as [|d IH]; intros l; [done|]. apply (IH (Linked.child_for_key l key)). Qed.
Lemma path_repr (l : LB) key depth t :
  lrepr l t → Linked.path_valid l key depth →
  Routed.path_valid Filtered.dwf t key depth ∧
  lrepr (Linked.path_target l key depth) (Routed.path_target t key depth).
Proof.
  revert l t. induction depth as [|d IH]; intros l t Hr (Hh&Hac&Hk&Hv).
  - split; [|exact Hr]. pose proof (proj1 (repr_wf _ _ _ _ (proj1 (proj1 Hac)) Hr)) as Hw.
    split; [done|]. split; [|done].
    destruct (lrepr_node _ _ Hr Hh) as (a&n&c&chs&Ha&Hn&Hrn&->&_). rewrite Hrn in Hk.
    split; [done|]. split; [done|]. apply Hk.
  - destruct Hv as [Hi Hv]. pose proof (proj1 (repr_wf _ _ _ _ (proj1 (proj1 Hac)) Hr)) as Hw.
    destruct (IH _ _ (child_repr _ _ key Hr Hh) Hv) as [H1 H2].
    split; [|exact H2].
    destruct (lrepr_node _ _ Hr Hh) as (a&n&c&chs&Ha&Hn&Hrn&->&_&_&Hc). rewrite Hrn in Hk, Hi.
    split; [done|]. split. { split; [done|]. split; [done|]. apply Hk. }
    split; [|exact H1]. split; [done|]. by eapply repr_index.
Qed.

(** What an operation does: it adds pages at unused addresses and its result
    represents the tree [t']. *)
Definition extends (l l' : LB) (new : gset Address) (t' : FTree) : Prop :=
  lb_dv l ⊆ lb_dv l' ∧ lb_bdv l ⊆ lb_bdv l' ∧ dom (lb_dv l') = dom (lb_dv l) ∪ new ∧ lrepr l' t'.

Lemma Forall2_insert_r {A C} (R : A → C → Prop) l k i x y :
  Forall2 R l k → R x y → Forall2 R (<[i := x]> l) (<[i := y]> k).
Proof. intros. by apply Forall2_insert. Qed.
Lemma substitute_repr (l : LB) key depth (r : LB) t t' new pa :
  lrepr l t → Linked.path_valid l key depth → depth = length pa → NoDup pa →
  list_to_set pa ## dom (lb_dv l) → new ## list_to_set pa →
  extends l r new t' →
  extends l (Linked.path_substitute l key depth r pa) (new ∪ list_to_set pa) (Routed.path_substitute t key depth t') ∧
  lb_bdv (Linked.path_substitute l key depth r pa) = lb_bdv r.
Proof.
  intros Hr Hv -> Hnd Hfr Hdj He. revert l t Hr Hv Hnd Hfr Hdj He.
  induction pa as [|x pa IH]; intros l t Hr Hv Hnd Hfr Hdj He.
  - cbn [length Linked.path_substitute Routed.path_substitute]. split; [|done].
    destruct He as (H1&H2&H3&H4). split; [done|]. split; [done|]. split; [|done].
    rewrite H3. set_solver.
  - cbn [length]. destruct Hv as (Hh&Hac&Hk&Hi&Hv).
    pose proof (child_repr _ _ key Hr Hh) as Hrc.
    destruct (IH (Linked.child_for_key l key) _ Hrc Hv) as [(H1&H2&H3&H4) H5].
    { by inversion Hnd. } { cbn in Hfr. set_solver. } { cbn in Hdj. set_solver. }
    { exact He. }
    clear IH. destruct (lrepr_node _ _ Hr Hh) as (a&n&c&chs&Ha&Hn&Hrn&->&Hf&Hb&Hc).
    cbn [Linked.path_substitute Routed.path_substitute]. rewrite Hrn. split; [|done].
    set (sub := Linked.path_substitute (Linked.child_for_key l key) key (length pa) r pa) in *.
    change (lb_dv (Linked.child_for_key l key)) with (lb_dv l) in *.
    change (lb_bdv (Linked.child_for_key l key)) with (lb_bdv l) in *.
    assert (Hx : lb_dv sub !! x = None).
    { apply not_elem_of_dom. rewrite H3. inversion Hnd; subst. cbn in Hfr, Hdj. set_solver. }
    split; [cbn [lb_dv]; etransitivity; [exact H1|by apply insert_subseteq]|].
    split; [cbn [lb_bdv]; by rewrite <-H5|].
    split; [cbn [lb_dv]; rewrite dom_insert_L, H3; cbn; set_solver|].
    cbn [lb_dv lb_bdv lb_root].
    set (n' := LNode.mk (LNode.buffers n) (LNode.pivots n) (<[route_idx (LNode.pivots n) key := lb_root sub]> (LNode.children n)) (LNode.flushed n)).
    apply (repr_intro _ _ x n').
    + apply lookup_insert.
    + done.
    + cbn [LNode.buffers n']. eapply Forall2_impl; [exact Hb|]. intros ba b Hba. simpl in *.
      rewrite <-H5. by eapply lookup_weaken.
    + cbn [LNode.children n']. apply Forall2_insert_r.
      * eapply Forall2_impl; [exact Hc|]. intros q y. apply repr_mono.
        -- etransitivity; [exact H1|by apply insert_subseteq].
        -- intros ba b Hba. rewrite <-H5. by eapply lookup_weaken.
      * eapply repr_mono; [by apply insert_subseteq| |exact H4]. intros ba b. by rewrite <-H5.
Qed.

(** ** Operations *)
Lemma fresh_not (l : LB) s a : Linked.is_fresh l s → a ∈ s → lb_dv l !! a = None ∧ lb_bdv l !! a = None.
Proof. intros [H1 H2] Ha. split; apply not_elem_of_dom; set_solver. Qed.
Lemma push_memtable_repr (l : LB) t mt sealed na :
  lrepr l t → Linked.wf l → two_no_dup na → Linked.is_fresh l (two_repr na) → sealed = mt_buffer mt →
  extends l (Linked.push_memtable l sealed na) {[ addr1 na ]} (Filtered.push_memtable t mt).
Proof.
  intros Hr Hw Hnd Hfr ->. destruct (fresh_not _ _ (addr1 na) Hfr) as [F1 _]; [set_solver|].
  destruct (fresh_not _ _ (addr2 na) Hfr) as [_ F2]; [set_solver|].
  unfold Linked.push_memtable. split; [by apply insert_subseteq|]. split; [by apply insert_subseteq|].
  split; [cbn [lb_dv]; rewrite dom_insert_L; set_solver|]. cbn [lb_dv lb_bdv lb_root].
  unfold Filtered.push_memtable.
  assert (Hmono : ∀ n' q y, repr (lb_dv l) (inB (lb_bdv l)) q y →
    repr (<[addr1 na:=n']> (lb_dv l)) (inB (<[addr2 na:=mt_buffer mt]> (lb_bdv l))) q y).
  { intros n' q y. apply repr_mono; [by apply insert_subseteq|]. intros ba b Hba.
    eapply lookup_weaken; [exact Hba|by apply insert_subseteq]. }
  destruct (lb_root l) as [a|] eqn:E.
  - destruct (proj2 Hw a E) as [n Hn]. rewrite Hn. cbn [default].
    destruct (repr_Some _ _ _ _ _ Hn Hr) as (c&chs&->&Hf&Hb&Hc). cbn [Filtered.promote Filtered.extend_buffer_seq].
    apply (repr_intro _ _ (addr1 na) (LNode.extend_buffer_seq n [addr2 na])); [apply lookup_insert|done| |].
    + cbn [LNode.extend_buffer_seq LNode.buffers Filtered.buffers]. apply Forall2_app.
      * eapply Forall2_impl; [exact Hb|]. intros ba b Hba. eapply lookup_weaken; [exact Hba|by apply insert_subseteq].
      * constructor; [|constructor]. apply lookup_insert.
    + cbn [LNode.extend_buffer_seq LNode.children]. eapply Forall2_impl; [exact Hc|]. apply Hmono.
  - apply repr_None in Hr as ->. cbn [Filtered.promote Filtered.extend_buffer_seq Filtered.empty_root default].
    apply (repr_intro _ _ (addr1 na) (LNode.extend_buffer_seq (LNode.empty_root total_domain) [addr2 na]));
      [apply lookup_insert|done| |].
    + cbn. constructor; [|constructor]. apply lookup_insert.
    + cbn. constructor; [done|constructor].
Qed.
Lemma grow_repr (l : LB) t a :
  lrepr l t → lb_dv l !! a = None → extends l (Linked.grow l a) {[ a ]} (Filtered.grow t).
Proof.
  intros Hr Ha. unfold Linked.grow. split; [by apply insert_subseteq|]. split; [done|].
  split; [cbn [lb_dv]; rewrite dom_insert_L; set_solver|]. cbn [lb_dv lb_bdv lb_root].
  unfold Filtered.grow.
  apply (repr_intro _ _ a (LNode.mk [] (domain_to_pivots total_domain) [lb_root l] [0])); [apply lookup_insert|done|constructor|].
  cbn. constructor; [|constructor]. eapply repr_mono; [by apply insert_subseteq| |exact Hr]. done.
Qed.
Lemma Forall2_subrange {A C} (R : A → C → Prop) l k a b :
  Forall2 R l k → Forall2 R (subrange l a b) (subrange k a b).
Proof. intros H. unfold subrange. by apply Forall2_take, Forall2_drop. Qed.
Lemma Forall2_seq_insert {A C} (R : A → C → Prop) l k i x y :
  Forall2 R l k → R x y → Forall2 R (seq_insert l i x) (seq_insert k i y).
Proof.
  intros H Hx. unfold seq_insert. apply Forall2_app; [by apply Forall2_take|].
  constructor; [done|by apply Forall2_drop].
Qed.
Lemma leaf_repr dv B n c chs :
  LNode.flushed n = Filtered.flushed c → Forall2 (repr dv B) (LNode.children n) chs →
  LNode.is_leaf n → Filtered.is_leaf (RNode c (LNode.pivots n) chs).
Proof.
  intros Hf Hc [H1 H2]. split; [done|]. cbn [Routed.children_of Filtered.contents_of].
  split; [|congruence]. rewrite H1 in Hc. inversion Hc as [|? y ? ys Hy Hys]; subst.
  inversion Hys; subst. apply repr_None in Hy as ->. done.
Qed.
Lemma can_split_repr (l : LB) t r :
  lrepr l t → Linked.can_split_parent l r → Filtered.can_split_parent t r.
Proof.
  intros Hr (Hw&Hh&Hi&Hhc&Hm). pose proof (proj1 (repr_wf _ _ _ _ (proj1 Hw) Hr)) as Hwt.
  pose proof (child_idx_repr _ _ (request_child r) Hr Hh) as Hrc.
  pose proof (proj1 (repr_wf _ _ _ _ (proj1 Hw) Hrc)) as Hwc.
  destruct (lrepr_node _ _ Hr Hh) as (a&n&c&chs&Ha&Hn&Hrn&->&Hf&Hb&Hc). rewrite Hrn in Hi.
  assert (Hlen : length chs = length (LNode.children n)) by (by apply Forall2_length in Hc).
  destruct (lrepr_node _ _ Hrc Hhc) as (a'&n'&c'&chs'&Ha'&Hn'&Hrn'&E&Hf'&Hb'&Hc').
  split; [done|]. split; [done|].
  destruct r as [i k|i j]; cbn [request_child] in *; rewrite Hrn' in Hm.
  - split. { split; [done|]. cbn [Routed.children_of]. lia. }
    rewrite E in *. destruct Hm as (Hw1&Hlf&Hd1&Hd2). split; [done|]. split; [by eapply leaf_repr|]. done.
  - split. { split; [done|]. cbn [Routed.children_of]. lia. }
    rewrite E in *. destruct Hm as (Hw1&Hix&Hj). split; [done|]. split; [|done].
    split; [done|]. cbn [Routed.children_of]. by eapply repr_index.
Qed.
Lemma split_repr_ok (l : LB) t r na :
  lrepr l t → Linked.can_split_parent l r → split_no_dup na → Linked.is_fresh l (split_repr na) →
  extends l (Linked.split_parent l r na) (split_repr na) (Filtered.split_parent t r).
Proof.
  intros Hr (Hw&Hh&Hi&Hhc&Hm) (D1&D2&D3) Hfr.
  destruct (fresh_not _ _ (sa_left na) Hfr) as [F1 _]; [set_solver|].
  destruct (fresh_not _ _ (sa_right na) Hfr) as [F2 _]; [set_solver|].
  destruct (fresh_not _ _ (sa_parent na) Hfr) as [F3 _]; [set_solver|].
  pose proof (child_idx_repr _ _ (request_child r) Hr Hh) as Hrc.
  destruct (lrepr_node _ _ Hr Hh) as (a&n&c&chs&Ha&Hn&Hrn&->&Hf&Hb&Hc).
  destruct (lrepr_node _ _ Hrc Hhc) as (a'&n'&c'&chs'&Ha'&Hn'&Hrn'&E&Hf'&Hb'&Hc').
  assert (Hsub : ∀ nl nr np, lb_dv l ⊆ <[sa_parent na:=np]> (<[sa_right na:=nr]> (<[sa_left na:=nl]> (lb_dv l)))).
  { intros. apply map_subseteq_spec. intros x y Hx.
    rewrite !lookup_insert_ne by (intros <-; congruence). done. }
  assert (Hdom : ∀ nl nr np, dom (<[sa_parent na:=np]> (<[sa_right na:=nr]> (<[sa_left na:=nl]> (lb_dv l)))) = dom (lb_dv l) ∪ split_repr na).
  { intros. rewrite !dom_insert_L. unfold split_repr. set_solver. }
  (* the three new pages, for any pair of halves *)
  assert (Hmain : ∀ i nl nr e tl tr,
    (∀ dv', lb_dv l ⊆ dv' → dv' !! sa_left na = Some nl → repr dv' (inB (lb_bdv l)) (Some (sa_left na)) tl) →
    (∀ dv', lb_dv l ⊆ dv' → dv' !! sa_right na = Some nr → repr dv' (inB (lb_bdv l)) (Some (sa_right na)) tr) →
    let np := LNode.mk (LNode.buffers n) (pt_insert (LNode.pivots n) (i + 1) e)
       (seq_insert (<[i := Some (sa_left na)]> (LNode.children n)) (i + 1) (Some (sa_right na))) (ofs_dup (LNode.flushed n) i) in
    extends l (mkLB (Some (sa_parent na)) (<[sa_parent na:=np]> (<[sa_right na:=nr]> (<[sa_left na:=nl]> (lb_dv l)))) (lb_bdv l))
      (split_repr na)
      (RNode (Filtered.mkC (Filtered.buffers c) (ofs_dup (Filtered.flushed c) i)) (pt_insert (LNode.pivots n) (i + 1) e)
         (seq_insert (<[i := tl]> chs) (i + 1) tr))).
  { intros i nl nr e tl tr Hl' Hr' np. split; [apply Hsub|]. split; [done|]. split; [apply Hdom|].
    cbn [lb_dv lb_bdv lb_root]. apply (repr_intro _ _ (sa_parent na) np).
    - apply lookup_insert.
    - cbn [np LNode.flushed Filtered.flushed]. by rewrite Hf.
    - done.
    - cbn [np LNode.children]. apply Forall2_seq_insert; [apply Forall2_insert_r|].
      + eapply Forall2_impl; [exact Hc|]. intros q y. apply repr_mono; [apply Hsub|done].
      + apply Hl'; [apply Hsub|]. rewrite lookup_insert_ne, lookup_insert_ne by done. apply lookup_insert.
      + apply Hr'; [apply Hsub|]. rewrite lookup_insert_ne by done. apply lookup_insert. }
  destruct r as [i k|i j]; cbn [request_child] in *.
  - cbn [Linked.split_parent LNode.split_leaf Filtered.split_parent]. rewrite Hrn, Hrn', E. cbn [Filtered.split_leaf].
    apply Hmain.
    + intros dv' Hd Hx. apply (repr_intro _ (inB (lb_bdv l)) _ _ c' chs') in Hx; [exact Hx|done|done|].
      eapply Forall2_impl; [exact Hc'|]. intros q y. by apply repr_mono.
    + intros dv' Hd Hx. apply (repr_intro _ (inB (lb_bdv l)) _ _ c' chs') in Hx; [exact Hx|done|done|].
      eapply Forall2_impl; [exact Hc'|]. intros q y. by apply repr_mono.
  - cbn [Linked.split_parent LNode.split_index Filtered.split_parent]. rewrite Hrn, Hrn', E. cbn [Filtered.split_index Routed.pivots_of].
    assert (HL : length chs' = length (LNode.children n')) by (by apply Forall2_length in Hc').
    apply Hmain.
    + intros dv' Hd Hx.
      apply (repr_intro _ (inB (lb_bdv l)) _ _ (Filtered.mkC (Filtered.buffers c') (ofs_slice (Filtered.flushed c') 0 j)) (subrange chs' 0 j)) in Hx; [exact Hx| |done|].
      * cbn [LNode.flushed Filtered.flushed]. by rewrite Hf'.
      * cbn [LNode.children]. apply Forall2_subrange.
        eapply Forall2_impl; [exact Hc'|]. intros q y. by apply repr_mono.
    + intros dv' Hd Hx.
      apply (repr_intro _ (inB (lb_bdv l)) _ _ (Filtered.mkC (Filtered.buffers c') (ofs_slice (Filtered.flushed c') j (length (Filtered.flushed c'))))
        (subrange chs' j (length chs'))) in Hx; [exact Hx| |done|].
      * cbn [LNode.flushed Filtered.flushed]. by rewrite Hf'.
      * cbn [LNode.children]. rewrite HL. apply Forall2_subrange.
        eapply Forall2_impl; [exact Hc'|]. intros q y. by apply repr_mono.
Qed.

Lemma can_flush_repr (l : LB) t i gc :
  lrepr l t → Linked.can_flush l i gc →
  Filtered.can_flush t i gc ∧ Linked.has_root (Linked.child_at_idx l i).
Proof.
  intros Hr (Hw&Hh&[Hi Ho]&Hg). pose proof (proj1 (repr_wf _ _ _ _ (proj1 Hw) Hr)) as Hwt.
  destruct (lrepr_node _ _ Hr Hh) as (a&n&c&chs&Ha&Hn&Hrn&->&Hf&Hb&Hc). rewrite Hrn in Hi, Ho, Hg.
  split.
  - split; [done|]. split; [done|]. split.
    + split; [done|]. cbn [Routed.children_of]. apply Forall2_length in Hc. lia.
    + cbn [Filtered.contents_of]. rewrite <-Hf. by rewrite <-(Forall2_length _ _ _ Hb).
  - destruct (LNode.child_at n i) as [ca|] eqn:E; [|done].
    destruct (lookup_lt_is_Some_2 _ _ Hi) as [q Hq].
    assert (q = Some ca) as ->. { unfold LNode.child_at in E. by rewrite (nth_lookup_Some _ _ _ _ Hq) in E. }
    destruct (proj1 (proj2 (proj1 Hw) _ _ Hn) _ _ Hq ca eq_refl) as [m Hm].
    exists m, ca. unfold Linked.child_at_idx, Linked.with_root. cbn [lb_root lb_dv]. by rewrite Hrn.
Qed.
Lemma flush_repr (l : LB) t i gc na :
  lrepr l t → Linked.can_flush l i gc → two_no_dup na → Linked.is_fresh l (two_repr na) →
  extends l (Linked.flush l i gc na) (two_repr na) (Filtered.flush t i gc).
Proof.
  intros Hr Hcf Hd Hfr. destruct (can_flush_repr _ _ _ _ Hr Hcf) as [_ Hhc].
  destruct Hcf as (Hw&Hh&[Hi Ho]&Hg).
  destruct (fresh_not _ _ (addr1 na) Hfr) as [F1 _]; [set_solver|].
  destruct (fresh_not _ _ (addr2 na) Hfr) as [F2 _]; [set_solver|].
  pose proof (child_idx_repr _ _ i Hr Hh) as Hrc.
  destruct (lrepr_node _ _ Hr Hh) as (a&n&c&chs&Ha&Hn&Hrn&->&Hf&Hb&Hc).
  destruct (lrepr_node _ _ Hrc Hhc) as (a'&n'&c'&chs'&Ha'&Hn'&Hrn'&E&Hf'&Hb'&Hc').
  unfold Linked.flush, Linked.flush_buffers. rewrite Hrn, Hrn'.
  set (nc := LNode.extend_buffer_seq n' _). set (nr := LNode.mk _ _ _ _).
  assert (Hsub : lb_dv l ⊆ <[addr2 na:=nc]> (<[addr1 na:=nr]> (lb_dv l))).
  { apply map_subseteq_spec. intros x y Hx. rewrite !lookup_insert_ne by (intros <-; congruence). done. }
  split; [exact Hsub|]. split; [done|]. cbn [lb_dv lb_bdv lb_root].
  split. { rewrite !dom_insert_L. unfold two_repr. set_solver. }
  cbn [Filtered.flush]. rewrite E. cbn [Filtered.promote Filtered.extend_buffer_seq].
  assert (HbL : length (Filtered.buffers c) = length (LNode.buffers n)) by (by apply Forall2_length in Hb).
  rewrite HbL, <-Hf.
  apply (repr_intro _ _ (addr1 na) nr).
  - rewrite lookup_insert_ne by (intros Heq; by apply Hd). apply lookup_insert.
  - done.
  - cbn [nr LNode.buffers Filtered.buffers]. by apply Forall2_subrange.
  - cbn [nr LNode.children]. apply Forall2_insert_r.
    + eapply Forall2_impl; [exact Hc|]. intros q y. apply repr_mono; [exact Hsub|done].
    + apply (repr_intro _ _ (addr2 na) nc).
      * apply lookup_insert.
      * done.
      * cbn [nc LNode.buffers LNode.extend_buffer_seq Filtered.buffers]. apply Forall2_app; [done|].
        by apply Forall2_subrange.
      * cbn [nc LNode.children LNode.extend_buffer_seq].
        eapply Forall2_impl; [exact Hc'|]. intros q y. apply repr_mono; [exact Hsub|done].
Qed.

(** Buffer stacks read from the disk. *)
Lemma bd_query_all_eq (bdv : gmap Address Bufs) las bs k :
  Forall2 (inB bdv) las bs → Linked.bd_query_all bdv las k = bufs_query bs k.
Proof.
  induction 1 as [|a b las bs Hab H IH]; [done|]. cbn [Linked.bd_query_all bufs_query]. rewrite IH. f_equal.
  unfold Linked.bd_query. by rewrite Hab.
Qed.
Lemma bd_query_from_eq (bdv : gmap Address Bufs) las bs k s :
  Forall2 (inB bdv) las bs → Linked.bd_query_from bdv las k s = query_from bs k s.
Proof. intros H. apply bd_query_all_eq. by apply Forall2_drop. Qed.
Lemma key_in_filtered_eq (bdv : gmap Address Bufs) las bs o from k i :
  Forall2 (inB bdv) las bs →
  Linked.bd_key_in_buffer_filtered bdv las o from k i ↔ key_in_buffer_filtered bs o from k i.
Proof.
  intros H%Forall2_same_length_lookup. destruct H as [Hl H].
  unfold Linked.bd_key_in_buffer_filtered, key_in_buffer_filtered.
  assert ((∃ a, las !! i = Some a ∧ Linked.queryable_contains bdv a k) ↔ (∃ b, bs !! i = Some b ∧ is_Some (b !! k))) as ->; [|done].
  split.
  - intros (a&Ha&b&Hb&Hk). destruct (lookup_lt_is_Some_2 bs i) as [b' Hb']; [apply lookup_lt_Some in Ha; lia|].
    exists b'. split; [done|]. pose proof (H _ _ _ Ha Hb') as E. simpl in E. rewrite Hb in E. injection E as <-. done.
  - intros (b&Hb&Hk). destruct (lookup_lt_is_Some_2 las i) as [a Ha]; [apply lookup_lt_Some in Hb; lia|].
    exists a. split; [done|]. exists b. split; [by apply (H _ _ _ Ha Hb)|done].
Qed.
Lemma can_compact_repr (l : LB) t a b cb bdv' na :
  lrepr l t → Linked.can_compact l a b cb bdv' na → Filtered.can_compact t a b cb.
Proof.
  intros Hr (Hw&Hh&Hab&Hdom&Hval). pose proof (proj1 (repr_wf _ _ _ _ (proj1 Hw) Hr)) as Hwt.
  destruct (lrepr_node _ _ Hr Hh) as (ad&n&c&chs&Ha&Hn&Hrn&->&Hf&Hb&Hc). rewrite Hrn in Hab, Hdom, Hval.
  assert (HbL : length (Filtered.buffers c) = length (LNode.buffers n)) by (by apply Forall2_length in Hb).
  assert (Hofs : ∀ k, Filtered.flushed_ofs (RNode c (LNode.pivots n) chs) k = LNode.flushed_ofs n k).
  { intros k. unfold Filtered.flushed_ofs, LNode.flushed_ofs. cbn [Filtered.contents_of Routed.pivots_of]. by rewrite Hf. }
  assert (Hmap : ∀ k, Filtered.make_offset_map (RNode c (LNode.pivots n) chs) k = LNode.make_offset_map n k).
  { intros k. unfold Filtered.make_offset_map, LNode.make_offset_map. rewrite Hofs. cbn [Filtered.contents_of Routed.pivots_of].
    by rewrite HbL. }
  pose proof (Forall2_subrange _ _ _ a b Hb) as Hs.
  split; [done|]. split; [done|]. cbn [Filtered.contents_of]. split; [lia|]. split.
  - intros k. rewrite (Hdom k). unfold Linked.valid_compact_key_domain, Filtered.valid_compact_key_domain.
    rewrite Hofs. cbn [Filtered.contents_of].
    setoid_rewrite (key_in_filtered_eq _ _ _ _ _ _ _ Hs).
    unfold key_in_buffer_filtered, offsets_decrement. rewrite Hmap.
    assert (LNode.key_in_domain n k ↔ Routed.key_in_domain Filtered.dwf (RNode c (LNode.pivots n) chs) k) as ->; [|done].
    unfold LNode.key_in_domain, Routed.key_in_domain. cbn [Routed.pivots_of].
    split; [intros [_ H]; done|]. intros (_&_&H). split; [by apply (proj1 (proj1 Hw) _ _ Hn)|done].
  - intros k Hk. pose proof (Hval k Hk) as E. cbn in E. rewrite E. unfold Linked.compact_key_value.
    rewrite (bd_query_from_eq _ _ _ _ _ Hs). by rewrite Hofs.
Qed.
Lemma compact_repr (l : LB) t a b cb bdv' na :
  lrepr l t → Linked.can_compact l a b cb bdv' na → two_no_dup na → Linked.is_fresh l (two_repr na) →
  extends l (Linked.compact l a b cb na) {[ addr1 na ]} (Filtered.compact t a b cb).
Proof.
  intros Hr (Hw&Hh&Hab&_) Hd Hfr.
  destruct (fresh_not _ _ (addr1 na) Hfr) as [F1 _]; [set_solver|].
  destruct (fresh_not _ _ (addr2 na) Hfr) as [_ F2]; [set_solver|].
  destruct (lrepr_node _ _ Hr Hh) as (ad&n&c&chs&Ha&Hn&Hrn&->&Hf&Hb&Hc).
  unfold Linked.compact. rewrite Hrn. rewrite Hrn in Hab. set (nr := LNode.mk _ _ _ _).
  split; [by apply insert_subseteq|]. split; [by apply insert_subseteq|]. cbn [lb_dv lb_bdv lb_root].
  split; [rewrite dom_insert_L; set_solver|]. cbn [Filtered.compact].
  assert (Hb' : Forall2 (inB (<[addr2 na:=cb]> (lb_bdv l))) (LNode.buffers n) (Filtered.buffers c)).
  { eapply Forall2_impl; [exact Hb|]. intros ba x Hba. eapply lookup_weaken; [exact Hba|by apply insert_subseteq]. }
  apply (repr_intro _ _ (addr1 na) nr).
  - apply lookup_insert.
  - cbn [nr LNode.flushed Filtered.flushed]. by rewrite Hf.
  - cbn [nr LNode.buffers Filtered.buffers]. unfold ls_update_subrange, update_subrange.
    assert (subrange (LNode.buffers n) 0 a = take a (LNode.buffers n)) as ->.
    { unfold subrange. by rewrite Nat.sub_0_r. }
    assert (subrange (LNode.buffers n) b (length (LNode.buffers n)) = drop b (LNode.buffers n)) as ->.
    { unfold subrange. apply take_ge. rewrite drop_length. lia. }
    apply Forall2_app; [by apply Forall2_take|]. constructor; [apply lookup_insert|by apply Forall2_drop].
  - cbn [nr LNode.children]. eapply Forall2_impl; [exact Hc|]. intros q y. apply repr_mono; [by apply insert_subseteq|].
    intros ba x Hba. eapply lookup_weaken; [exact Hba|by apply insert_subseteq].
Qed.

(** ** Receipts *)
Section Receipt.
  Context (l0 : LB) (k : Key).
  Definition lk (l l' : @Linked.Line Bufs) : Prop :=
    Linked.has_root (Linked.line_linked l) ∧ Linked.acyclic (Linked.line_linked l) ∧
    lb_dv (Linked.line_linked l) = lb_dv l0 ∧ lb_bdv (Linked.line_linked l) = lb_bdv l0 ∧
    Paged.is_define (Linked.line_result l) ∧
    Linked.valid_buffers (lb_bdv l0) (LNode.buffers (Linked.root_node (Linked.line_linked l))) ∧
    LNode.key_in_domain (Linked.root_node (Linked.line_linked l)) k ∧
    lb_root (Linked.line_linked l') = LNode.child_ptr (Linked.root_node (Linked.line_linked l)) k ∧
    let n := Linked.root_node (Linked.line_linked l) in
    Linked.line_result l = merge (Linked.line_result l')
      (Linked.bd_query_from (lb_bdv l0) (LNode.buffers n) k (LNode.flushed_ofs n k)).
  Definition lfin (l : @Linked.Line Bufs) : Prop :=
    ¬ Linked.has_root (Linked.line_linked l) ∧ Linked.acyclic (Linked.line_linked l) ∧
    lb_dv (Linked.line_linked l) = lb_dv l0 ∧ lb_bdv (Linked.line_linked l) = lb_bdv l0 ∧
    Linked.line_result l = message_empty.
  Lemma valid_lchain r :
    Linked.valid_for r l0 k →
    chain lk lfin (Linked.rc_lines r) ∧ ∃ x, Linked.rc_lines r !! 0 = Some x ∧ Linked.line_linked x = l0.
  Proof.
    intros (((Hw&H0&Hd&Hlast)&(Hl1&Hl2)&Hc&Hres)&El&Ek). unfold Linked.child_linked_at, Linked.result_linked_at in *.
    rewrite El in *. rewrite Ek in *. split; [|done]. apply chain_index. split.
    { intros E. destruct H0 as (?&H0&_). by rewrite E in H0. }
    intros i a Ha. destruct (Hd _ _ Ha) as (D1&D2&D3). destruct (Hl1 _ _ Ha) as [W1 W2]. split.
    - intros Hi. destruct (lookup_lt_is_Some_2 (Linked.rc_lines r) (S i)) as [a' Ha']; [lia|].
      exists a'. split; [done|]. destruct (Hl2 _ _ Hi Ha) as [V1 V2].
      split; [by apply D3|]. split; [done|]. split; [done|]. split; [done|]. split; [done|].
      split; [done|]. split; [done|]. split; [by apply (Hc _ Hi)|by apply (Hres _ Hi)].
    - intros ->. destruct Hlast as (ll&Hll&E). rewrite Ha in Hll. injection Hll as <-.
      split; [|done]. rewrite D3. lia.
  Qed.
  Lemma lchain_valid ls x : Linked.wf l0 →
    chain lk lfin ls → ls !! 0 = Some x → Linked.line_linked x = l0 →
    Linked.valid_for (Linked.mkReceipt k l0 ls) l0 k.
  Proof.
    intros Hw Hch Hx Hxl. apply chain_index in Hch as [Hne Hch]. split; [|done].
    assert (Hcase : ∀ i a, ls !! i = Some a → (i < length ls - 1 ∧ ∃ a', ls !! S i = Some a' ∧ lk a a') ∨ (i = length ls - 1 ∧ lfin a)).
    { intros i a Ha. destruct (Hch _ _ Ha) as [H1 H2]. pose proof (lookup_lt_Some _ _ _ Ha).
      destruct (decide (i < length ls - 1)); [left; eauto|right]. split; [lia|apply H2; lia]. }
    split; [|split; [|split]].
    - split; [done|]. cbn [Linked.rc_lines Linked.rc_linked]. split; [by exists x|]. split.
      + intros i a Ha. destruct (Hcase _ _ Ha) as [(Hi&a'&_&L)|(Hi&L)].
        * destruct L as (?&?&?&?&_). split; [done|]. split; [done|]. split; [lia|done].
        * destruct L as (?&?&?&?&_). split; [done|]. split; [done|]. split; [done|lia].
      + destruct (lookup_lt_is_Some_2 ls (length ls - 1)) as [a Ha]; [destruct ls; [done|simpl; lia]|].
        exists a. split; [done|]. destruct (Hcase _ _ Ha) as [(Hi&_)|(_&L)]; [lia|]. apply L.
    - split; cbn [Linked.rc_lines Linked.rc_linked Linked.rc_key].
      + intros i a Ha. destruct (Hcase _ _ Ha) as [(Hi&a'&_&L)|(Hi&L)].
        * destruct L as (?&?&?&?&?&_). done.
        * destruct L as (?&?&?&?&->). split; [by eexists|done].
      + intros i a Hi Ha. destruct (Hcase _ _ Ha) as [(_&a'&_&L)|(?&_)]; [|lia].
        destruct L as (?&?&?&?&?&?&?&_). done.
    - intros i Hi a a' Ha Ha'. cbn [Linked.rc_lines Linked.rc_key] in *.
      destruct (Hcase _ _ Ha) as [(_&a''&E&L)|(?&_)]; [|lia]. rewrite Ha' in E. injection E as <-.
      destruct L as (?&?&?&?&?&?&?&?&_). done.
    - intros i Hi a a' Ha Ha'. cbn [Linked.rc_lines Linked.rc_key Linked.rc_linked] in *.
      destruct (Hcase _ _ Ha) as [(_&a''&E&L)|(?&_)]; [|lia]. rewrite Ha' in E. injection E as <-.
      destruct L as (?&?&?&?&?&?&?&?&?). done.
  Qed.
  Lemma lchain_ans ls x t :
    nd_wf (lb_dv l0) → chain lk lfin ls → ls !! 0 = Some x → lrepr (Linked.line_linked x) t →
    lb_dv (Linked.line_linked x) = lb_dv l0 → lb_bdv (Linked.line_linked x) = lb_bdv l0 →
    filtered_answers t k (Linked.line_result x).
  Proof.
    intros Hw. revert x t. induction ls as [|a [|a' ls] IH]; intros x t; [done| |].
    - intros (H1&_&_&_&H2) [= ->] Hr _ _. rewrite H2. destruct t as [|c pv chs]; [constructor|].
      destruct H1. apply repr_node in Hr as (ad&n&Ha&Hn&_). by exists n, ad.
    - change (chain lk lfin (a :: a' :: ls)) with (lk a a' ∧ chain lk lfin (a' :: ls)).
      intros [L Hch] [= ->] Hr Hdv Hbdv. destruct L as (Hh&Hac&_&_&_&_&[Hkw Hk]&Hc&Hres).
      destruct (lrepr_node _ _ Hr Hh) as (ad&n&c&chs&Ha&Hn&Hrn&->&Hf&Hb&Hcs).
      rewrite Hrn in Hk, Hc, Hres.
      assert (D : lb_dv (Linked.line_linked a') = lb_dv l0 ∧ lb_bdv (Linked.line_linked a') = lb_bdv l0).
      { destruct ls as [|a'' ls]; [by destruct Hch as (_&_&?&?&_)|].
        change (chain lk lfin (a' :: a'' :: ls)) with (lk a' a'' ∧ chain lk lfin (a'' :: ls)) in Hch.
        destruct Hch as [(_&_&?&?&_) _]. done. }
      destruct D as [D1 D2].
      pose proof (child_repr _ _ k Hr Hh) as Hrc.
      assert (Ha' : filtered_answers (Routed.child (RNode c (LNode.pivots n) chs) k) k (Linked.line_result a')).
      { apply (IH a' _ Hch eq_refl); [|done|done]. rewrite D1, D2, Hc, <-Hdv, <-Hbdv.
        unfold Linked.child_for_key, Linked.with_root in Hrc. cbn [lb_dv lb_bdv lb_root] in Hrc.
        by rewrite Hrn in Hrc. }
      rewrite Hdv in Hr. pose proof (proj1 (repr_wf _ _ _ _ Hw Hr)) as Hwt.
      destruct (wf_child Filtered.dwf c (LNode.pivots n) chs k Hwt Hk) as (y&Hx&Ecx&Hbt).
      unfold filtered_answers. apply ans_node. exists (route_idx (LNode.pivots n) k), y, (Linked.line_result a').
      split; [done|]. split; [done|]. rewrite Ecx in Ha'. split; [exact Ha'|].
      apply wf_node in Hwt as (_&_&Hd&_).
      rewrite (FilteredBetree_Proof.Hq _ _ _ _ _ Hd) by (by apply lookup_lt_Some in Hx).
      rewrite Hres. f_equal. rewrite <-Hbdv. rewrite (bd_query_from_eq _ _ _ _ _ Hb).
      unfold Filtered.q, LNode.flushed_ofs. by rewrite Hf.
  Qed.
  Lemma ans_lchain p t m :
    nd_wf (lb_dv l0) → nd_nondangling (lb_dv l0) p → repr (lb_dv l0) (inB (lb_bdv l0)) p t → filtered_answers t k m →
    ∃ ls, chain lk lfin ls ∧ ls !! 0 = Some (Linked.mkLine (mkLB p (lb_dv l0) (lb_bdv l0)) m).
  Proof.
    intros Hw. revert p m. induction t as [|c pv chs IH] using node_ind; intros p m Hnd Hr.
    all: assert (Hac : Linked.acyclic (mkLB p (lb_dv l0) (lb_bdv l0))) by (eapply repr_acyclic; [done|exact Hr]).
    - apply repr_nil in Hr as ->. unfold filtered_answers. rewrite (ans_nil filtered_held). intros ->.
      exists [Linked.mkLine (mkLB None (lb_dv l0) (lb_bdv l0)) message_empty]. split; [|done].
      split; [|done]. by intros (n&a&?&_).
    - intros Ha. pose proof (ans_define filtered_held _ _ _ Ha) as Hdef.
      pose proof (proj1 (repr_wf _ _ _ _ Hw Hr)) as Hwt.
      pose proof (ans_bounded Filtered.dwf filtered_held _ _ _ _ _ Hwt Ha) as Hbd.
      unfold filtered_answers in Ha. apply ans_node in Ha as (i&x&m'&Hbt&Hx&Ha&->).
      pose proof Hwt as (Hp&_&Hd&Hch)%wf_node.
      pose proof (between_route_idx _ _ _ Hp Hbt) as Ei.
      apply repr_node in Hr as (a&n&->&Hn&<-&Hf&Hb&Hcs).
      pose proof (root_node_eq (mkLB (Some a) (lb_dv l0) (lb_bdv l0)) a n eq_refl Hn) as Hrn.
      apply Forall2_same_length_lookup in Hcs as [Hcl Hcs].
      destruct (lookup_lt_is_Some_2 (LNode.children n) i) as [q Hq]; [apply lookup_lt_Some in Hx; lia|].
      destruct (proj1 (Forall_lookup _ _) IH _ _ Hx q m') as (ls&Hls&H0).
      { by apply (proj1 (proj2 Hw _ _ Hn) _ _ Hq). } { by eapply Hcs. } { done. }
      exists (Linked.mkLine (mkLB (Some a) (lb_dv l0) (lb_bdv l0)) (merge_all m' (filtered_held c i k)) :: ls).
      split; [|done]. destruct ls as [|y ls]; [done|]. injection H0 as ->.
      split; [|exact Hls].
      split; [exists n, a; done|]. split; [done|]. split; [done|]. split; [done|]. split; [done|].
      cbn [Linked.line_linked Linked.line_result]. rewrite Hrn. split; [|split; [|split]].
      + intros ba Hba. apply elem_of_list_lookup in Hba as [j Hj].
        apply Forall2_same_length_lookup in Hb as [Hbl Hb].
        destruct (lookup_lt_is_Some_2 (Filtered.buffers c) j) as [b Hbj]; [apply lookup_lt_Some in Hj; lia|].
        exists b. by apply (Hb _ _ _ Hj Hbj).
      + split; [by apply (proj1 Hw _ _ Hn)|done].
      + cbn [lb_root]. unfold LNode.child_ptr, LNode.child_at. rewrite Ei. symmetry. by apply nth_lookup_Some.
      + rewrite (FilteredBetree_Proof.Hq _ _ _ _ _ Hd) by (by apply lookup_lt_Some in Hx).
        cbn [lb_bdv]. rewrite (bd_query_from_eq _ _ _ _ _ Hb). unfold Filtered.q, LNode.flushed_ofs.
        by rewrite Ei, Hf.
  Qed.
End Receipt.
Lemma lreceipt_iff (l : LB) t k m : Linked.wf l → lrepr l t →
  (∃ r, Linked.valid_for r l k ∧ Linked.receipt_result r m) ↔ filtered_answers t k m.
Proof.
  intros Hw Hr. split.
  - intros (r&Hv&y&Hy&<-). destruct (valid_lchain _ _ _ Hv) as (Hch&x&Hx&E).
    rewrite Hy in Hx. injection Hx as <-. rewrite <-E in Hr. eapply lchain_ans; [|exact Hch|exact Hy|exact Hr|by rewrite E|by rewrite E].
    apply Hw.
  - intros Ha. destruct (ans_lchain l k (lb_root l) t m (proj1 Hw) (proj2 Hw) Hr Ha) as (ls&Hch&H0).
    exists (Linked.mkReceipt k l ls). split; [|by eexists]. eapply lchain_valid; [done|done|exact H0|]. by destruct l.
Qed.

(** ** Steps *)
Notation LState := (BState LB).
Notation LLabel := (BLabel LB).
Definition linv (s : LState) : Prop :=
  Linked.wf (root s) ∧ ∃ t, lrepr (root s) t ∧ covers_all_keys t.
Definition lab (l : LLabel) (fl : BLabel FTree) : Prop :=
  match l with
  | Query e k v => fl = Query e k v
  | Put p => fl = Put p
  | Internal => fl = Internal
  | FreezeAs img => ∃ t, nd_wf (lb_dv (st_value img)) ∧ lrepr (st_value img) t ∧ fl = FreezeAs (mkStamped t (st_seq_end img))
  end.
Lemma bd_i_id (bdv : gmap Address Bufs) : Linked.bd_i bdv = bdv.
Proof.
  apply map_eq. intros a. unfold Linked.bd_i. rewrite map_lookup_imap. by destruct (bdv !! a).
Qed.
Lemma i_bdv_id (l : LB) : Linked.i_bdv l = l.
Proof. unfold Linked.i_bdv. rewrite bd_i_id. by destruct l. Qed.
Lemma kept_view (l l' l'' : LB) :
  lb_dv l ⊆ lb_dv l' → lb_bdv l ⊆ lb_bdv l' → Linked.valid_view l' l'' → pages_kept l l''.
Proof.
  intros H1 H2 (_&_&H3&H4). split.
  - intros a n n' Ha Ha'. pose proof (lookup_weaken _ _ _ _ Ha H1). pose proof (lookup_weaken _ _ _ _ Ha' H3). congruence.
  - intros a b b' Ha Ha'. pose proof (lookup_weaken _ _ _ _ Ha H2) as Hb. by eapply H4.
Qed.
Lemma kept_refl (l : LB) : pages_kept l l.
Proof. split; congruence. Qed.
Lemma extends_trans (l l' l'' : LB) s t' :
  extends l l' s t' → Linked.valid_view l' l'' → Linked.reachable_buffers_preserved l' l'' →
  Linked.wf l'' ∧ lrepr l'' t' ∧ pages_kept l l''.
Proof.
  intros (H1&H2&_&Hr) Hv Hp. destruct (view_repr _ _ _ Hv Hp Hr). split; [done|]. split; [done|].
  by eapply kept_view.
Qed.
Lemma path_step (l r new : LB) key depth t t' s pa no_dup :
  lrepr l t → Linked.valid_path_replacement l key depth no_dup s pa →
  Linked.is_fresh l (list_to_set pa) →
  (lrepr (Linked.path_target l key depth) (Routed.path_target t key depth) → no_dup →
    ∃ s', s' ⊆ s ∧ extends (Linked.path_target l key depth) r s' t') →
  Linked.valid_view (Linked.path_substitute l key depth r pa) new →
  Linked.reachable_buffers_preserved (Linked.path_substitute l key depth r pa) new →
  Routed.path_valid Filtered.dwf t key depth ∧ Linked.wf new ∧ lrepr new (Routed.path_substitute t key depth t') ∧ pages_kept l new.
Proof.
  intros Hr (Hv&Hnd&Hdep&Hdup&Hdj) Hfr Hop Hview Hpres.
  destruct (path_repr _ _ _ _ Hr Hv) as [Hfv Htr]. split; [done|].
  destruct (Hop Htr Hdup) as (s'&Hs'&He).
  destruct (target_disk l key depth) as [E1 E2]. unfold extends in He. rewrite E1, E2 in He.
  destruct (substitute_repr l key depth r t t' s' pa Hr Hv Hdep Hnd) as [Hx _].
  { destruct Hfr. set_solver. } { set_solver. } { exact He. }
  by eapply extends_trans.
Qed.
Lemma strong_step s s' l t :
  Linked.wf (root s) → lrepr (root s) t → covers_all_keys t → Linked.strong_next s s' l →
  ∃ t' fl, Linked.wf (root s') ∧ lrepr (root s') t' ∧ pages_kept (root s) (root s') ∧ lab l fl ∧
    Filtered.next (mkBS (memtable s) t) (mkBS (memtable s') t') fl.
Proof.
  intros Hw Hr Hcov. pose proof (proj1 (repr_wf _ _ _ _ (proj1 Hw) Hr)) as Hwt.
  intros [(r&e&k&v&res&->&He&Hv&Hres&Hd& ->)|[(puts&->&Hpw&Hst& ->)|[(Hm&->& ->)|
    [(sealed&new&na&(->&Hnd&Hse&Hvw& ->)&Hfr&Hpr)|[(a&(->& ->)&Hfr)|
    [(new&key&dp&r&na&pa&(->&Hcs&Hvp&Hvw& ->)&Hfr&Hfp&Hpr)|
    [(new&key&dp&i&gc&na&pa&(->&Hcf&Hvp&Hvw& ->)&Hfr&Hfp&Hpr)|
    [(new&key&dp&a&b&cb&na&pa&(->&Hcc&Hvp&Hvw& ->)&Hfr&Hfp&Hpr)|
    [(new&->&Hvw&Hpr& ->)|(->& ->)]]]]]]]]].
  - exists t, (Query e k v). split; [done|]. split; [done|]. split; [apply kept_refl|]. split; [done|].
    assert (Ha : filtered_answers t k res) by (eapply lreceipt_iff; eauto).
    destruct (proj2 (FilteredBetree_Proof.receipt_iff t k res) (conj Hwt Ha)) as (r'&Hv'&Hr').
    left. exists r', e, k, v, res. done.
  - exists t, (Put puts). split; [done|]. split; [done|]. split; [apply kept_refl|]. split; [done|].
    right; left. exists puts. done.
  - exists t, (FreezeAs (mkStamped t (mt_seq_end (memtable s)))). split; [done|]. split; [done|]. split; [apply kept_refl|]. split.
    { exists t. cbn [st_value st_seq_end]. rewrite i_bdv_id. split; [apply Hw|]. done. }
    right; right; left. done.
  - pose proof (push_memtable_repr _ _ (memtable s) sealed na Hr Hw Hnd Hfr Hse) as He.
    destruct (extends_trans _ _ _ _ _ He Hvw Hpr) as (Hw'&Hr'&Hk').
    eexists _, Internal. split; [exact Hw'|]. split; [exact Hr'|]. split; [exact Hk'|]. split; [done|].
    do 3 right; left. done.
  - destruct (fresh_not _ _ a Hfr) as [Ha _]; [set_solver|].
    destruct (grow_repr _ _ a Hr Ha) as (H1&H2&H3&H4).
    eexists _, Internal. split; [|split; [exact H4|split; [|split; [done|do 4 right; left; done]]]].
    2: { split; intros x y y' E E'; cbn [root] in E'.
         - pose proof (lookup_weaken _ _ _ _ E H1) as E2. rewrite E2 in E'. by injection E'.
         - pose proof (lookup_weaken _ _ _ _ E H2) as E2. rewrite E2 in E'. by injection E'. }
    (* growing needs no view, so the new disk must be shown well formed *)
    cbn [root]. destruct Hw as [[He Hc] Hrt]. split.
    + unfold Linked.grow. cbn [lb_dv]. split.
      * intros x n Hx. apply lookup_insert_Some in Hx as [[<- <-]|[_ Hx]]; [|by eapply He].
        split; [apply domain_to_pivots_wf; elt_cases; done|]. split; [done|]. split; [done|].
        by repeat constructor.
      * assert (Hmono : ∀ q, nd_nondangling (lb_dv (root s)) q → nd_nondangling (<[a:=LNode.mk [] (domain_to_pivots total_domain) [lb_root (root s)] [0]]> (lb_dv (root s))) q).
        { intros q Hq c E. destruct (Hq c E) as [m Hm]. exists m. rewrite lookup_insert_ne; [done|]. intros <-. congruence. }
        intros x n Hx. apply lookup_insert_Some in Hx as [[<- <-]|[_ Hx]].
        -- split.
           ++ intros [|i] q Hq; [|done]. injection Hq as <-. by apply Hmono.
           ++ intros [|i] c m Hq Hm; [|done]. injection Hq as Hq.
              assert (a ≠ c) by (intros <-; destruct (Hrt a Hq); congruence).
              rewrite lookup_insert_ne in Hm by done.
              destruct (repr_wf _ _ _ _ (conj He Hc) Hr) as [_ Hdm].
              destruct (Hdm c m Hq Hm) as [Hnode Hdom]. rewrite <-Hdom.
              by apply (covers_domain Filtered.dwf).
        -- destruct (Hc _ _ Hx) as [Hn1 Hn2]. split.
           ++ intros i q Hq. apply Hmono. by eapply Hn1.
           ++ intros i c m Hq Hm. assert (a ≠ c) by (intros <-; destruct (Hn1 _ _ Hq a eq_refl); congruence).
              rewrite lookup_insert_ne in Hm by done. by eapply Hn2.
    + intros x [= <-]. exists (LNode.mk [] (domain_to_pivots total_domain) [lb_root (root s)] [0]). apply lookup_insert.
  - edestruct (path_step (root s) (Linked.split_parent (Linked.path_target (root s) key dp) r na) new key dp t (Filtered.split_parent (Routed.path_target t key dp) r)
      (split_repr na) pa _ Hr Hvp Hfp) as (Hv&Hw'&Hr'&Hk'); [|exact Hvw|exact Hpr|].
    { intros Ht Hdup. exists (split_repr na). split; [done|]. apply split_repr_ok; [done|done|done|].
      unfold Linked.is_fresh. destruct (target_disk (root s) key dp) as [-> ->]. exact Hfr. }
    eexists _, Internal. split; [exact Hw'|]. split; [exact Hr'|]. split; [exact Hk'|]. split; [done|].
    do 5 right; left. exists key, dp, r. split; [done|]. split; [done|]. split; [|done].
    eapply can_split_repr; [|done]. by eapply path_repr; [|apply Hvp].
  - edestruct (path_step (root s) (Linked.flush (Linked.path_target (root s) key dp) i gc na) new key dp t (Filtered.flush (Routed.path_target t key dp) i gc)
      (two_repr na) pa _ Hr Hvp Hfp) as (Hv&Hw'&Hr'&Hk'); [|exact Hvw|exact Hpr|].
    { intros Ht Hdup. exists (two_repr na). split; [done|]. apply flush_repr; [done|done|done|].
      unfold Linked.is_fresh. destruct (target_disk (root s) key dp) as [-> ->]. exact Hfr. }
    eexists _, Internal. split; [exact Hw'|]. split; [exact Hr'|]. split; [exact Hk'|]. split; [done|].
    do 6 right; left. exists key, dp, i, gc. split; [done|]. split; [done|]. split; [|done].
    eapply can_flush_repr; [|done]. by eapply path_repr; [|apply Hvp].
  - edestruct (path_step (root s) (Linked.compact (Linked.path_target (root s) key dp) a b cb na) new key dp t (Filtered.compact (Routed.path_target t key dp) a b cb)
      (two_repr na) pa _ Hr Hvp Hfp) as (Hv&Hw'&Hr'&Hk'); [|exact Hvw|exact Hpr|].
    { intros Ht Hdup. exists {[ addr1 na ]}. split; [unfold two_repr; set_solver|]. eapply compact_repr; [done|done|done|].
      unfold Linked.is_fresh. destruct (target_disk (root s) key dp) as [-> ->]. exact Hfr. }
    eexists _, Internal. split; [exact Hw'|]. split; [exact Hr'|]. split; [exact Hk'|]. split; [done|].
    do 7 right; left. exists key, dp, a, b, cb. split; [done|]. split; [done|]. split; [|done].
    eapply can_compact_repr; [|done]. by eapply path_repr; [|apply Hvp].
  - destruct (view_repr _ _ _ Hvw Hpr Hr) as [Hw' Hr'].
    exists t, Internal. split; [exact Hw'|]. split; [exact Hr'|]. split; [by eapply kept_view|]. split; [done|]. do 8 right. done.
  - exists t, Internal. split; [done|]. split; [done|]. split; [apply kept_refl|]. split; [done|]. do 8 right. by destruct s.
Qed.
