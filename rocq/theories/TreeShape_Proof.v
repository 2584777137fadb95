(** Flushing and compacting bring the messages of a tree to its leaves (C56). *)
From Verif Require Import Spec_Model Spec_Proof Abs_Model Betree_Model Betree_Spec Route_Proof Betree_Common Routed_Proof.
From Verif Require FilteredBetree_Proof.
From Coq Require Import ZifyBool ZifyNat ZifyN Lia.
Notation FTree := (Routed.BetreeNode Filtered.Contents).
Notation RNode := Routed.Node.
Notation RNil := Routed.Nil.
Notation fwf := (Routed.wf Filtered.dwf).
Implicit Types (t : FTree) (c : Filtered.Contents) (chs : list FTree).

(** ** Trees of leaves and full index nodes *)
Inductive shaped : FTree → Prop :=
  | sh_nil : shaped RNil
  | sh_leaf c pv : Filtered.flushed c = [0] → shaped (RNode c pv [RNil])
  | sh_index c pv chs : (∀ i x, chs !! i = Some x → x ≠ RNil) → (∀ i x, chs !! i = Some x → shaped x) → shaped (RNode c pv chs).
(** All messages are in the leaves, each with one buffer at most. *)
Inductive clean : FTree → Prop :=
  | cl_leaf c pv : length (Filtered.buffers c) ≤ 1 → clean (RNode c pv [RNil])
  | cl_index c pv chs : Filtered.buffers c = [] → (∀ i x, chs !! i = Some x → clean x) → clean (RNode c pv chs).
Lemma shaped_extend t bs : shaped t → shaped (Filtered.extend_buffer_seq t bs).
Proof. destruct 1; cbn; by constructor. Qed.
Lemma shaped_promote t d : shaped t → shaped (Filtered.promote t d).
Proof. destruct 1; cbn; by constructor. Qed.
Lemma shaped_child t i : shaped t → shaped (Routed.child_at t i).
Proof.
  unfold Routed.child_at. destruct 1 as [|c pv Hf|c pv chs Hn Hc]; cbn [Routed.children_of].
  - destruct i; constructor.
  - destruct i as [|[|i]]; constructor.
  - destruct (chs !! i) as [x|] eqn:E; [rewrite (nth_lookup_Some _ _ _ _ E); by eapply Hc|].
    rewrite nth_overflow by by apply lookup_ge_None_1. constructor.
Qed.
Lemma node_index c pv chs i x : shaped (RNode c pv chs) → chs !! i = Some x → x ≠ RNil →
  (∀ i x, chs !! i = Some x → x ≠ RNil) ∧ (∀ i x, chs !! i = Some x → shaped x).
Proof.
  intros H Hi Hx. inversion H as [|? ? Hf|? ? ? Hn Hc]; subst; [|done]. destruct i as [|i]; [|done]. by injection Hi as <-.
Qed.
Lemma shaped_flush t i gc : shaped t → shaped (Filtered.flush t i gc).
Proof.
  intros Hs. pose proof (shaped_child t i Hs) as Hci. destruct t as [|c pv chs]; [constructor|]. cbn [Filtered.flush].
  set (x := Filtered.extend_buffer_seq _ _).
  assert (Hx : shaped x ∧ x ≠ RNil).
  { split; [by apply shaped_extend, shaped_promote|]. unfold x. by destruct (Routed.child_at _ i). }
  destruct Hx as [Hx Hn]. inversion Hs as [|? ? Hf|? ? ? Hn' Hc']; subst.
  - destruct i as [|i]; cbn.
    + apply sh_index; intros [|j] y Hy; try done; by injection Hy as <-.
    + apply sh_leaf. cbn. rewrite Hf. cbn. done.
  - apply sh_index; intros j y Hy; apply list_lookup_insert_Some in Hy as [(_&<-&_)|[_ Hy]]; eauto.
Qed.
Lemma shaped_compact t a b cb : shaped t → shaped (Filtered.compact t a b cb).
Proof.
  destruct 1 as [|c pv Hf|c pv chs Hn Hc]; cbn [Filtered.compact]; [constructor| |by apply sh_index].
  apply sh_leaf. cbn. rewrite Hf. cbn. done.
Qed.
Lemma shaped_split t r : shaped t → Filtered.can_split_parent t r → shaped (Filtered.split_parent t r).
Proof.
  intros Hs (_&_&Hr). destruct t as [|c pv chs]; [constructor|]. cbn [Filtered.split_parent].
  assert (Hins : ∀ i (x y : FTree) c' pv', i < length chs → Routed.child_at (RNode c pv chs) i ≠ RNil → x ≠ RNil → y ≠ RNil → shaped x → shaped y →
    shaped (RNode c' pv' (seq_insert (<[i:=x]> chs) (i + 1) y))).
  { intros i x y c' pv' Hi Hn Hx Hy Hsx Hsy. destruct (lookup_lt_is_Some_2 chs i Hi) as [z Hz].
    rewrite (Routed_Proof.child_at_lookup (RNode c pv chs) i z Hz) in Hn. destruct (node_index _ _ _ _ _ Hs Hz Hn) as [H1 H2].
    apply sh_index; intros j w Hw; rewrite seq_insert_lookup in Hw by (rewrite insert_length; lia);
      repeat case_decide; try (injection Hw as <-; done);
      apply list_lookup_insert_Some in Hw as [(_&<-&_)|[_ Hw]]; eauto. }
  pose proof (λ i, shaped_child _ i Hs) as Hsc.
  destruct r as [i k|i j]; destruct Hr as ((_&Hi)&Hc); cbn [Routed.children_of] in Hi; specialize (Hsc i).
  - destruct Hc as (_&(Hn&Hch&Hf)&_). destruct (Routed.child_at _ i) as [|c' pv' ch'] eqn:E; [done|]. cbn in Hch, Hf. subst ch'.
    cbn [Filtered.split_leaf]. apply Hins; try done; try congruence; by apply sh_leaf.
  - destruct Hc as (_&(Hn&Hch)&_). destruct (Routed.child_at _ i) as [|c' pv' ch'] eqn:E; [done|]. cbn [Routed.children_of] in Hch.
    assert (Hall : ∀ j x, ch' !! j = Some x → x ≠ RNil) by (intros ?? Hx; exact (proj1 (Forall_lookup _ _) Hch _ _ Hx)).
    assert (Hsh : ∀ j x, ch' !! j = Some x → shaped x).
    { intros m x Hx. by destruct (node_index _ _ _ _ _ Hsc Hx (Hall _ _ Hx)) as [_ H]; eapply H. }
    cbn [Filtered.split_index]. apply Hins; try done; try congruence; apply sh_index; intros m x Hx;
      rewrite subrange_lookup in Hx; case_decide; try done; eauto.
Qed.
Lemma shaped_target t key d : shaped t → shaped (Routed.path_target t key d).
Proof. revert t. induction d as [|d IH]; intros t Hs; [done|]. apply IH. by apply shaped_child. Qed.
Lemma shaped_sub t key d u : Routed.path_valid Filtered.dwf t key d → shaped t → shaped u → u ≠ RNil →
  shaped (Routed.path_substitute t key d u) ∧ Routed.path_substitute t key d u ≠ RNil.
Proof.
  revert t. induction d as [|d IH]; intros t Hv Hs Hu Hn; [done|]. destruct Hv as (_&(_&Hk&_)&[_ Hix]&Hv).
  destruct t as [|c pv chs]; [done|]. cbn [Routed.path_substitute]. split; [|done].
  destruct (IH _ Hv (shaped_child _ _ Hs) Hu Hn) as [H1 H2]. cbn [Routed.children_of] in Hix.
  inversion Hs as [|? ? Hf|? ? ? Hn' Hc']; subst; [by apply Forall_inv in Hix|].
  apply sh_index; intros j y Hy; apply list_lookup_insert_Some in Hy as [(_&<-&_)|[_ Hy]]; eauto.
Qed.
Lemma shaped_step (s s' : Filtered.State) l : shaped (root s) → Filtered.next s s' l → shaped (root s').
Proof.
  intros Hs [(r&?&?&?&?&_&_&_&_&_& ->)|[(puts&_&_&_& ->)|[(_&_&_& ->)|[(_&_& ->)|[(_&_& ->)|[(key&d&r&_&Hv&Hc& ->)|[(key&d&i&gc&_&Hv&Hc& ->)|
    [(key&d&a&b&cb&_&Hv&Hc& ->)|(_&_& ->)]]]]]]]]; try done; cbn [root].
  - by apply shaped_extend, shaped_promote.
  - unfold Filtered.grow. destruct (root s) as [|c pv chs] eqn:E; [by apply sh_leaf|].
    apply sh_index; intros [|i] x Hx; try done; by injection Hx as <-.
  - apply shaped_sub; [done|done| |].
    + apply shaped_split; [by apply shaped_target|done].
    + by apply (FilteredBetree_Proof.split_parent_ok _ _ Hc).
  - apply shaped_sub; [done|done| |].
    + by apply shaped_flush, shaped_target.
    + by apply (FilteredBetree_Proof.flush_ok _ _ _ Hc).
  - apply shaped_sub; [done|done| |].
    + by apply shaped_compact, shaped_target.
    + by apply (FilteredBetree_Proof.compact_ok _ _ _ _ Hc).
Qed.

(** ** Working at one node of the tree *)
Definition prim (cmp : bool) t t' : Prop :=
  (∃ i gc, Filtered.can_flush t i gc ∧ Routed.child_at t i ≠ RNil ∧ t' = Filtered.flush t i gc) ∨
  (cmp = true ∧ ∃ a b cb, Filtered.can_compact t a b cb ∧ t' = Filtered.compact t a b cb).
Inductive rstep (cmp : bool) : FTree → FTree → Prop :=
  | rs_here t t' : prim cmp t t' → rstep cmp t t'
  | rs_child c pv chs i x x' : (∀ j y, chs !! j = Some y → y ≠ RNil) → chs !! i = Some x → rstep cmp x x' →
      rstep cmp (RNode c pv chs) (RNode c pv (<[i := x']> chs)).
Lemma prim_ok cmp t t' : prim cmp t t' → fwf t' ∧ t' ≠ RNil ∧ Routed.my_domain t' = Routed.my_domain t ∧ teq filtered_held t t'.
Proof.
  intros [(i&gc&Hc&_&->)|(_&a&b&cb&Hc&->)]; [exact (FilteredBetree_Proof.flush_ok _ _ _ Hc)|exact (FilteredBetree_Proof.compact_ok _ _ _ _ Hc)].
Qed.
(** The steps are those at the end of a path. *)
Lemma first_key t : fwf t → t ≠ RNil → ∃ k, bounded_key (Routed.pivots_of t) k.
Proof.
  destruct t as [|c p chs]; [done|]. intros (Hp&Hl&_)%wf_node _. cbn [Routed.pivots_of].
  assert (Hlen : 1 < length p) by (destruct Hp as (H&_); unfold num_ranges in H; lia).
  pose proof (pt_lt p 0 (length p - 1) Hp ltac:(lia)) as Hlt. pose proof (elt_lt_is_elem _ _ Hlt) as He.
  unfold bounded_key. rewrite pivot_last_eq. destruct (pivot_at p 0) as [|k] eqn:E; [by destruct He|].
  exists k. split; [apply elt_lte_refl|done].
Qed.
Lemma rstep_path cmp t t' : rstep cmp t t' → fwf t → t ≠ RNil → ∃ key d u, Routed.path_valid Filtered.dwf t key d ∧
  prim cmp (Routed.path_target t key d) u ∧ t' = Routed.path_substitute t key d u.
Proof.
  induction 1 as [t t' Hp|c p chs i x x' Hn Hi Hr IH]; intros Hw Hne.
  - destruct (first_key t Hw Hne) as [k Hk]. by exists k, 0, t'.
  - pose proof Hw as (Hp&Hl&Hd&Hc)%wf_node. destruct (Hc _ _ Hi) as [Hwx Hdx]. specialize (Hdx (Hn _ _ Hi)).
    destruct (IH Hwx (Hn _ _ Hi)) as (key&d&u&Hv&Hpr&->).
    assert (Hk : bounded_key (Routed.pivots_of x) key) by (destruct d; cbn in Hv; by destruct Hv as (_&(_&_&?)&_)).
    assert (Hb : between p i key).
    { apply between_at. apply lookup_lt_Some in Hi. split; [lia|]. unfold Routed.my_domain in Hdx. injection Hdx as E1 E2.
      rewrite <-E1, <-E2. exact Hk. }
    pose proof (between_route_idx _ _ _ Hp Hb) as Er.
    assert (Ec : Routed.child (RNode c p chs) key = x).
    { unfold Routed.child. cbn [Routed.pivots_of]. rewrite Er. by apply child_at_lookup. }
    exists key, (S d), u. cbn [Routed.path_valid Routed.path_target Routed.path_substitute]. rewrite Ec, Er. split; [|done].
    split; [done|]. split. { split; [done|]. split; [done|]. by eapply between_bounded. }
    split; [|done]. split; [done|]. apply Forall_lookup. exact Hn.
Qed.
Lemma rstep_ok cmp t t' : rstep cmp t t' → fwf t → t ≠ RNil → fwf t' ∧ t' ≠ RNil ∧ Routed.my_domain t' = Routed.my_domain t.
Proof.
  intros Hr Hw Hn. destruct (rstep_path _ _ _ Hr Hw Hn) as (key&d&u&Hv&Hp&->). destruct (prim_ok _ _ _ Hp) as (H1&H2&H3&H4).
  destruct (substitute_ok Filtered.dwf filtered_held t key d u Hv H1 H2 H3 H4) as (?&?&?&_). done.
Qed.
Lemma rsteps_ok cmp t t' : rtc (rstep cmp) t t' → fwf t → t ≠ RNil → fwf t' ∧ t' ≠ RNil ∧ Routed.my_domain t' = Routed.my_domain t.
Proof.
  induction 1 as [t|t t1 t' H1 H2 IH]; intros Hw Hn; [done|]. destruct (rstep_ok _ _ _ H1 Hw Hn) as (Hw1&Hn1&E1).
  destruct (IH Hw1 Hn1) as (?&?&?). split; [done|]. split; [done|]. congruence.
Qed.
Lemma rsteps_child cmp c p chs i x x' : (∀ j y, chs !! j = Some y → y ≠ RNil) → chs !! i = Some x → fwf x → rtc (rstep cmp) x x' →
  rtc (rstep cmp) (RNode c p chs) (RNode c p (<[i := x']> chs)).
Proof.
  intros Hn Hi Hw Hr. revert chs Hn Hi Hw. induction Hr as [x|x y x' H1 H2 IH]; intros chs Hn Hi Hw; [by rewrite list_insert_id|].
  destruct (rstep_ok _ _ _ H1 Hw (Hn _ _ Hi)) as (Hwy&Hny&_).
  eapply rtc_l; [by eapply rs_child|]. rewrite <-(list_insert_insert chs i x' y). apply IH; [| |done].
  - intros j z Hz. apply list_lookup_insert_Some in Hz as [(_&<-&_)|[_ Hz]]; eauto.
  - apply list_lookup_insert. by eapply lookup_lt_Some.
Qed.

(** ** A leaf is compacted to one buffer *)
Lemma fcompact_exists t a b : fwf t → t ≠ RNil → a < b ≤ length (Filtered.buffers (Filtered.contents_of t)) → ∃ cb, Filtered.can_compact t a b cb.
Proof.
  intros Hw Hn Hab. set (sub := subrange (Filtered.buffers (Filtered.contents_of t)) a b).
  set (keys := (foldr (λ (x acc : gmap N Message), x ∪ acc) ∅ sub : gmap N Message)).
  set (P := λ k, bounded_key (Routed.pivots_of t) k ∧ Filtered.flushed_ofs t k ≤ b ∧ Exists (λ y : gmap N Message, is_Some (y !! k)) (drop (Filtered.flushed_ofs t k - a) sub)).
  assert (HP : ∀ k, Filtered.valid_compact_key_domain t a b k ↔ P k).
  { intros k. unfold Filtered.valid_compact_key_domain, P, Routed.key_in_domain, key_in_buffer_filtered, Filtered.make_offset_map, offsets_decrement. fold sub.
    rewrite stdpp.list.Exists_exists. split.
    - intros ((_&_&Hk)&Hf&idx&_&(y&Hy&Hs)&Ho). rewrite decide_True in Ho by done. split; [done|]. split; [done|]. exists y. split; [|done].
      apply elem_of_list_lookup. exists (idx - (Filtered.flushed_ofs t k - a)). rewrite lookup_drop. rewrite <-Hy. f_equal. lia.
    - intros (Hk&Hf&y&[i Hi]%elem_of_list_lookup&Hs). rewrite lookup_drop in Hi. split; [done|]. split; [done|].
      rewrite decide_True by done. eexists. split; [lia|]. split; [by exists y|]. lia. }
  assert (Hdec : ∀ k, Decision (P k)) by (intros; unfold P; apply _).
  assert (Hkeys : ∀ k (l : list (gmap N Message)), Exists (λ y : gmap N Message, is_Some (y !! k)) l → is_Some ((foldr (λ (x acc : gmap N Message), x ∪ acc) ∅ l : gmap N Message) !! k)).
  { intros k l. induction 1; cbn [foldr]; apply lookup_union_is_Some; auto. }
  set (B := map_imap (λ k (_ : Message), if decide (P k) then Some (query_from sub k (Filtered.flushed_ofs t k - a)) else None) keys).
  assert (HB : ∀ k, B !! k = if decide (P k) then Some (query_from sub k (Filtered.flushed_ofs t k - a)) else None).
  { intros k. unfold B. rewrite map_lookup_imap. destruct (keys !! k) as [m|] eqn:E; [done|]. cbn. case_decide as Hd; [|done]. exfalso.
    destruct Hd as (_&_&Hd). assert (is_Some (keys !! k)) as [? ?]; [|congruence]. apply Hkeys.
    apply stdpp.list.Exists_exists in Hd as (y&Hy&Hs). apply stdpp.list.Exists_exists. exists y. split; [|done].
    apply elem_of_list_lookup in Hy as [i Hi]. rewrite lookup_drop in Hi. apply elem_of_list_lookup. eauto. }
  exists B. split; [done|]. split; [done|]. split; [done|]. split; intros k.
  - rewrite HP, HB. case_decide; [|split; [by intros [? ?]|done]]. split; [done|]. intros _. by eexists.
  - unfold buf_query. rewrite HB. case_decide; [done|]. by intros [? ?].
Qed.
Lemma settle_leaf c p : fwf (RNode c p [RNil]) → ∃ t', rtc (rstep true) (RNode c p [RNil]) t' ∧ clean t'.
Proof.
  intros Hw. destruct (decide (length (Filtered.buffers c) ≤ 1)) as [Hl|Hl]; [exists (RNode c p [RNil]); split; [done|by constructor]|].
  destruct (fcompact_exists (RNode c p [RNil]) 0 (length (Filtered.buffers c)) Hw ltac:(done)) as [cb Hcb]; [cbn; lia|].
  eexists. split; [apply rtc_once, rs_here; right; split; [done|]; exists 0, (length (Filtered.buffers c)), cb; split; [done|reflexivity]|].
  cbn [Filtered.compact]. constructor. cbn [Filtered.buffers]. unfold update_subrange. rewrite app_length. cbn.
  rewrite take_0, drop_ge by lia. cbn. lia.
Qed.

(** ** An index node passes everything on *)
Lemma extend_extend t bs bs' : Filtered.extend_buffer_seq (Filtered.extend_buffer_seq t bs) bs' = Filtered.extend_buffer_seq t (bs ++ bs').
Proof. destruct t; [done|]. cbn. by rewrite (assoc_L (++)). Qed.
Lemma extend_nil t : Filtered.extend_buffer_seq t [] = t.
Proof. destruct t as [|[bs o] p chs]; [done|]. cbn. by rewrite app_nil_r. Qed.
Lemma extend_node t bs : t ≠ RNil → Filtered.extend_buffer_seq t bs ≠ RNil.
Proof. by destruct t. Qed.
Definition grown chs chs' : Prop := length chs' = length chs ∧ ∀ i x', chs' !! i = Some x' → ∃ x bs, chs !! i = Some x ∧ x' = Filtered.extend_buffer_seq x bs.
Lemma grown_refl chs : grown chs chs.
Proof. split; [done|]. intros i x Hx. exists x, []. by rewrite extend_nil. Qed.
Lemma grown_insert chs chs' i y bs : grown chs chs' → chs' !! i = Some y → grown chs (<[i := Filtered.extend_buffer_seq y bs]> chs').
Proof.
  intros [Hl Hg] Hi. split; [by rewrite insert_length|]. intros j z Hz. apply list_lookup_insert_Some in Hz as [(->&<-&_)|[_ Hz]]; [|eauto].
  destruct (Hg _ _ Hi) as (x&bs'&Hx&->). exists x, (bs' ++ bs). split; [done|]. apply extend_extend.
Qed.
Lemma grown_nodes chs chs' : grown chs chs' → (∀ i x, chs !! i = Some x → x ≠ RNil) → ∀ i x, chs' !! i = Some x → x ≠ RNil.
Proof. intros [_ Hg] Hn i x' Hx'. destruct (Hg _ _ Hx') as (x&bs&Hx&->). apply extend_node. by eapply Hn. Qed.
Lemma flush_one B fl p chs i y gc : chs !! i = Some y → y ≠ RNil →
  Filtered.flush (RNode (Filtered.mkC B fl) p chs) i gc =
  RNode (Filtered.mkC (subrange B gc (length B)) (ofs_shift_left (<[i := length B]> fl) gc)) p
    (<[i := Filtered.extend_buffer_seq y (subrange B (nth i fl 0) (length B))]> chs).
Proof.
  intros Hi Hy. cbn [Filtered.flush Filtered.buffers Filtered.flushed]. rewrite (child_at_lookup (RNode (Filtered.mkC B fl) p chs) i y Hi).
  unfold Filtered.promote. destruct y; [done|]. done.
Qed.
Lemma flush_all cmp B fl p chs : fwf (RNode (Filtered.mkC B fl) p chs) → (∀ i x, chs !! i = Some x → x ≠ RNil) →
  ∀ j, j ≤ length chs → ∃ fl' chs', rtc (rstep cmp) (RNode (Filtered.mkC B fl) p chs) (RNode (Filtered.mkC B fl') p chs') ∧ grown chs chs' ∧
    ∀ i, i < j → fl' !! i = Some (length B).
Proof.
  intros Hw Hn. induction j as [|j IH]; intros Hj.
  { exists fl, chs. split; [done|]. split; [apply grown_refl|]. intros; lia. }
  destruct (IH ltac:(lia)) as (fl'&chs'&Hr&Hg&Hf). destruct (rsteps_ok _ _ _ Hr Hw ltac:(done)) as (Hw'&_).
  pose proof Hw' as (_&_&[Hfl _]&_)%wf_node. cbn [Filtered.flushed] in Hfl.
  destruct (lookup_lt_is_Some_2 chs' j) as [y Hy]; [rewrite (proj1 Hg); lia|].
  pose proof (grown_nodes _ _ Hg Hn _ _ Hy) as Hyn.
  assert (Hcf : Filtered.can_flush (RNode (Filtered.mkC B fl') p chs') j 0).
  { split; [done|]. split; [done|]. split; [split; [done|]; by eapply lookup_lt_Some|]. apply Forall_lookup. intros; lia. }
  eexists (<[j := length B]> fl'), _. split; [|split].
  - eapply rtc_r; [exact Hr|]. apply rs_here. left. exists j, 0. split; [done|].
    split; [by rewrite (child_at_lookup (RNode (Filtered.mkC B fl') p chs') j y Hy)|].
    rewrite (flush_one _ _ _ _ _ _ _ Hy Hyn). f_equal. f_equal.
    + unfold subrange. by rewrite drop_0, Nat.sub_0_r, firstn_all.
    + unfold ofs_shift_left. rewrite <-(list_fmap_id (<[j := length B]> fl')) at 1. apply list_fmap_ext. intros. cbn. lia.
  - by apply grown_insert.
  - intros i Hi. destruct (decide (i = j)) as [->|Hne].
    + apply list_lookup_insert. apply lookup_lt_Some in Hy. lia.
    + rewrite list_lookup_insert_ne by done. apply Hf. lia.
Qed.
Lemma flush_out cmp B fl p chs : fwf (RNode (Filtered.mkC B fl) p chs) → (∀ i x, chs !! i = Some x → x ≠ RNil) →
  ∃ fl' chs', rtc (rstep cmp) (RNode (Filtered.mkC B fl) p chs) (RNode (Filtered.mkC [] fl') p chs') ∧ grown chs chs'.
Proof.
  intros Hw Hn. destruct (flush_all cmp B fl p chs Hw Hn (length chs) ltac:(lia)) as (fl'&chs'&Hr&Hg&Hf).
  destruct (rsteps_ok _ _ _ Hr Hw ltac:(done)) as (Hw'&_). pose proof Hw' as (Hp&Hl&[Hfl _]&_)%wf_node. cbn [Filtered.flushed] in Hfl.
  assert (Hlen : 0 < length chs') by (destruct Hp as (H&_); unfold num_ranges in H; lia).
  destruct (lookup_lt_is_Some_2 chs' 0 Hlen) as [y Hy]. pose proof (grown_nodes _ _ Hg Hn _ _ Hy) as Hyn.
  assert (Hall : ∀ i v, fl' !! i = Some v → v = length B).
  { intros i v Hv. pose proof (lookup_lt_Some _ _ _ Hv). rewrite (Hf i) in Hv by (destruct Hg; lia). by injection Hv. }
  assert (Hcf : Filtered.can_flush (RNode (Filtered.mkC B fl') p chs') 0 (length B)).
  { split; [done|]. split; [done|]. split; [by split|]. apply Forall_lookup. cbn. intros i v Hv.
    apply list_lookup_insert_Some in Hv as [(_&<-&_)|[_ Hv]]; [lia|]. rewrite (Hall _ _ Hv). lia. }
  eexists _, _. split.
  - eapply rtc_r; [exact Hr|]. apply rs_here. left. exists 0, (length B). split; [done|].
    split; [by rewrite (child_at_lookup (RNode (Filtered.mkC B fl') p chs') 0 y Hy)|].
    rewrite (flush_one _ _ _ _ _ _ _ Hy Hyn). f_equal. f_equal. unfold subrange. rewrite Nat.sub_diag. by rewrite take_0.
  - by apply grown_insert.
Qed.
Lemma clean_children cmp (done_ : FTree → Prop) c p chs : fwf (RNode c p chs) → (∀ i x, chs !! i = Some x → x ≠ RNil) →
  (∀ i x, chs !! i = Some x → ∃ x', rtc (rstep cmp) x x' ∧ done_ x') →
  ∀ j, j ≤ length chs → ∃ chs', rtc (rstep cmp) (RNode c p chs) (RNode c p chs') ∧ length chs' = length chs ∧
    (∀ i x, chs' !! i = Some x → x ≠ RNil) ∧ (∀ i x, i < j → chs' !! i = Some x → done_ x) ∧ ∀ i, j ≤ i → chs' !! i = chs !! i.
Proof.
  intros Hw Hn Hc. induction j as [|j IH]; intros Hj.
  { exists chs. split; [done|]. split; [done|]. split; [done|]. split; [intros; lia|done]. }
  destruct (IH ltac:(lia)) as (chs'&Hr&Hl&Hn'&Hd&Hs). destruct (lookup_lt_is_Some_2 chs j ltac:(lia)) as [x Hx].
  destruct (Hc _ _ Hx) as (x'&Hrx&Hcx). pose proof Hx as Hx'. rewrite <-Hs in Hx' by lia.
  pose proof Hw as (_&_&_&Hch)%wf_node. destruct (Hch _ _ Hx) as [Hwx _]. destruct (rsteps_ok _ _ _ Hrx Hwx (Hn _ _ Hx)) as (_&Hnx&_).
  exists (<[j := x']> chs'). split; [etransitivity; [exact Hr|]; by eapply rsteps_child|]. split; [by rewrite insert_length|]. split; [|split].
  - intros i y Hy. apply list_lookup_insert_Some in Hy as [(_&<-&_)|[_ Hy]]; eauto.
  - intros i y Hi Hy. apply list_lookup_insert_Some in Hy as [(_&<-&_)|[Hne Hy]]; [done|]. eapply Hd; [|exact Hy]. lia.
  - intros i Hi. rewrite list_lookup_insert_ne by lia. apply Hs. lia.
Qed.

(** ** All messages can be brought to the leaves *)
Lemma settle t : shaped t → t ≠ RNil → ∀ bs, fwf (Filtered.extend_buffer_seq t bs) →
  ∃ t', rtc (rstep true) (Filtered.extend_buffer_seq t bs) t' ∧ clean t'.
Proof.
  induction 1 as [|c p Hf|c p chs Hn Hs IH]; intros Hne bs Hw; [done|by apply settle_leaf|]. cbn [Filtered.extend_buffer_seq] in *.
  destruct (flush_out true _ _ _ _ Hw Hn) as (fl'&chs'&Hr&Hg). destruct (rsteps_ok _ _ _ Hr Hw ltac:(done)) as (Hw'&_).
  pose proof Hw' as (_&_&_&Hch)%wf_node.
  destruct (clean_children true clean _ _ _ Hw' (grown_nodes _ _ Hg Hn)) with (j := length chs') as (chs2&Hr2&Hl2&Hn2&Hd2&_); [|lia|].
  { intros i x' Hx'. destruct Hg as [_ Hg]. destruct (Hg _ _ Hx') as (x&bs'&Hx&->). eapply IH; [exact Hx|by eapply Hn|]. by apply (Hch _ _ Hx'). }
  eexists. split; [etransitivity; [exact Hr|exact Hr2]|]. apply cl_index; [done|]. intros i x Hx. eapply Hd2; [|exact Hx].
  apply lookup_lt_Some in Hx. lia.
Qed.

(** Without compaction, to the leaves but in many buffers. *)
Inductive dry : FTree → Prop :=
  | dr_leaf c pv : dry (RNode c pv [RNil])
  | dr_index c pv chs : Filtered.buffers c = [] → (∀ i x, chs !! i = Some x → dry x) → dry (RNode c pv chs).
Lemma drain t : shaped t → t ≠ RNil → ∀ bs, fwf (Filtered.extend_buffer_seq t bs) →
  ∃ t', rtc (rstep false) (Filtered.extend_buffer_seq t bs) t' ∧ dry t'.
Proof.
  induction 1 as [|c p Hf|c p chs Hn Hs IH]; intros Hne bs Hw; [done|eexists; split; [reflexivity|constructor]|]. cbn [Filtered.extend_buffer_seq] in *.
  destruct (flush_out false _ _ _ _ Hw Hn) as (fl'&chs'&Hr&Hg). destruct (rsteps_ok _ _ _ Hr Hw ltac:(done)) as (Hw'&_).
  pose proof Hw' as (_&_&_&Hch)%wf_node.
  destruct (clean_children false dry _ _ _ Hw' (grown_nodes _ _ Hg Hn)) with (j := length chs') as (chs2&Hr2&Hl2&Hn2&Hd2&_); [|lia|].
  { intros i x' Hx'. destruct Hg as [_ Hg]. destruct (Hg _ _ Hx') as (x&bs'&Hx&->). eapply IH; [exact Hx|by eapply Hn|]. by apply (Hch _ _ Hx'). }
  eexists. split; [etransitivity; [exact Hr|exact Hr2]|]. apply dr_index; [done|]. intros i x Hx. eapply Hd2; [|exact Hx].
  apply lookup_lt_Some in Hx. lia.
Qed.
