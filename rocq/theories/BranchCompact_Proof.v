(** Steps of the tree with simple buffers that stand for steps of the tree whose
    buffers are branches (C42, C43). *)
From Verif Require Import Spec_Model Spec_Proof Abs_Model Betree_Model Betree_Spec LinkedBetree_Model LinkedBetree_Spec
  LikesBetree_Model LikesBetree_Spec LinkedBetree_Proof LinkedBetree_Facts LikesTree_Proof LikesOps_Proof LikesBetree_Proof LikesBetree_Facts BranchSkel_Proof.
From Coq Require Import ZifyBool ZifyNat ZifyN Lia.

(** ** Buffers of the node an operation works on *)
Lemma target_reach {T} key d : ∀ (l : LinkedBetree T), Linked.path_valid l key d →
  ∀ ba, ba ∈ LNode.buffers (Linked.root_node (Linked.path_target l key d)) → Linked.reachable_buffer l ba.
Proof.
  induction d as [|d IH]; intros l Hp ba Hba; cbn [Linked.path_valid Linked.path_target] in *;
    destruct Hp as ((n&a&E&Hn)&Hac&Hk&Hp); assert (En : Linked.root_node l = n) by (unfold Linked.root_node; by rewrite E, Hn).
  - rewrite En in Hba. exists a, n. split; [|done]. rewrite E. by eapply Linked.reach_here.
  - destruct Hp as [_ Hp]. destruct (IH _ Hp ba Hba) as (b&m&Hr&Hm&Hb). exists b, m. split; [|done].
    cbn in Hr. unfold LNode.child_ptr, LNode.child_at in Hr. rewrite En in Hr. rewrite E.
    destruct (LNode.children n !! route_idx (LNode.pivots n) key) as [q|] eqn:Eq.
    + rewrite (nth_lookup_Some _ _ _ _ Eq) in Hr. by eapply Linked.reach_child.
    + rewrite nth_overflow in Hr by by apply lookup_ge_None_1. inversion Hr.
Qed.
Lemma elem_subrange {A} (l : list A) i j x : x ∈ subrange l i j → x ∈ l.
Proof. unfold subrange. intros H%elem_of_list_lookup. destruct H as [p H]. rewrite lookup_take_Some, lookup_drop in H. apply elem_of_list_lookup. destruct H. eauto. Qed.

(** ** The result of a compaction *)
Definition offset_of (n : LNode.t) (a : nat) (k : Key) : nat := offsets_decrement (LNode.make_offset_map n) a k.
Lemma domain_alt {T} `{!Buffer T} (bd : gmap Address T) n a b k : LNode.wf n →
  Linked.valid_compact_key_domain bd n a b k ↔
  bounded_key (LNode.pivots n) k ∧ LNode.flushed_ofs n k ≤ b ∧
  ∃ x, x ∈ drop (LNode.flushed_ofs n k - a) (subrange (LNode.buffers n) a b) ∧ Linked.queryable_contains bd x k.
Proof.
  intros Hw. unfold Linked.valid_compact_key_domain, Linked.bd_key_in_buffer_filtered, LNode.key_in_domain. split.
  - intros ((_&Hk)&Hf&idx&_&(x&Hx&Hq)&Ho). split; [done|]. split; [done|]. exists x. split; [|done].
    unfold offsets_decrement, LNode.make_offset_map in Ho. rewrite decide_True in Ho by done.
    apply elem_of_list_lookup. exists (idx - (LNode.flushed_ofs n k - a)). rewrite lookup_drop. rewrite <-Hx. f_equal. lia.
  - intros (Hk&Hf&x&[i Hi]%elem_of_list_lookup&Hq). rewrite lookup_drop in Hi. split; [done|]. split; [done|].
    eexists. split; [lia|]. split; [by exists x|]. unfold offsets_decrement, LNode.make_offset_map. rewrite decide_True by done. lia.
Qed.
Definition compacted_keys (bd : gmap Address SB) (l : list Address) : SB :=
  foldr (λ x acc, default ∅ (bd !! x) ∪ acc) ∅ l.
Lemma compacted_keys_spec bd l k : is_Some (compacted_keys bd l !! k) ↔ ∃ x, x ∈ l ∧ Linked.queryable_contains bd x k.
Proof.
  unfold Linked.queryable_contains. induction l as [|y l IH]; cbn [compacted_keys foldr].
  - rewrite lookup_empty. split; [by intros [? ?]|]. intros (x&Hx&_). by apply elem_of_nil in Hx.
  - fold (compacted_keys bd l). rewrite lookup_union_is_Some, IH. split.
    + intros [H|(x&Hx&H)]; [|exists x; split; [by right|done]]. exists y. split; [left|].
      destruct (bd !! y) as [B|]; [exists B; done|]. cbn in H. rewrite lookup_empty in H. by destruct H.
    + intros (x&[->|Hx]%elem_of_cons&H); [left|right; by exists x]. destruct H as (B&->&H). done.
Qed.
(** The canonical result. *)
Lemma compact_exists (bd : gmap Address SB) n a b : LNode.wf n → ∃ B : SB,
  (∀ k, is_Some (B !! k) ↔ Linked.valid_compact_key_domain bd n a b k) ∧
  (∀ k, is_Some (B !! k) → buf_query B k = Linked.compact_key_value bd n a b k).
Proof.
  intros Hw. set (sub := subrange (LNode.buffers n) a b).
  set (B := map_imap (λ k (_ : Message), if decide (bounded_key (LNode.pivots n) k ∧ LNode.flushed_ofs n k ≤ b ∧
     is_Some (compacted_keys bd (drop (LNode.flushed_ofs n k - a) sub) !! k)) then Some (Linked.compact_key_value bd n a b k) else None)
     (compacted_keys bd sub)).
  assert (HB : ∀ k, B !! k = if decide (bounded_key (LNode.pivots n) k ∧ LNode.flushed_ofs n k ≤ b ∧
     is_Some (compacted_keys bd (drop (LNode.flushed_ofs n k - a) sub) !! k)) then Some (Linked.compact_key_value bd n a b k) else None).
  { intros k. unfold B. rewrite map_lookup_imap. destruct (compacted_keys bd sub !! k) as [m|] eqn:E; [done|]. cbn.
    rewrite decide_False; [done|]. intros (_&_&(x&Hx&Hq)%compacted_keys_spec).
    assert (is_Some (compacted_keys bd sub !! k)) as [? ?].
    { apply compacted_keys_spec. exists x. split; [|done]. apply elem_of_list_lookup in Hx as [i Hi]. rewrite lookup_drop in Hi.
      apply elem_of_list_lookup. eauto. }
    congruence. }
  exists B. split; intros k.
  - rewrite HB, (domain_alt bd n a b k Hw). fold sub. setoid_rewrite <-compacted_keys_spec. case_decide as Hd; [|split; [by intros [? ?]|done]].
    split; [done|]. intros _. by eexists.
  - unfold buf_query. rewrite HB. case_decide; [done|]. by intros [? ?].
Qed.

(** Two trees whose buffers answer the same compact to the same answers, although
    one of them may leave out more keys. *)
Lemma query_nop {T} `{!Buffer T} (bd : gmap Address T) k bs :
  (∀ x, x ∈ bs → Linked.bd_query bd x k = Update nop_delta) → Linked.bd_query_all bd bs k = Update nop_delta.
Proof.
  induction bs as [|x bs IH]; intros H; [done|]. cbn. rewrite (H x), IH; [done|intros; apply H; by right|left].
Qed.
Lemma compact_same {T} `{!Buffer T} (bd : gmap Address T) (ad : gmap Address SB) n a b (B : SB) (q : Key → Message) :
  LNode.wf n → 
  (∀ x, x ∈ subrange (LNode.buffers n) a b → ∃ y, bd !! x = Some y) →
  (∀ x k, x ∈ subrange (LNode.buffers n) a b → Linked.bd_query bd x k = Linked.bd_query ad x k) →
  (∀ x k y, bd !! x = Some y → linked_contains y bd x k ↔ Linked.bd_query bd x k ≠ Update nop_delta) →
  (∀ k, q k ≠ Update nop_delta ↔ Linked.valid_compact_key_domain bd n a b k) →
  (∀ k, q k ≠ Update nop_delta → q k = Linked.compact_key_value bd n a b k) →
  (∀ k, is_Some (B !! k) ↔ Linked.valid_compact_key_domain ad n a b k) →
  (∀ k, is_Some (B !! k) → buf_query B k = Linked.compact_key_value ad n a b k) →
  ∀ k, buf_query B k = q k.
Proof.
  intros Hw Hin Heq Hc Hd Hv HBd HBv k. set (sub := subrange (LNode.buffers n) a b) in *.
  assert (Hdr : ∀ x j, x ∈ drop j sub → x ∈ sub).
  { intros x j [i Hi]%elem_of_list_lookup. rewrite lookup_drop in Hi. apply elem_of_list_lookup. eauto. }
  assert (Hval : Linked.compact_key_value bd n a b k = Linked.compact_key_value ad n a b k).
  { unfold Linked.compact_key_value, Linked.bd_query_from. apply query_all_eq. intros x Hx. eauto. }
  assert (Hnop : ∀ m : Message, {m = Update nop_delta} + {m ≠ Update nop_delta}) by (intros m; apply (decide (m = Update nop_delta))).
  destruct (Hnop (q k)) as [E|Hne].
  - rewrite E. destruct (B !! k) as [m|] eqn:EB.
    + assert (HS : is_Some (B !! k)) by by rewrite EB. rewrite (HBv _ HS), <-Hval.
      apply HBd in HS. apply (domain_alt _ _ _ _ _ Hw) in HS as (Hk&Hf&_).
      unfold Linked.compact_key_value, Linked.bd_query_from. apply query_nop. intros x Hx.
      destruct (Hnop (Linked.bd_query bd x k)) as [?|Hx']; [done|]. exfalso. apply (proj2 (Hd k)); [|done].
      apply (domain_alt _ _ _ _ _ Hw). split; [done|]. split; [done|]. exists x. split; [done|].
      destruct (Hin x (Hdr _ _ Hx)) as [y Hy]. exists y. split; [done|]. by apply Hc.
    + unfold buf_query. by rewrite EB.
  - rewrite (Hv k Hne), Hval. apply HBv, HBd. apply Hd, (domain_alt _ _ _ _ _ Hw) in Hne as (Hk&Hf&x&Hx&y&Hy&Hq).
    apply (domain_alt _ _ _ _ _ Hw). split; [done|]. split; [done|]. exists x. split; [done|].
    apply (Hc _ _ _ Hy) in Hq. rewrite (Heq _ _ (Hdr _ _ Hx)) in Hq. unfold Linked.bd_query in Hq. unfold Linked.queryable_contains.
    destruct (ad !! x) as [C|]; [|done]. exists C. split; [done|]. cbn in Hq |- *. unfold buf_query in Hq. destruct (C !! k); [by eexists|done].
Qed.

(** ** A step of the counting tree that keeps just the buffers of counted units *)
Lemma exact_bufs σ : sexact σ → ∀ a, a ∈ mdom (LikesBetree.buf_likes σ) ↔ Linked.reachable_buffer (root (LikesBetree.betree σ)) a.
Proof. intros (_&t&Hu&_&Eb) a. rewrite elem_mdom, Eb. by apply bufs_elem. Qed.
Lemma exact_nodes σ : sexact σ → ∀ a, a ∈ mdom (LikesBetree.betree_likes σ) ↔ node_live (root (LikesBetree.betree σ)) a.
Proof. intros (_&t&Hu&Eb&_) a. rewrite elem_mdom, Eb, live_reach. by apply nodes_elem. Qed.
Lemma exact_on_disk σ : sexact σ → mdom (LikesBetree.buf_likes σ) ⊆ dom (lb_bdv (root (LikesBetree.betree σ))).
Proof. intros He a Ha. apply (exact_bufs _ He) in Ha. destruct He as (Hl&_). apply linv_legal in Hl as (_&Hb&_). by apply elem_of_dom, Hb. Qed.
Lemma elem_mdom_au (m : gmultiset Address) u : u ∈ mdom (to_au_likes m) ↔ ∃ a, a ∈ mdom m ∧ au a = u.
Proof. rewrite elem_mdom, to_au_elem. by setoid_rewrite elem_mdom. Qed.
Definition kept_disk (W : gmap Address SB) (aus : gmultiset nat) : gmap Address SB := filter (λ ab, au ab.1 ∈ mdom aus) W.
Lemma kept_lookup W aus a x : kept_disk W aus !! a = Some x ↔ W !! a = Some x ∧ au a ∈ mdom aus.
Proof. unfold kept_disk. by rewrite map_filter_lookup_Some. Qed.
Lemma tree_step σ x x' (W : gmap Address SB) :
  same x σ → sexact σ → AllocBetree.next x x' Internal →
  lb_bdv (root (AllocBetree.betree x')) = kept_disk W (AllocBetree.buffer_aus x') →
  (∀ a b, a ∈ dom W → b ∈ dom W → au a = au b → a = b) →
  ∃ σ', LikesBetree.next σ σ' Internal ∧ sexact σ' ∧ same x' σ' ∧
    pages_kept (root (LikesBetree.betree σ)) (root (LikesBetree.betree σ')) ∧
    (∀ a, a ∈ mdom (LikesBetree.buf_likes σ') ↔ a ∈ dom W ∧ au a ∈ mdom (AllocBetree.buffer_aus x')) ∧
    dom (lb_bdv (root (LikesBetree.betree σ'))) = mdom (LikesBetree.buf_likes σ').
Proof.
  intros Hs He Hn Hbd Hinj. destruct (alloc_sim _ _ _ _ Hs He Hn) as (σ'&Hn'&Hs'). exists σ'. split; [done|].
  destruct (likes_strong _ _ _ He Hn') as [Hst He']. change (sexact σ') in He'. split; [done|]. split; [done|]. split.
  { destruct He as ((Hw&t&Hr&Hc)&_). by destruct (strong_step _ _ _ _ Hw Hr Hc Hst) as (t'&fl&_&_&Hk&_). }
  pose proof (exact_on_disk _ He') as Hon. destruct Hs' as (E1&E2&E3). rewrite <-E1, Hbd in Hon |- *.
  assert (HW : ∀ a, a ∈ dom (kept_disk W (AllocBetree.buffer_aus x')) ↔ a ∈ dom W ∧ au a ∈ mdom (AllocBetree.buffer_aus x')).
  { intros a. rewrite !elem_of_dom. split.
    - intros [y [Hy Ha]%kept_lookup]. split; [by eexists|done].
    - intros [[y Hy] Ha]. exists y. by apply kept_lookup. }
  assert (Hiff : ∀ a, a ∈ mdom (LikesBetree.buf_likes σ') ↔ a ∈ dom W ∧ au a ∈ mdom (AllocBetree.buffer_aus x')).
  { intros a. split.
    - intros Ha. by apply HW, Hon.
    - intros [Ha Hau]. rewrite E3 in Hau. apply elem_mdom_au in Hau as (b&Hb&Eab).
      assert (Hbw : b ∈ dom W) by by apply HW, Hon. by rewrite (Hinj a b). }
  split; [done|]. apply set_eq. intros a. by rewrite HW, Hiff.
Qed.
