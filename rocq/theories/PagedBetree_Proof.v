(** The paged be-tree behaves as the versioned map (C15, C19). *)
From Verif Require Import Spec_Model Abs_Model Betree_Model Betree_Spec Spec_Proof Abs_Proof Betree_Common.
From Coq Require Import ZifyBool ZifyNat ZifyN Lia.
Local Set Default Proof Using "Type".
Import Paged.

Fixpoint den (n : BetreeNode) (k : Key) : Message :=
  match n with
  | Nil => message_empty
  | Node b ch => merge (den (ch k) k) (buf_query b k)
  end.
Lemma answers_den n k m : paged_answers n k m ↔ den n k = m.
Proof.
  split.
  - induction 1 as [|b ch k m H IH]; simpl; [done|]. by rewrite IH, merge_all_opt.
  - intros <-. induction n as [|b ch IH]; [constructor|].
    simpl. rewrite <-merge_all_opt. constructor. apply IH.
Qed.
Lemma den_define n k : is_define (den n k).
Proof. induction n as [|b ch IH]; simpl; [by eexists|]. by apply paged_is_define_merge. Qed.
Lemma holds_den n : holds paged_answers n (den n).
Proof. intros k v. apply answers_den. Qed.

Lemma den_merge_buffer n b k : is_node n → den (merge_buffer n b) k = merge (den n k) (buf_query b k).
Proof.
  destruct n as [|b0 ch]; [by intros []|]. intros _. simpl. by rewrite buf_query_merge, merge_assoc.
Qed.
Lemma den_promote n k : den (promote n) k = den n k.
Proof. destruct n; [|done]. unfold promote, empty_root. cbn [den]. by rewrite buf_query_empty, merge_nop_r. Qed.
Lemma promote_node n : is_node (promote n).
Proof. by destruct n. Qed.
Lemma den_filter n f k : f k = true → den (filter_buffer_and_children n f) k = den n k.
Proof. intros Hf. destruct n; simpl; [done|]. by rewrite buf_query_filter, Hf. Qed.
Lemma den_child n k : is_node n → den n k = merge (den (child n k) k) (buf_query (buffer_of n) k).
Proof. destruct n; [by intros []|done]. Qed.
Lemma den_split n l r k : is_node n → den (split n l r) k = den n k.
Proof.
  intros Hn. rewrite (den_child n) by done. unfold split. cbn [den]. f_equal.
  destruct (l k) eqn:El; [by apply den_filter|]. destruct (r k) eqn:Er; [by apply den_filter|done].
Qed.
Lemma den_flush n f k : is_node n → den (flush n f) k = den n k.
Proof.
  intros Hn. rewrite (den_child n) by done. unfold flush. cbn [den].
  rewrite buf_query_filter. destruct (f k) eqn:E; simpl negb; cbn [negb].
  - rewrite merge_nop_r, den_merge_buffer by apply promote_node.
    by rewrite den_promote, buf_query_filter, E.
  - done.
Qed.
Lemma target_node n key r : path_valid n key r → is_node (path_target n key r).
Proof.
  revert n. induction r as [|f r IH]; intros n Hv; simpl in *; [apply Hv|]. apply IH, Hv.
Qed.
Lemma den_substitute n key r t k :
  path_valid n key r → (∀ k, den t k = den (path_target n key r) k) →
  den (path_substitute n key r t) k = den n k.
Proof.
  revert n k. induction r as [|f r IH]; intros n k Hv Ht; simpl in *; [apply Ht|].
  destruct Hv as (Hn&Hv&Hc). rewrite (den_child n) by done. f_equal.
  destruct (f k) eqn:E; [|done]. rewrite (Hc k E). by apply IH.
Qed.

(** ** Receipts *)
Definition link (k : Key) (l l' : Line) : Prop :=
  is_node (line_node l) ∧ is_define (line_result l) ∧
  line_node l' = child (line_node l) k ∧
  line_result l = merge (line_result l') (buf_query (buffer_of (line_node l)) k).
Definition fin (l : Line) : Prop := line_node l = Nil ∧ line_result l = message_empty.
Lemma valid_chain r :
  receipt_valid r ↔ chain (link (rc_key r)) fin (rc_lines r) ∧
    ∃ l0, rc_lines r !! 0 = Some l0 ∧ line_node l0 = rc_root r.
Proof.
  rewrite chain_index. split.
  - intros ((H0&Hn&Hl)&Hd&Hc&Hr). split; [|done]. split.
    { intros E. destruct H0 as (?&H0&_). by rewrite E in H0. }
    intros i a Hi. pose proof (lookup_lt_Some _ _ _ Hi). split.
    + intros Hlt. destruct (lookup_lt_is_Some_2 (rc_lines r) (S i)) as [a' Ha']; [lia|].
      exists a'. split; [done|]. split; [by apply (Hn i)|]. split.
      { exact (proj1 (Forall_lookup _ _) Hd _ _ Hi). }
      split; [by apply (Hc i Hlt)|by apply (Hr i Hlt)].
    + intros He. destruct Hl as (ll&Hll&Hres). subst i. rewrite Hi in Hll. injection Hll as <-. split; [|done].
      destruct (line_node a) eqn:E; [done|]. exfalso.
      assert (length (rc_lines r) - 1 < length (rc_lines r) - 1); [|lia].
      apply (Hn _ _ Hi). by rewrite E.
  - intros ((Hne&H)&Hroot). split; [split; [done|split]|split; [|split]].
    + intros i l Hi. pose proof (lookup_lt_Some _ _ _ Hi). destruct (H i l Hi) as [H1 H2]. split.
      * intros Hnd. destruct (decide (i < length (rc_lines r) - 1)); [done|].
        exfalso. apply Hnd. apply H2. lia.
      * intros Hlt. destruct (H1 Hlt) as (?&?&Hk). apply Hk.
    + assert (length (rc_lines r) ≠ 0) by (destruct (rc_lines r); simpl; lia || done).
      destruct (lookup_lt_is_Some_2 (rc_lines r) (length (rc_lines r) - 1)) as [ll Hll]; [lia|].
      exists ll. split; [done|]. by apply (H _ _ Hll).
    + apply Forall_lookup. intros i l Hi. pose proof (lookup_lt_Some _ _ _ Hi). destruct (H i l Hi) as [H1 H2].
      destruct (decide (i < length (rc_lines r) - 1)) as [Hlt|].
      * destruct (H1 Hlt) as (?&?&Hk). apply Hk.
      * destruct H2 as [_ ->]; [lia|]. by eexists.
    + intros i Hlt l l' Hi Hi'. destruct (H i l Hi) as [H1 _]. destruct (H1 Hlt) as (l''&Hi''&Hk).
      rewrite Hi' in Hi''. injection Hi'' as <-. apply Hk.
    + intros i Hlt l l' Hi Hi'. destruct (H i l Hi) as [H1 _]. destruct (H1 Hlt) as (l''&Hi''&Hk).
      rewrite Hi' in Hi''. injection Hi'' as <-. apply Hk.
Qed.
Lemma chain_den k ls l0 : chain (link k) fin ls → ls !! 0 = Some l0 → line_result l0 = den (line_node l0) k.
Proof.
  revert l0. induction ls as [|a [|a' ls] IH]; intros l0; [done| |].
  - intros [H1 H2] [= ->]. by rewrite H1, H2.
  - change (chain (link k) fin (a :: a' :: ls)) with (link k a a' ∧ chain (link k) fin (a' :: ls)).
    intros [(Hn&_&Hc&Hr) Hch] [= ->]. rewrite Hr, den_child by done. f_equal.
    rewrite (IH a' Hch eq_refl). by rewrite Hc.
Qed.
Fixpoint build (n : BetreeNode) (k : Key) : list Line :=
  mkLine n (den n k) :: match n with Nil => [] | Node _ ch => build (ch k) k end.
Lemma build_head n k : build n k !! 0 = Some (mkLine n (den n k)).
Proof. by destruct n. Qed.
Lemma build_chain n k : chain (link k) fin (build n k).
Proof.
  induction n as [|b ch IH]; [done|].
  simpl. pose proof (build_head (ch k) k) as Hh. specialize (IH k).
  destruct (build (ch k) k) as [|l' ls]; [done|]. injection Hh as ->. split; [|done].
  split; [done|]. split; [exact (den_define (Node b ch) k)|]. done.
Qed.
Lemma receipt_iff n k m :
  (∃ r, valid_for r n k ∧ receipt_result r m) ↔ paged_answers n k m.
Proof.
  rewrite answers_den. split.
  - intros (r&(Hv&<-&<-)&l0&Hl&<-). apply valid_chain in Hv as (Hc&l1&Hl1&<-).
    rewrite Hl in Hl1. injection Hl1 as <-. symmetry. by eapply chain_den.
  - intros <-. exists (mkReceipt k n (build n k)). split.
    + split; [|done]. apply valid_chain. split; [apply build_chain|].
      exists (mkLine n (den n k)). split; [apply build_head|done].
    + exists (mkLine n (den n k)). split; [apply build_head|done].
Qed.
Lemma query_iff s k v :
  can_answer next s k v ↔
  ∃ m, paged_answers (root s) k m ∧ Define v = merge m (mt_query (memtable s) k).
Proof.
  unfold can_answer. split.
  - intros [(r&e&k'&v'&res&[= <- <- <-]&_&Hv&Hr&Hd&_)|Hn].
    + exists res. split; [|done]. apply receipt_iff. by exists r.
    + destruct Hn as [(?&?&_)|[(_&?&_)|[(?&_)|[(?&_)|[(?&?&?&?&?&_)|[(?&?&?&?&_)|(?&_)]]]]]]; discriminate.
  - intros (m&Ha&Hd). apply receipt_iff in Ha as (r&Hv&Hr). left. exists r.
    exists (mt_seq_end (memtable s)), k, v, m. done.
Qed.

(** ** Steps *)
Lemma step_sim s s' l : next s s' l → sim_step paged_answers s s' l.
Proof.
  intros [(r&e&k&v&res&->&He&Hv&Hr&Hd& ->)|[(puts&->&Hw&Hst& ->)|[(Hm&->& ->)|[(->& ->)|[(->& ->)|
    [(key&rt&lk&rk&->&Hp& ->)|[(key&rt&dk&->&Hp& ->)|(->& ->)]]]]]]].
  - eapply sim_query; [done| |exact Hd]. apply receipt_iff. by exists r.
  - by apply sim_put.
  - by apply sim_freeze.
  - apply sim_flush_memtable. intros k m. cbn [push_memtable st_value]. rewrite answers_den.
    rewrite den_merge_buffer by apply promote_node. rewrite den_promote. split.
    + intros <-. exists (den (root s) k). by rewrite answers_den.
    + intros (b&Hb%answers_den&->). by subst b.
  - apply sim_internal; [|done]. intros k m. rewrite !answers_den. cbn [root den].
    rewrite buf_query_empty, merge_nop_r. done.
  - apply sim_internal; [|done]. intros k m. rewrite !answers_den. cbn [root].
    rewrite den_substitute; [done|done|]. intros k'. apply den_split. by apply target_node.
  - apply sim_internal; [|done]. intros k m. rewrite !answers_den. cbn [root].
    rewrite den_substitute; [done|done|]. intros k'. apply den_flush. by apply target_node.
  - by apply sim_internal.
Qed.
Lemma faithful s0 img ls s :
  initialize s0 img → run next s0 ls s →
  ∃ m, holds paged_answers (st_value img) m ∧
       acts_as_map paged_answers (mkStamped m (st_seq_end img)) ls s.
Proof.
  intros Hi Hr. exists (den (st_value img)). split; [apply holds_den|].
  eapply (acts_as_map_intro paged_answers next (λ _, True)); eauto using holds_den.
  intros s1 s2 l _ Hn. split; [done|by apply step_sim].
Qed.
Lemma internal_invisible s s' :
  next s s' Internal → ∀ k v, can_answer next s k v ↔ can_answer next s' k v.
Proof.
  intros Hn k v. rewrite !query_iff.
  pose proof (step_sim _ _ _ Hn) as Hs.
  assert (sim paged_answers s (AbstractMap.mkState (mkStamped
     (λ k, merge (den (root s) k) (mt_query (memtable s) k)) (mt_seq_end (memtable s))))) as H0.
  { split; [|done]. exists (den (root s)). split; [apply holds_den|]. intros k'. by rewrite merge_all_opt. }
  destruct (Hs _ H0) as (a'&al&Ha&He&(Hs'&_)). simpl in He. subst al.
  assert (a' = AbstractMap.mkState (mkStamped
     (λ k, merge (den (root s) k) (mt_query (memtable s) k)) (mt_seq_end (memtable s)))) as ->.
  { destruct Ha as [(?&?&?&?&_)|[(?&?&_)|[(?&_)|(_&->)]]]; done. }
  destruct Hs' as (base&Hb&Hk). specialize (Hk k). simpl in Hk. rewrite merge_all_opt in Hk.
  fold (mt_query (memtable s') k) in Hk.
  split.
  - intros (m&<-%answers_den&Hd). exists (base k). split; [by apply Hb|congruence].
  - intros (m&Hm&Hd). apply Hb in Hm. subst m. exists (den (root s) k). split; [by apply answers_den|congruence].
Qed.
Lemma one_answer s k : ∃ v, can_answer next s k v ∧ ∀ v', can_answer next s k v' → v' = v.
Proof.
  destruct (paged_is_define_merge (den (root s) k) (mt_query (memtable s) k) (den_define _ _)) as [v Hv].
  exists v. split.
  - apply query_iff. exists (den (root s) k). rewrite answers_den. done.
  - intros v' (m&<-%answers_den&Hd)%query_iff. congruence.
Qed.
