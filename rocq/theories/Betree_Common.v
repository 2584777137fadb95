(** Memtable lemmas and the refinement argument shared by the be-tree layers. *)
From Verif Require Import Spec_Model Abs_Model Betree_Model Betree_Spec Spec_Proof Abs_Proof.
From Coq Require Import ZifyBool ZifyNat ZifyN Lia.
Local Set Default Proof Using "Type".

Lemma merge_all_opt base (b : SimpleBuffer) k :
  merge_all base (option_list (b !! k)) = merge base (buf_query b k).
Proof. unfold merge_all, buf_query. destruct (b !! k); simpl; [done|]. by rewrite merge_nop_r. Qed.
Lemma merge_all_app base l1 l2 : merge_all base (l1 ++ l2) = merge_all (merge_all base l1) l2.
Proof. unfold merge_all. by rewrite foldl_app. Qed.
Lemma merge_all_merge base m l : merge_all (merge base m) l = merge base (merge_all m l).
Proof.
  unfold merge_all. revert base m. induction l as [|x l IH]; intros base m; simpl; [done|].
  rewrite <-IH. by rewrite merge_assoc.
Qed.
Lemma merge_all_bufs base (bs : BufferSeq) k :
  merge_all base (omap (λ b : gmap N Message, b !! k) bs) = merge base (bufs_query bs k).
Proof.
  revert base. induction bs as [|b bs IH]; intros base; simpl.
  - by rewrite merge_nop_r.
  - unfold buf_query. rewrite merge_assoc, <-IH. destruct (b !! k) as [m|]; simpl; [done|].
    by rewrite merge_nop_r.
Qed.
Lemma merge_all_define base l : Paged.is_define base → Paged.is_define (merge_all base l).
Proof.
  unfold merge_all. revert base. induction l as [|x l IH]; intros base [v ->]; simpl; [by exists v|].
  apply IH. destruct x; simpl; eexists; reflexivity.
Qed.
Lemma merge_define_l v m : Paged.is_define (merge (Define v) m).
Proof. destruct m; simpl; eexists; reflexivity. Qed.
Lemma paged_is_define_merge a b : Paged.is_define a → Paged.is_define (merge a b).
Proof. intros [v ->]. apply merge_define_l. Qed.

Lemma buf_query_insert b k m k' :
  buf_query (buf_insert b k m) k' = if decide (k = k') then m else buf_query b k'.
Proof.
  unfold buf_query, buf_insert. destruct (decide (k = k')) as [->|].
  - by rewrite lookup_insert.
  - by rewrite lookup_insert_ne.
Qed.
Lemma buf_query_merge b1 b2 k : buf_query (buf_merge b1 b2) k = merge (buf_query b1 k) (buf_query b2 k).
Proof.
  unfold buf_query, buf_merge. rewrite lookup_union_with.
  destruct (b1 !! k), (b2 !! k); cbn -[merge nop_delta]; by rewrite ?merge_nop_l, ?merge_nop_r.
Qed.
Lemma buf_query_filter f b k : buf_query (buf_filter f b) k = if f k then buf_query b k else Update nop_delta.
Proof.
  unfold buf_query, buf_filter. destruct (b !! k) as [m|] eqn:E.
  - destruct (f k) eqn:F.
    + by rewrite (map_filter_lookup_Some_2 _ _ _ _ E).
    + rewrite map_filter_lookup_None_2; [done|]. right. intros x Hx. simpl. congruence.
  - rewrite map_filter_lookup_None_2 by (by left). by destruct (f k).
Qed.
Lemma buf_query_empty k : buf_query ∅ k = Update nop_delta.
Proof. unfold buf_query. by rewrite lookup_empty. Qed.

Lemma apply_puts_seq_end ms start n mt :
  mt_seq_end (apply_puts_first ms start n mt) = mt_seq_end mt + n.
Proof.
  induction n as [|n IH]; simpl; [lia|]. destruct (ms !! (start + n)); simpl; lia.
Qed.
Lemma apply_puts_query ms start n mt m e k b :
  m k = merge b (mt_query mt k) →
  st_value (apply_first ms start n (mkStamped m e)) k =
  merge b (mt_query (apply_puts_first ms start n mt) k).
Proof.
  intros H. induction n as [|n IH]; simpl; [done|].
  destruct (ms !! (start + n)) as [km|]; simpl; [|done].
  unfold mt_query, apply_put, apply_msg, kmmap_insert in *. cbn [mt_buffer].
  rewrite buf_query_insert. destruct (decide (km_key km = k)) as [E|E].
  - subst k. destruct (decide (km_key km = km_key km)) as [_|]; [|done].
    rewrite IH. by rewrite merge_assoc.
  - destruct (decide (k = km_key km)); [congruence|]. exact IH.
Qed.

Section Refine.
  Context {T : Type} (answers : T → Key → Message → Prop).
  Implicit Types s : BState T.

  Definition sim (s : BState T) (a : AbstractMap.State) : Prop :=
    state_holds answers s (st_value (AbstractMap.stamped_map a)) ∧
    st_seq_end (AbstractMap.stamped_map a) = mt_seq_end (memtable s).
  Definition sim_step (s s' : BState T) (l : BLabel T) : Prop :=
    ∀ a, sim s a → ∃ a' al, AbstractMap.next a a' al ∧ betree_event answers l al ∧ sim s' a'.

  Lemma sim_query s e k v m :
    e = mt_seq_end (memtable s) → answers (root s) k m →
    Define v = merge m (mt_query (memtable s) k) → sim_step s s (Query e k v).
  Proof.
    intros -> Ha Hv a [Hs He]. exists a, (AbstractMap.QueryLabel (mt_seq_end (memtable s)) k v).
    split; [|by split; [|split]]. left. exists (mt_seq_end (memtable s)), k, v.
    split; [done|]. split; [done|]. split; [|done].
    destruct Hs as (base&Hb&Hm). rewrite Hm, merge_all_opt.
    unfold mt_query in Hv. rewrite (proj1 (Hb k m) Ha). by rewrite <-Hv.
  Qed.
  Lemma sim_put s puts :
    mh_wf puts → seq_start puts = mt_seq_end (memtable s) →
    sim_step s (mkBS (apply_puts (memtable s) puts) (root s)) (Put puts).
  Proof.
    intros Hw Hst a [Hs He].
    exists (AbstractMap.mkState (map_plus_history (AbstractMap.stamped_map a) puts)), (AbstractMap.PutLabel puts).
    split; [|split; [done|split]].
    - right; left. exists puts. split; [done|]. split; [|done].
      unfold can_follow. rewrite He. first [lia | done].
    - destruct Hs as (base&Hb&Hm). exists base. split; [done|]. intros k. cbn [memtable AbstractMap.stamped_map].
      rewrite merge_all_opt. unfold map_plus_history, apply_to_stamped_map.
      destruct (AbstractMap.stamped_map a) as [m e]. simpl in *.
      apply apply_puts_query. by rewrite Hm, merge_all_opt.
    - cbn [memtable AbstractMap.stamped_map]. unfold map_plus_history, apply_to_stamped_map.
      rewrite apply_first_seq_end, He. unfold apply_puts. by rewrite apply_puts_seq_end.
  Qed.
  Lemma sim_freeze s :
    mt_is_empty (memtable s) →
    sim_step s s (FreezeAs (mkStamped (root s) (mt_seq_end (memtable s)))).
  Proof.
    intros Hm a [Hs He]. exists a, (AbstractMap.FreezeAsLabel (AbstractMap.stamped_map a)).
    split; [by right; right; left|]. split; [|done].
    destruct Hs as (base&Hb&Hk). exists (st_value (AbstractMap.stamped_map a)). split.
    - intros k v. rewrite Hk, Hm, lookup_empty. apply Hb.
    - cbn [st_seq_end]. rewrite <-He. by destruct (AbstractMap.stamped_map a).
  Qed.
  Lemma sim_internal s s' :
    (∀ k m, answers (root s) k m ↔ answers (root s') k m) → memtable s' = memtable s →
    sim_step s s' Internal.
  Proof.
    intros Hr Hm a [Hs He]. exists a, AbstractMap.InternalLabel.
    split; [by do 3 right|]. split; [done|]. split; [|congruence].
    destruct Hs as (base&Hb&Hk). exists base. split.
    - intros k v. rewrite <-Hr. apply Hb.
    - intros k. by rewrite Hm.
  Qed.
  Lemma sim_flush_memtable s t :
    (∀ k m, answers t k m ↔ ∃ b, answers (root s) k b ∧ m = merge b (mt_query (memtable s) k)) →
    sim_step s (mkBS (mt_drain (memtable s)) t) Internal.
  Proof.
    intros Ht a [Hs He]. exists a, AbstractMap.InternalLabel.
    split; [by do 3 right|]. split; [done|]. split; [|done].
    destruct Hs as (base&Hb&Hk). exists (st_value (AbstractMap.stamped_map a)). split.
    - intros k v. cbn [root]. rewrite Ht, Hk, merge_all_opt. split.
      + intros (b&Ha&->). by rewrite (proj1 (Hb k b) Ha).
      + intros <-. exists (base k). split; [by apply Hb|done].
    - intros k. simpl. by rewrite lookup_empty.
  Qed.

  Lemma sim_run (next : BState T → BState T → BLabel T → Prop) (inv : BState T → Prop) s ls s' a :
    (∀ s1 s2 l, inv s1 → next s1 s2 l → inv s2 ∧ sim_step s1 s2 l) →
    run next s ls s' → inv s → sim s a →
    inv s' ∧ ∃ als a', run AbstractMap.next a als a' ∧ Forall2 (betree_event answers) ls als ∧ sim s' a'.
  Proof.
    intros Hstep Hr Hi Hs. induction Hr as [|s0 ls s1 l s2 Hr IH Hn].
    - split; [done|]. exists [], a. split; [constructor|]. by split.
    - destruct (IH Hi Hs) as (Hi1&als&a1&Hr1&Hf&Hs1).
      destruct (Hstep _ _ _ Hi1 Hn) as (Hi2&Hst). destruct (Hst _ Hs1) as (a2&al&Hn2&He&Hs2).
      split; [done|]. exists (als ++ [al]), a2. split; [by econstructor|].
      split; [|done]. apply Forall2_app; [done|]. by constructor.
  Qed.
  Lemma acts_as_map_intro (next : BState T → BState T → BLabel T → Prop) (inv : BState T → Prop)
      s0 (img : Stamped T) ls s m :
    (∀ s1 s2 l, inv s1 → next s1 s2 l → inv s2 ∧ sim_step s1 s2 l) →
    s0 = mkBS (empty_memtable (st_seq_end img)) (st_value img) → inv s0 →
    holds answers (st_value img) m → run next s0 ls s →
    inv s ∧ acts_as_map answers (mkStamped m (st_seq_end img)) ls s.
  Proof.
    intros Hst -> Hi Hm Hr.
    destruct (sim_run next inv _ ls s (AbstractMap.mkState (mkStamped m (st_seq_end img))) Hst Hr Hi)
      as (Hi'&als&a&Hra&Hf&Hs).
    { split; [|done]. exists m. split; [done|]. intros k. simpl. by rewrite lookup_empty. }
    split; [done|]. eexists _, als, a. by split; [|split; [|split]].
  Qed.
End Refine.

(** Lists in which neighbours are linked and the last element is final. *)
Section Chain.
  Context {A : Type} (link : A → A → Prop) (fin : A → Prop).
  Fixpoint chain (ls : list A) : Prop :=
    match ls with
    | [] => False
    | [a] => fin a
    | a :: ((a' :: _) as rest) => link a a' ∧ chain rest
    end.
  Lemma chain_index ls :
    chain ls ↔ ls ≠ [] ∧ ∀ i a, ls !! i = Some a →
      (i < length ls - 1 → ∃ a', ls !! S i = Some a' ∧ link a a') ∧ (i = length ls - 1 → fin a).
  Proof.
    induction ls as [|a [|a' ls] IH].
    - simpl. tauto.
    - simpl. split.
      + intros H. split; [done|]. intros [|i] b Hi; [|done]. injection Hi as <-. split; [lia|done].
      + intros [_ H]. by apply (H 0).
    - change (chain (a :: a' :: ls)) with (link a a' ∧ chain (a' :: ls)). rewrite IH. split.
      + intros (Hl&_&H). split; [done|]. intros [|i] b Hi.
        * injection Hi as <-. split; [|simpl; lia]. intros _. by exists a'.
        * destruct (H i b Hi) as [H1 H2]. split.
          -- intros Hlt. apply H1. simpl in *. lia.
          -- intros He. apply H2. simpl in *. lia.
      + intros (_&H). split.
        * destruct (H 0 a eq_refl) as [H1 _]. destruct H1 as (b&Hb&Hl); [simpl; lia|].
          injection Hb as <-. done.
        * split; [done|]. intros i b Hi. destruct (H (S i) b Hi) as [H1 H2]. split.
          -- intros Hlt. apply H1. simpl in *. lia.
          -- intros He. apply H2. simpl in *. lia.
  Qed.
End Chain.
