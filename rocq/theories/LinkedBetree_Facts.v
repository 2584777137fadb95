(** The property forms of the linked be-tree results (C18), and the run that
    reuses a live address. *)
From Verif Require Import Spec_Model Abs_Model Betree_Model Betree_Spec LinkedBetree_Model LinkedBetree_Spec
  Spec_Proof Abs_Proof Route_Proof Betree_Common Routed_Proof LinkedBetree_Proof.
From Verif Require FilteredBetree_Proof.
From Coq Require Import ZifyBool ZifyNat ZifyN Lia.

Lemma repr_reach_buf dv (bdv : gmap Address Bufs) p t ba :
  repr dv (inB bdv) p t → reach_buf dv p ba → is_Some (bdv !! ba).
Proof.
  intros Hr (a&n&Hre&Hn&Hba). revert t Hr. induction Hre as [a m Hm|a m i q b Hm Hq Hre IH]; intros t Hr.
  - rewrite Hn in Hm. injection Hm as <-. destruct (repr_Some _ _ _ _ _ Hn Hr) as (c&chs&->&_&Hb&_).
    apply elem_of_list_lookup in Hba as [j Hj]. apply Forall2_same_length_lookup in Hb as [Hl Hb].
    destruct (lookup_lt_is_Some_2 (Filtered.buffers c) j) as [x Hx]; [apply lookup_lt_Some in Hj; lia|].
    exists x. by apply (Hb _ _ _ Hj Hx).
  - destruct (repr_Some _ _ _ _ _ Hm Hr) as (c&chs&->&_&_&Hc). apply Forall2_same_length_lookup in Hc as [Hl Hc].
    destruct (lookup_lt_is_Some_2 chs i) as [x Hx]; [apply lookup_lt_Some in Hq; lia|].
    eapply (IH Hn); eauto.
Qed.
Lemma cover_iff (l : LB) t : Linked.wf l → lrepr l t →
  covers_all_keys t ↔ ∀ n, Linked.root_is l n → LNode.my_domain n = total_domain.
Proof.
  intros Hw Hr. destruct (repr_wf _ _ _ _ (proj1 Hw) Hr) as [Hwt Hd]. split.
  - intros Hc n (a&Ha&Hn). destruct (Hd a n Ha Hn) as [Hnode <-]. by apply (covers_domain Filtered.dwf).
  - intros H. destruct (lb_root l) as [a|] eqn:E; [|by apply repr_None in Hr as ->].
    destruct (proj2 Hw a E) as [n Hn]. destruct (Hd a n eq_refl Hn) as [Hnode Hdm].
    apply (covers_domain Filtered.dwf); [done|done|]. rewrite Hdm. apply H. by exists a.
Qed.

Lemma linv_init s v : Linked.initialize s v → linv s.
Proof.
  intros (Hac&Hb&Hd&Hm&->). destruct (linked_repr_exists _ Hac Hb) as [t Ht].
  split; [apply Hac|]. exists t. split; [done|]. by apply (cover_iff (root v)); [apply Hac|..].
Qed.
Lemma ans_iff (l : LB) t k m : Linked.wf l → lrepr l t → linked_answers l k m ↔ filtered_answers t k m.
Proof. intros Hw Hr. apply linked_answers_iff; [apply Hw|done]. Qed.
Lemma holds_iff (l : LB) t m : Linked.wf l → lrepr l t → holds linked_answers l m ↔ holds filtered_answers t m.
Proof. intros Hw Hr. unfold holds. by setoid_rewrite (ans_iff _ _ _ _ Hw Hr). Qed.
Lemma sim_iff (s : LState) t a : Linked.wf (root s) → lrepr (root s) t →
  sim linked_answers s a ↔ sim filtered_answers (mkBS (memtable s) t) a.
Proof.
  intros Hw Hr. unfold sim, state_holds. cbn [root memtable]. by setoid_rewrite (holds_iff _ _ _ Hw Hr).
Qed.
Lemma step_sim s s' l : linv s → Linked.strong_next s s' l → linv s' ∧ sim_step linked_answers s s' l.
Proof.
  intros (Hw&t&Hr&Hc) Hn. destruct (strong_step _ _ _ _ Hw Hr Hc Hn) as (t'&fl&Hw'&Hr'&_&Hl&Hf).
  assert (Hi : FilteredBetree_Proof.inv (mkBS (memtable s) t)).
  { split; [|done]. by eapply repr_wf; [apply Hw|]. }
  destruct (FilteredBetree_Proof.step_sim _ _ _ Hi Hf) as [[_ Hc'] Hs]. split.
  { split; [done|]. by exists t'. }
  intros a Ha. rewrite (sim_iff _ _ _ Hw Hr) in Ha. destruct (Hs a Ha) as (a'&al&Han&Hev&Hs').
  exists a', al. split; [done|]. split; [|by rewrite (sim_iff _ _ _ Hw' Hr')].
  destruct l; cbn [lab] in Hl.
  - by subst fl.
  - by subst fl.
  - destruct Hl as (u&Hu1&Hu2&->). destruct Hev as (m&Hm&->). exists m. split; [|done].
    cbn [st_value] in Hm. intros k v. unfold linked_answers. rewrite (linked_answers_iff _ _ _ _ _ _ Hu1 Hu2). apply Hm.
  - by subst fl.
Qed.
Lemma linv_run s0 v ls s : Linked.initialize s0 v → run Linked.strong_next s0 ls s → linv s.
Proof.
  intros Hi%linv_init Hr. apply (run_inv Linked.strong_next linv s0 ls s Hi); [|exact Hr].
  intros a b l Ha Hx. exact (proj1 (step_sim _ _ _ Ha Hx)).
Qed.
Lemma linked_faithful s0 v ls s :
  Linked.initialize s0 v → run Linked.strong_next s0 ls s →
  ∃ m, holds linked_answers (root v) m ∧
       acts_as_map linked_answers (mkStamped m (mt_seq_end (memtable v))) ls s.
Proof.
  intros Hi Hr. pose proof (linv_init _ _ Hi) as Hinv. pose proof Hi as (_&_&_&Hm&->).
  destruct Hinv as (Hw&t&Ht&Hc). exists (den filtered_held t).
  assert (holds linked_answers (root v) (den filtered_held t)).
  { apply (holds_iff _ _ _ Hw Ht), (holds_den Filtered.dwf); [|done]. by eapply repr_wf; [apply Hw|]. }
  split; [done|].
  destruct (acts_as_map_intro linked_answers Linked.strong_next linv v (mkStamped (root v) (mt_seq_end (memtable v))) ls s
    (den filtered_held t)) as [_ H']; [|destruct v as [[b e] r]; unfold mt_is_empty in Hm; simpl in *; by subst b| |done|done|exact H'].
  - intros s1 s2 l. apply step_sim.
  - split; [done|]. by exists t.
Qed.
Lemma can_answer_iff s t k v : Linked.wf (root s) → lrepr (root s) t →
  can_answer Linked.strong_next s k v ↔ can_answer Filtered.next (mkBS (memtable s) t) k v.
Proof.
  intros Hw Hr. rewrite FilteredBetree_Proof.query_iff. cbn [root memtable]. unfold can_answer. split.
  - intros [(r&e&k'&v'&res&[= <- <- <-]&_&Hv&Hres&Hd&_)|Hn].
    + split; [by eapply repr_wf; [apply Hw|]|]. exists res. split; [|done]. eapply lreceipt_iff; eauto.
    + destruct Hn as [(?&?&_)|[(_&?&_)|[(?&?&?&(?&_)&_)|[(?&(?&_)&_)|[(?&?&?&?&?&?&(?&_)&_)|[(?&?&?&?&?&?&?&(?&_)&_)|
        [(?&?&?&?&?&?&?&?&(?&_)&_)|[(?&?&_)|(?&_)]]]]]]]]; discriminate.
  - intros (_&m&Ha&Hd). apply (lreceipt_iff _ _ _ _ Hw Hr) in Ha as (r&Hv&Hres).
    left. exists r, (mt_seq_end (memtable s)), k, v, m. done.
Qed.
Lemma linked_invisible s0 v ls s s' :
  Linked.initialize s0 v → run Linked.strong_next s0 ls s → Linked.strong_next s s' Internal →
  ∀ k x, can_answer Linked.strong_next s k x ↔ can_answer Linked.strong_next s' k x.
Proof.
  intros Hi Hrun Hn k x. destruct (linv_run _ _ _ _ Hi Hrun) as (Hw&t&Hr&Hc).
  destruct (strong_step _ _ _ _ Hw Hr Hc Hn) as (t'&fl&Hw'&Hr'&_&Hl&Hf). cbn [lab] in Hl. subst fl.
  rewrite (can_answer_iff _ _ _ _ Hw Hr), (can_answer_iff _ _ _ _ Hw' Hr').
  apply FilteredBetree_Proof.internal_invisible; [|done]. split; [|done]. by eapply repr_wf; [apply Hw|].
Qed.
Lemma linked_one_answer s0 v ls s k :
  Linked.initialize s0 v → run Linked.strong_next s0 ls s →
  ∃ x, can_answer Linked.strong_next s k x ∧ ∀ x', can_answer Linked.strong_next s k x' → x' = x.
Proof.
  intros Hi Hrun. destruct (linv_run _ _ _ _ Hi Hrun) as (Hw&t&Hr&Hc).
  destruct (FilteredBetree_Proof.one_answer (mkBS (memtable s) t) k) as (x&Hx&Hu).
  { split; [|done]. by eapply repr_wf; [apply Hw|]. }
  exists x. split; [by apply (can_answer_iff _ _ _ _ Hw Hr)|].
  intros x'. rewrite (can_answer_iff _ _ _ _ Hw Hr). apply Hu.
Qed.
Lemma linked_kept s0 v ls s s' l :
  Linked.initialize s0 v → run Linked.strong_next s0 ls s → Linked.strong_next s s' l →
  pages_kept (root s) (root s').
Proof.
  intros Hi Hrun Hn. destruct (linv_run _ _ _ _ Hi Hrun) as (Hw&t&Hr&Hc).
  destruct (strong_step _ _ _ _ Hw Hr Hc Hn) as (t'&fl&_&_&Hk&_). done.
Qed.
Lemma linv_legal (s : LState) :
  linv s → Linked.acyclic (root s) ∧ Linked.valid_buffer_dv (root s) ∧
    ∀ n, Linked.root_is (root s) n → LNode.my_domain n = total_domain.
Proof.
  intros (Hw&t&Hr&Hc). split; [by eapply repr_acyclic|]. split.
  - intros ba Hba. by eapply repr_reach_buf.
  - by apply (cover_iff _ t Hw Hr).
Qed.
Lemma linked_frozen s0 v ls s s' img :
  Linked.initialize s0 v → run Linked.strong_next s0 ls s → Linked.strong_next s s' (FreezeAs img) →
  ∃ s1, Linked.initialize s1 (mkBS (empty_memtable (st_seq_end img)) (st_value img)).
Proof.
  intros Hi Hrun Hn. pose proof (linv_legal _ (linv_run _ _ _ _ Hi Hrun)) as (H1&H2&H3).
  destruct Hn as [(r&e&k&x&res&?&_)|[(puts&?&_)|[(_&[= ->]&_)|[(?&?&?&(?&_)&_)|[(?&(?&_)&_)|[(?&?&?&?&?&?&(?&_)&_)|
    [(?&?&?&?&?&?&?&(?&_)&_)|[(?&?&?&?&?&?&?&?&(?&_)&_)|[(?&?&_)|(?&_)]]]]]]]]]; try done.
  eexists. cbn [st_value st_seq_end]. rewrite i_bdv_id. unfold Linked.initialize. cbn [root memtable].
  split; [done|]. split; [done|]. split; [done|]. split; done.
Qed.
Lemma linked_legal s0 v ls s :
  Linked.initialize s0 v → run Linked.strong_next s0 ls s →
  Linked.acyclic (root s) ∧ (∀ ba, Linked.reachable_buffer (root s) ba → is_Some (lb_bdv (root s) !! ba)) ∧
  ∀ n, Linked.root_is (root s) n → LNode.my_domain n = total_domain.
Proof. intros Hi Hr. apply linv_legal. by eapply linv_run. Qed.

(** ** Building concrete disks *)
Lemma nd_wf_insert dv a n : nd_wf dv → dv !! a = None → LNode.wf n →
  (∀ i q, LNode.children n !! i = Some q → nd_nondangling dv q) →
  (∀ i c m, LNode.children n !! i = Some (Some c) → dv !! c = Some m → LNode.my_domain m = LNode.child_domain n i) →
  nd_wf (<[a := n]> dv).
Proof.
  intros [He Hc] Ha Hn H1 H2. split.
  - intros x y Hx. apply lookup_insert_Some in Hx as [[<- <-]|[_ Hx]]; [done|by eapply He].
  - assert (Hmono : ∀ q, nd_nondangling dv q → nd_nondangling (<[a:=n]> dv) q).
    { intros q Hq c E. destruct (Hq c E) as [m Hm]. exists m. rewrite lookup_insert_ne; [done|]. intros <-. congruence. }
    intros x y Hx. apply lookup_insert_Some in Hx as [[<- <-]|[_ Hx]].
    + split.
      * intros i q Hq. by eapply Hmono, H1.
      * intros i c m Hq Hm. destruct (H1 _ _ Hq c eq_refl) as [m' Hm'].
        assert (a ≠ c) by congruence. rewrite lookup_insert_ne in Hm by done. by eapply H2.
    + destruct (Hc _ _ Hx) as [Hn1 Hn2]. split.
      * intros i q Hq. by eapply Hmono, Hn1.
      * intros i c m Hq Hm. destruct (Hn1 _ _ Hq c eq_refl) as [m' Hm'].
        assert (a ≠ c) by congruence. rewrite lookup_insert_ne in Hm by done. by eapply Hn2.
Qed.
(** A step may keep everything it wrote. *)
Lemma view_refl (l : LB) : Linked.wf l → Linked.valid_view l l.
Proof. intros Hw. split; [done|]. split; [done|]. split; [done|]. intros a x y ??. congruence. Qed.
Lemma preserved_refl (l : LB) t : lrepr l t → Linked.reachable_buffers_preserved l l.
Proof. intros Hr ba Hba. by eapply repr_reach_buf. Qed.

(** ** Without fresh addresses the tree is lost *)
Section Reuse.
  Definition ra : Address := mkAddr 1 0.
  Definition rb : Address := mkAddr 1 1.
  Definition rput : MsgHistory := singleton_at 0 (mkKM 3%N (Define 7%N)).
  Definition r0 : LState := mkBS (empty_memtable 0) (mkLB None ∅ ∅).
  Definition r1 : LState := mkBS (apply_puts (empty_memtable 0) rput) (mkLB None ∅ ∅).
  Definition r2 : LState := mkBS (mt_drain (memtable r1)) (Linked.push_memtable (root r1) (mt_buffer (memtable r1)) (mkTwo ra rb)).
  Definition r3 : LState := mkBS (memtable r2) (Linked.grow (root r2) ra).
  Lemma r0_init : Linked.initialize r0 r0.
  Proof.
    assert (Hw : Linked.wf (mkLB (T:=Bufs) None ∅ ∅)) by (split; [split; intros ? ? H; cbn in H; by rewrite lookup_empty in H|by intros ? ?]).
    split; [|split; [|split; [|done]]].
    - eapply (repr_acyclic (root r0) RNil); done.
    - intros ba (a&n&_&Hn&_). cbn in Hn; by rewrite lookup_empty in Hn.
    - intros n (a&?&_). done.
  Qed.
  Lemma r01 : Linked.strong_next r0 r1 (Put rput).
  Proof. right; left. exists rput. split; [done|]. split; [apply singleton_wf|]. done. Qed.
  Lemma r2_wf : Linked.wf (root r2).
  Proof.
    split.
    - apply (nd_wf_insert ∅); [| done | |intros [|i] q Hq; [by injection Hq as <-|done]|by intros [|i] c m ? ?].
      + split; intros ? ? H; cbn in H; by rewrite lookup_empty in H.
      + split; [apply domain_to_pivots_wf; elt_cases; done|]. split; [done|]. split; [done|]. constructor; [simpl; lia|constructor].
    - intros a [= <-]. by eexists.
  Qed.
  Lemma r12 : Linked.strong_next r1 r2 Internal.
  Proof.
    assert (Hfr : Linked.is_fresh (root r1) (two_repr (mkTwo ra rb))).
    { split; cbn; rewrite dom_empty_L; set_solver. }
    do 3 right; left. exists (mt_buffer (memtable r1)), (root r2), (mkTwo ra rb). split; [|split].
    - split; [done|]. split; [done|]. split; [done|]. split; [|done]. apply view_refl, r2_wf.
    - done.
    - destruct (push_memtable_repr (root r1) RNil (memtable r1) (mt_buffer (memtable r1)) (mkTwo ra rb) (eq_refl : lrepr (root r1) RNil))
        as (_&_&_&Hr); [apply r0_init|done|exact Hfr|done|]. eapply preserved_refl. exact Hr.
  Qed.
  Lemma r23 : Linked.next r2 r3 Internal.
  Proof. do 4 right; left. by exists ra. Qed.
  Lemma r3_cyclic : ¬ Linked.acyclic (root r3).
  Proof.
    intros [_ (r&_&[_ Hr]&Hrt)].
    assert (Hn : lb_dv (root r3) !! ra = Some (LNode.mk [] (domain_to_pivots total_domain) [Some ra] [0])) by apply lookup_insert.
    destruct (Hrt) with ra as [x Hx]; [by eexists _, ra|done|].
    destruct (Hr _ _ Hn ltac:(by eexists) 0 ra x eq_refl Hx) as (y&Hy&Hlt). rewrite Hx in Hy. injection Hy as <-. lia.
  Qed.
  Lemma r2_answers : can_answer Linked.strong_next r2 3%N 7%N.
  Proof.
    assert (Hrun : run Linked.strong_next r0 [Put rput; Internal] r2).
    { eapply run_cons; [apply r01|]. eapply run_cons; [apply r12|constructor]. }
    destruct (linv_run _ _ _ _ r0_init Hrun) as (Hw&t&Hr&Hc).
    apply (can_answer_iff _ _ _ _ Hw Hr). apply FilteredBetree_Proof.query_iff.
    split; [by eapply repr_wf; [apply Hw|]|]. exists (Define 7%N). split; [|done].
    cbn [root]. apply (ans_iff (root r2) t _ _ Hw Hr).
    change (Define 7%N) with (merge_all message_empty (omap (λ b : gmap N Message, b !! 3%N) [mt_buffer (memtable r1)])).
    eapply (disk_answers_node _ _ ra _ 3%N 0 (Elem 0) EMax None 0); try done.
    - constructor; [|constructor]. apply lookup_insert.
    - constructor.
  Qed.
  Lemma linked_reuse_refuted :
    ∃ s0 v ls s s', Linked.initialize s0 v ∧ run Linked.next s0 ls s ∧ Linked.next s s' Internal ∧
      can_answer Linked.next s 3%N 7%N ∧ ∀ k x, ¬ can_answer Linked.next s' k x.
  Proof.
    assert (Hweak : ∀ s s' (l : LLabel), Linked.strong_next s s' l → Linked.next s s' l).
    { intros s s' l Hn. unfold Linked.strong_next in Hn. unfold Linked.next. naive_solver. }
    exists r0, r0, [Put rput; Internal], r2, r3. split; [apply r0_init|]. split.
    { eapply run_cons; [apply Hweak, r01|]. eapply run_cons; [apply Hweak, r12|constructor]. }
    split; [apply r23|]. split; [apply Hweak, r2_answers|].
    intros k x [(r&e&k'&v'&res&_&_&(((_&H0&_)&(Hac&_)&_)&E&_)&_)|Hn].
    - destruct H0 as (l0&Hl0&El). destruct (Hac _ _ Hl0) as [_ Ha]. rewrite El, E in Ha. by apply r3_cyclic.
    - destruct Hn as [(?&?&_)|[(_&?&_)|[(?&?&?&?&_)|[(?&?&_)|[(?&?&?&?&?&?&?&_)|[(?&?&?&?&?&?&?&?&_)|
        [(?&?&?&?&?&?&?&?&?&_)|[(?&?&_)|(?&_)]]]]]]]]; discriminate.
  Qed.
End Reuse.
