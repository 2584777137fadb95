(** A concrete run of the linked be-tree: two memtable flushes, a grow, a leaf
    split, a flush to a child and a compaction below the root. *)
From Verif Require Import Spec_Model Abs_Model Betree_Model Betree_Spec LinkedBetree_Model LinkedBetree_Spec
  Spec_Proof Abs_Proof Route_Proof Betree_Common Routed_Proof LinkedBetree_Proof LinkedBetree_Facts Betree_Example.
From Verif Require FilteredBetree_Proof.
From Coq Require Import ZifyBool ZifyNat ZifyN Lia.

(** Checking a concrete disk by computation. *)
Fixpoint sortedb (p : list Element) : bool :=
  match p with [] => true | a :: r => forallb (λ b, bool_decide (elt_lt a b)) r && sortedb r end.
Lemma sortedb_ok p : sortedb p = true → elts_strictly_sorted p.
Proof.
  induction p as [|x p IH]; intros H i j a b Hij Ha Hb; [done|]. simpl in H. apply andb_prop in H as [H1 H2].
  destruct j as [|j]; [lia|]. destruct i as [|i]; simpl in Ha, Hb.
  - injection Ha as ->. rewrite forallb_forall in H1. refine (bool_decide_eq_true_1 _ (H1 b _)).
    apply elem_of_list_In. by eapply elem_of_list_lookup_2.
  - by eapply (IH H2 i j); [lia|..].
Qed.
Definition elemb (e : Element) : bool := match e with Elem _ => true | EMax => false end.
Definition node_okb (n : LNode.t) : bool :=
  bool_decide (0 < num_ranges (LNode.pivots n)) && sortedb (LNode.pivots n) &&
  forallb elemb (take (num_ranges (LNode.pivots n)) (LNode.pivots n)) &&
  bool_decide (length (LNode.children n) = num_ranges (LNode.pivots n)) &&
  bool_decide (length (LNode.children n) = length (LNode.flushed n)) &&
  forallb (λ x, bool_decide (x ≤ length (LNode.buffers n))) (LNode.flushed n).
Lemma node_okb_ok n : node_okb n = true → LNode.wf n.
Proof.
  unfold node_okb. intros H. repeat (apply andb_prop in H as [H ?]).
  split; [|split; [|split]].
  - split; [exact (bool_decide_eq_true_1 _ H)|]. split; [by apply sortedb_ok|]. intros i a Hi Ha.
    rewrite forallb_forall in H3. specialize (H3 a). intros ->.
    apply diff_false_true, H3. apply elem_of_list_In. apply (elem_of_list_lookup_2 _ i). by rewrite lookup_take.
  - exact (bool_decide_eq_true_1 _ H2).
  - exact (bool_decide_eq_true_1 _ H1).
  - apply Forall_forall. intros x Hx. rewrite forallb_forall in H0. refine (bool_decide_eq_true_1 _ (H0 x _)). first [exact Hx|by apply elem_of_list_In].
Qed.
Definition child_okb (dv : gmap Address LNode.t) (n : LNode.t) (i : nat) : bool :=
  match LNode.children n !! i with
  | Some (Some c) => match dv !! c with
                     | Some m => bool_decide (dom_start (LNode.my_domain m) = dom_start (LNode.child_domain n i)) &&
                                 bool_decide (dom_end (LNode.my_domain m) = dom_end (LNode.child_domain n i))
                     | None => false
                     end
  | _ => true
  end.
Definition diskb (l : LB) : bool :=
  forallb (λ an, node_okb an.2 && forallb (child_okb (lb_dv l) an.2) (seq 0 (length (LNode.children an.2))) &&
                 forallb (λ b, bool_decide (is_Some (lb_bdv l !! b))) (LNode.buffers an.2))
          (map_to_list (lb_dv l)) &&
  match lb_root l with Some a => bool_decide (is_Some (lb_dv l !! a)) | None => true end.
Lemma diskb_ok (l : LB) : diskb l = true → Linked.wf l ∧ Linked.reachable_buffers_preserved l l.
Proof.
  unfold diskb. intros [H Hrt]%andb_prop. rewrite forallb_forall in H.
  assert (H' : ∀ a n, lb_dv l !! a = Some n →
    node_okb n = true ∧ (∀ i, i < length (LNode.children n) → child_okb (lb_dv l) n i = true) ∧
    ∀ b, b ∈ LNode.buffers n → is_Some (lb_bdv l !! b)).
  { intros a n Hn. specialize (H (a, n)). rewrite <-elem_of_list_In in H.
    specialize (H (proj2 (elem_of_map_to_list _ _ _) Hn)). cbn in H.
    apply andb_prop in H as [[H1 H2]%andb_prop H3]. split; [done|]. split.
    - intros i Hi. rewrite forallb_forall in H2. apply H2, in_seq. lia.
    - intros b Hb. rewrite forallb_forall in H3. specialize (H3 b). rewrite <-elem_of_list_In in H3.
      specialize (H3 Hb). by apply bool_decide_eq_true in H3. }
  split; [split; [split|]|].
  - intros a n Hn. by apply node_okb_ok, (H' a n).
  - intros a n Hn. destruct (H' a n Hn) as (_&Hc&_). split.
    + intros i p Hp c ->. specialize (Hc i). unfold child_okb in Hc. rewrite Hp in Hc.
      apply lookup_lt_Some in Hp. specialize (Hc Hp). destruct (lb_dv l !! c); [by eexists|done].
    + intros i c m Hp Hm. specialize (Hc i). unfold child_okb in Hc. rewrite Hp, Hm in Hc.
      apply lookup_lt_Some in Hp. specialize (Hc Hp). apply andb_prop in Hc as [E1%bool_decide_eq_true E2%bool_decide_eq_true].
      destruct (LNode.my_domain m), (LNode.child_domain n i). simpl in *. by subst.
  - intros a Ha. rewrite Ha in Hrt. by apply bool_decide_eq_true in Hrt.
  - intros ba (a&n&_&Hn&Hb). by apply (H' a n Hn).
Qed.

(** Reading a concrete disk by computation. *)
Definition idxb (n : LNode.t) (k : Key) (i : nat) : bool :=
  match LNode.pivots n !! i, LNode.pivots n !! S i with
  | Some lo, Some hi => bool_decide (elt_lte lo (Elem k)) && bool_decide (elt_lt (Elem k) hi)
  | _, _ => false
  end.
Fixpoint deval (fuel : nat) (dv : gmap Address LNode.t) (bdv : gmap Address (gmap N Message)) (p : option Address) (k : Key) : option Message :=
  match fuel, p with
  | _, None => Some message_empty
  | 0, _ => None
  | S f, Some a =>
      n ← dv !! a;
      i ← List.find (idxb n k) (seq 0 (length (LNode.children n)));
      q ← LNode.children n !! i;
      ofs ← LNode.flushed n !! i;
      bs ← mapM (λ ba, bdv !! ba) (drop ofs (LNode.buffers n));
      m ← deval f dv bdv q k;
      Some (merge_all m (omap (λ b : gmap N Message, b !! k) bs))
  end.
Lemma deval_disk fuel dv bdv p k m : deval fuel dv bdv p k = Some m → disk_answers dv bdv p k m.
Proof.
  revert p m. induction fuel as [|f IH]; intros [a|] m; cbn [deval]; try done.
  { intros [= <-]. constructor. }
  2: { intros [= <-]. constructor. }
  destruct (dv !! a) as [n|] eqn:En; [|done]. cbn [mbind option_bind].
  destruct (List.find _ _) as [i|] eqn:Ei; [|done]. cbn [mbind option_bind].
  destruct (LNode.children n !! i) as [q|] eqn:Eq; [|done]. cbn [mbind option_bind].
  destruct (LNode.flushed n !! i) as [o|] eqn:Eo; [|done]. cbn [mbind option_bind].
  destruct (mapM _ _) as [bs|] eqn:Eb; [|done]. cbn [mbind option_bind].
  destruct (deval f dv bdv q k) as [m'|] eqn:Em; [|done]. cbn [mbind option_bind].
  intros [= <-]. apply List.find_some in Ei as [_ Ei]. unfold idxb in Ei.
  destruct (LNode.pivots n !! i) as [lo|] eqn:El; [|done].
  destruct (LNode.pivots n !! S i) as [hi|] eqn:Eh; [|done].
  apply andb_prop in Ei as [E1%bool_decide_eq_true E2%bool_decide_eq_true].
  apply mapM_Some in Eb. exact (disk_answers_node dv bdv a n k i lo hi q o bs m' En El Eh E1 E2 Eq Eo Eb (IH _ _ Em)).
Qed.
Lemma deval_ok fuel (l : LB) k m : deval fuel (lb_dv l) (lb_bdv l) (lb_root l) k = Some m → linked_answers l k m.
Proof. apply deval_disk. Qed.

Module LinkedEx.
  Definition A (i : nat) : Address := mkAddr 1 i.
  Definition B (i : nat) : Address := mkAddr 2 i.
  Definition st0 : LState := mkBS (empty_memtable 0) (mkLB None ∅ ∅).
  Definition st1 : LState := mkBS (apply_puts (memtable st0) put1) (root st0).
  Definition flushed (s : LState) (na : TwoAddrs) : LState :=
    mkBS (mt_drain (memtable s)) (Linked.push_memtable (root s) (mt_buffer (memtable s)) na).
  Definition st2 : LState := flushed st1 (mkTwo (A 1) (B 1)).
  Definition st3 : LState := mkBS (apply_puts (memtable st2) put2) (root st2).
  Definition st4 : LState := flushed st3 (mkTwo (A 2) (B 2)).
  Definition st5 : LState := mkBS (memtable st4) (Linked.grow (root st4) (A 3)).
  Definition st6 : LState := mkBS (memtable st5) (Linked.post_split (root st5) 3%N 0 (SplitLeaf 0 10%N) (mkSplit (A 4) (A 5) (A 6)) []).
  Definition st7 : LState := mkBS (apply_puts (memtable st6) put3) (root st6).
  Definition st8 : LState := flushed st7 (mkTwo (A 7) (B 3)).
  Definition st9 : LState := mkBS (memtable st8) (Linked.post_flush (root st8) 3%N 0 0 0 (mkTwo (A 8) (A 9)) []).
  Definition compacted : gmap N Message := {[3%N := merge (Define 7%N) (Update 5%N)]}.
  Definition st10 : LState := mkBS (memtable st9) (Linked.post_compact (root st9) 3%N 1 0 3 compacted (mkTwo (A 10) (B 4)) [A 11]).

  Definition reach (s : LState) : Prop := ∃ ls, run Linked.strong_next st0 ls s.
  Lemma initial : Linked.initialize st0 st0.
  Proof. exact r0_init. Qed.
  Lemma more s s' l : reach s → Linked.strong_next s s' l → reach s'.
  Proof. intros [ls H] Hn. eexists. by eapply run_snoc. Qed.
  Lemma acyclic_of s : reach s → Linked.acyclic (root s).
  Proof. intros [ls H]. exact (proj1 (linked_legal _ _ _ _ initial H)). Qed.
  Lemma put_step s p s' : mh_wf p → seq_start p = mt_seq_end (memtable s) →
    s' = mkBS (apply_puts (memtable s) p) (root s) → reach s → reach s'.
  Proof. intros Hp He -> Hr. apply (more s _ (Put p)); [done|]. right; left. by exists p. Qed.
  Lemma flush_mt s na s' : s' = flushed s na → two_no_dup na → Linked.is_fresh (root s) (two_repr na) →
    diskb (root s') = true → reach s → reach s'.
  Proof.
    intros -> Hd Hf Hok Hr. destruct (diskb_ok _ Hok) as [Hw Hp]. apply (more s _ Internal); [done|].
    do 3 right; left. exists (mt_buffer (memtable s)), (root (flushed s na)), na.
    split; [|done]. split; [done|]. split; [done|]. split; [done|]. split; [by apply view_refl|done].
  Qed.
  Lemma child_acyclic s k : reach s → Linked.has_root (root s) → Linked.acyclic (Linked.child_for_key (root s) k).
  Proof.
    intros [ls Hr] Hh. destruct (linv_run _ _ _ _ initial Hr) as (Hw&t&Ht&_).
    pose proof (child_repr _ _ k Ht Hh) as Hc. eapply repr_acyclic; [|exact Hc].
    split; [apply Hw|]. intros a Ha. unfold lrepr in Hc. rewrite Ha in Hc.
    destruct (Routed.child t k) as [|c pv chs]; [by apply repr_nil in Hc|].
    apply repr_node in Hc as (ad&n&[= <-]&Hn&_). by exists n.
  Qed.
  Ltac freshly := split; bk.
  Lemma r4 : reach st4.
  Proof.
    eapply (flush_mt st3); [done|bk|freshly|by vm_compute|].
    apply (put_step st2 put2); [apply singleton_wf|done|done|].
    eapply (flush_mt st1); [done|bk|freshly|by vm_compute|].
    apply (put_step st0 put1); [apply singleton_wf|done|done|]. exists []. constructor.
  Qed.
  Lemma step5 : Linked.internal_grow st4 st5 Internal (A 3) ∧ Linked.is_fresh (root st4) {[A 3]}.
  Proof. split; [done|]. freshly. Qed.
  Lemma r5 : reach st5.
  Proof. apply (more st4 st5 Internal); [apply r4|]. do 4 right; left. exists (A 3). apply step5. Qed.
  Ltac idom := split; [apply node_okb_ok; by vm_compute|bk].
  Lemma step6 : Linked.internal_split st5 st6 Internal (root st6) 3%N 0 (SplitLeaf 0 10%N) (mkSplit (A 4) (A 5) (A 6)) [].
  Proof.
    pose proof (acyclic_of _ r5) as Hac.
    destruct (diskb_ok (root st6)) as [Hw Hp]; [by vm_compute|].
    split; [done|]. split.
    { cbn [Linked.path_target]. split; [apply Hac|]. split; [by eexists _, (A 3)|]. split; [vm_compute; lia|].
      split; [by eexists _, (A 2)|]. split; [apply node_okb_ok; by vm_compute|]. split; [by split|]. split; [bk|].
      by vm_compute. }
    split; [|split; [by apply view_refl|done]].
    split; [|split; [bk|split; [done|split; [by split; [bk|split; bk]|bk]]]].
    split; [by eexists _, (A 3)|]. split; [exact Hac|]. split; [idom|done].
  Qed.
  Lemma r6 : reach st6.
  Proof.
    apply (more st5 st6 Internal); [apply r5|]. do 5 right; left. do 6 eexists.
    split; [exact step6|]. split; [freshly|]. split; [freshly|]. apply diskb_ok. by vm_compute.
  Qed.
  Lemma r8 : reach st8.
  Proof.
    eapply (flush_mt st7); [done|bk|freshly|by vm_compute|].
    apply (put_step st6 put3); [apply singleton_wf|done|done|apply r6].
  Qed.
  Lemma step9 : Linked.internal_flush st8 st9 Internal (root st9) 3%N 0 0 0 (mkTwo (A 8) (A 9)) [].
  Proof.
    pose proof (acyclic_of _ r8) as Hac.
    destruct (diskb_ok (root st9)) as [Hw Hp]; [by vm_compute|].
    split; [done|]. split.
    { cbn [Linked.path_target]. split; [apply Hac|]. split; [by eexists _, (A 7)|]. split.
      - split; [vm_compute; lia|by vm_compute].
      - unfold ofs_all_gte. apply Forall_forall. intros; lia. }
    split; [|split; [by apply view_refl|done]].
    split; [|split; [bk|split; [done|split; [bk|bk]]]].
    split; [by eexists _, (A 7)|]. split; [exact Hac|]. split; [idom|done].
  Qed.
  Lemma r9 : reach st9.
  Proof.
    apply (more st8 st9 Internal); [apply r8|]. do 6 right; left. do 7 eexists.
    split; [exact step9|]. split; [freshly|]. split; [freshly|]. apply diskb_ok. by vm_compute.
  Qed.
  Lemma bufs9 : LNode.buffers (Linked.root_node (Linked.path_target (root st9) 3%N 1)) = [B 1; B 2; B 3].
  Proof. by vm_compute. Qed.
  Lemma can10 : Linked.wf (Linked.path_target (root st9) 3%N 1) →
    Linked.can_compact (Linked.path_target (root st9) 3%N 1) 0 3 compacted (lb_bdv (root st10)) (mkTwo (A 10) (B 4)).
  Proof.
    intros Hw. split; [exact Hw|]. split; [by eexists _, (A 9)|]. rewrite bufs9. split; [cbn; lia|].
      assert (Hb : ∀ k, LNode.key_in_domain (Linked.root_node (Linked.path_target (root st9) 3%N 1)) k → (k < 10)%N).
      { intros k [_ [_ H]]. change (elt_lt (Elem k) (Elem 10)) in H. elt_cases. lia. }
      assert (Hcases : ∀ k, is_Some (compacted !! k) → k = 3%N).
      { unfold compacted. intros k [v Hv]. by apply lookup_singleton_Some in Hv as [<- _]. }
      split.
      - intros k. cbn [linked_contains simple_buffer]. unfold Linked.valid_compact_key_domain. rewrite bufs9. split.
        + intros ->%Hcases. split; [idom|]. split; [vm_compute; lia|].
          exists 0. split; [lia|]. split; [|vm_compute; lia]. exists (B 1). split; [done|].
          eexists. split; [by vm_compute|]. by vm_compute; eexists.
        + intros (Hd%Hb&_&i&_&(a&Ha&(b&Hb1&Hb2))&_). unfold subrange in Ha. simpl in Ha.
          assert (k = 3%N) as ->; [|by vm_compute; eexists]. cbn [linked_contains simple_buffer] in Hb2. destruct Hb2 as [v Hv].
          destruct i as [|[|[|i]]]; simpl in Ha; [| | |done]; injection Ha as <-; vm_compute in Hb1; injection Hb1 as <-.
          * change ((<[3%N := Define 7%N]> ∅ : gmap N Message) !! k = Some v) in Hv.
            apply lookup_insert_Some in Hv as [[<- _]|[_ Hv]]; [done|by rewrite lookup_empty in Hv].
          * change ((<[12%N := Define 9%N]> ∅ : gmap N Message) !! k = Some v) in Hv.
            apply lookup_insert_Some in Hv as [[<- _]|[_ Hv]]; [lia|by rewrite lookup_empty in Hv].
          * change ((<[3%N := Update 5%N]> ∅ : gmap N Message) !! k = Some v) in Hv.
            apply lookup_insert_Some in Hv as [[<- _]|[_ Hv]]; [done|by rewrite lookup_empty in Hv].
      - intros k. cbn [linked_contains simple_buffer]. intros ->%Hcases. by vm_compute.
  Qed.
  Lemma step10 : Linked.internal_compact st9 st10 Internal (root st10) 3%N 1 0 3 compacted (mkTwo (A 10) (B 4)) [A 11].
  Proof.
    pose proof (acyclic_of _ r9) as Hac.
    destruct (diskb_ok (root st10)) as [Hw Hp]; [by vm_compute|].
    assert (Hac1 : Linked.acyclic (Linked.child_for_key (root st9) 3%N)).
    { apply child_acyclic; [apply r9|by eexists _, (A 8)]. }
    split; [done|]. split.
    { exact (can10 (proj1 Hac1)). }
    split; [|split; [by apply view_refl|done]].
    split; [|split; [bk|split; [done|split; [bk|bk]]]].
    split; [by eexists _, (A 8)|]. split; [exact Hac|]. split; [idom|].
    split; [repeat constructor; done|].
    split; [by eexists _, (A 9)|]. split; [exact Hac1|]. split; [idom|done].
  Qed.
  Lemma r10 : reach st10.
  Proof.
    apply (more st9 st10 Internal); [apply r9|]. do 7 right; left. do 8 eexists.
    split; [exact step10|]. split; [freshly|]. split; [freshly|]. apply diskb_ok. by vm_compute.
  Qed.
  (** The compacted page is really read: the answer for key 3 comes from [B 4]. *)
  Lemma answers : can_answer Linked.strong_next st10 3%N 7%N ∧ can_answer Linked.strong_next st10 12%N 9%N.
  Proof.
    destruct r10 as [ls Hr]. destruct (linv_run _ _ _ _ initial Hr) as (Hw&t&Ht&_).
    assert (Hq : ∀ k m v, linked_answers (root st10) k m → Define v = merge m (mt_query (memtable st10) k) →
      can_answer Linked.strong_next st10 k v).
    { intros k m v Ha Hv. apply (can_answer_iff _ _ _ _ Hw Ht), FilteredBetree_Proof.query_iff.
      split; [by eapply repr_wf; [apply Hw|]|]. exists m. split; [|exact Hv]. by apply (ans_iff _ _ _ _ Hw Ht). }
    split.
    - apply (Hq _ (Define 7%N)); [|by vm_compute]. apply (deval_ok 5). by vm_compute.
    - apply (Hq _ (Define 9%N)); [|by vm_compute]. apply (deval_ok 5). by vm_compute.
  Qed.
End LinkedEx.
