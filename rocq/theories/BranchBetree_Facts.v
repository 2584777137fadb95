(** Facts about all runs of the be-tree whose buffers are branches (C42, C43). *)
From Verif Require Import Spec_Model Spec_Proof Abs_Model Betree_Model Betree_Spec Route_Proof Branch_Spec Branch_Proof BranchPages_Proof BranchBuild_Proof.
From Verif Require Import LinkedBetree_Model LinkedBetree_Spec LikesBetree_Model LikesBetree_Spec LinkedBetree_Proof LinkedBetree_Facts
  LikesTree_Proof LikesOps_Proof LikesBetree_Proof LikesBetree_Facts BranchSkel_Proof BranchCompact_Proof
  BranchBetree_Model BranchBetree_Spec BranchBuffer_Proof BranchForest_Proof BranchBetree_Proof BranchSteps_Proof BranchOps_Proof BranchFlush_Proof.
From Coq Require Import ZifyBool ZifyNat ZifyN Lia.
Implicit Types (s : ABB.State) (σ : LikesBetree.State) (r a : Address).

(** ** What the disk stores *)
Lemma branch_image fixed (d : BranchDisk) dv p : LBranch.disk_wf d →
  (∀ a n ba, Linked.reachable_node dv p a → dv !! a = Some n → ba ∈ LNode.buffers n → ∃ t, stores d ba t ∧ PBranch.wf t) →
  ∀ k m, disk_branch_answers dv d p k m ↔ disk_answers dv (Linked.bd_i (Buffer0:=branch_buffer fixed) d) p k m.
Proof.
  intros Hwf. assert (Hone : ∀ ba t, stores d ba t → PBranch.wf t →
    Linked.bd_i (Buffer0:=branch_buffer fixed) d !! ba = Some (list_to_map (contents t))).
  { intros ba t Hst Hw. destruct (stores_entry _ _ _ Hst) as (x&Hx&_). unfold Linked.bd_i. rewrite map_lookup_imap, Hx. cbn.
    rewrite (branch_tree_stores _ _ _ Hwf Hst). by rewrite node_buffer_contents. }
  assert (Hdrop : ∀ (n : LNode.t) ofs ba, ba ∈ drop ofs (LNode.buffers n) → ba ∈ LNode.buffers n).
  { intros n ofs ba Hba. rewrite <-(take_drop ofs (LNode.buffers n)). apply elem_of_app. by right. }
  intros Hall k m. split; intros Ha.
  - induction Ha as [k|a n k i lo hi p ofs ts m Hn Hlo Hhi H1 H2 Hc Ho Hts Ha IH]; [constructor|].
    assert (Hb : Forall2 (λ ba (B : gmap N Message), Linked.bd_i (Buffer0:=branch_buffer fixed) d !! ba = Some B)
      (drop ofs (LNode.buffers n)) ((λ t, list_to_map (contents t)) <$> ts)).
    { assert (Hin : ∀ ba, ba ∈ drop ofs (LNode.buffers n) → ∃ t, stores d ba t ∧ PBranch.wf t).
      { intros ba Hba. eapply Hall; [by eapply Linked.reach_here|done|by eapply Hdrop]. }
      clear -Hin Hts Hone. induction Hts as [|ba t bas ts Ht Hts IH]; [constructor|]. cbn. constructor.
      - destruct (Hin ba) as (t'&Ht'&Hw'); [left|]. apply Hone; [done|]. by rewrite (stores_det _ _ _ _ Ht Ht').
      - apply IH. intros; apply Hin; by right. }
    replace (omap (λ t, (list_to_map (contents t) : gmap N Message) !! k) ts)
      with (omap (λ B : gmap N Message, B !! k) ((λ t, list_to_map (contents t)) <$> ts)).
    2: { clear. induction ts as [|t ts IH]; [done|]. cbn. by rewrite IH. }
    apply (disk_answers_node dv _ a n k i lo hi p ofs); try done. apply IH. intros b x ba Hr. apply Hall. by eapply Linked.reach_child.
  - induction Ha as [k|a n k i lo hi p ofs bs m Hn Hlo Hhi H1 H2 Hc Ho Hbs Ha IH]; [constructor|].
    assert (Hts : ∃ ts, Forall2 (stores d) (drop ofs (LNode.buffers n)) ts ∧ bs = (λ t, list_to_map (contents t)) <$> ts).
    { assert (Hin : ∀ ba, ba ∈ drop ofs (LNode.buffers n) → ∃ t, stores d ba t ∧ PBranch.wf t).
      { intros ba Hba. eapply Hall; [by eapply Linked.reach_here|done|by eapply Hdrop]. }
      clear -Hin Hbs Hone. induction Hbs as [|ba B bas bs HB Hbs IH]; [by exists []|].
      destruct IH as (ts&Hts&->); [intros; apply Hin; by right|]. destruct (Hin ba) as (t&Ht&Hw); [left|].
      rewrite (Hone _ _ Ht Hw) in HB. injection HB as <-. exists (t :: ts). split; [by constructor|done]. }
    destruct Hts as (ts&Hts&->).
    replace (omap (λ B : gmap N Message, B !! k) ((λ t, list_to_map (contents t)) <$> ts))
      with (omap (λ t, (list_to_map (contents t) : gmap N Message) !! k) ts).
    2: { clear. induction ts as [|t ts IH]; [done|]. cbn. by rewrite IH. }
    apply (branch_answers_node dv _ a n k i lo hi p ofs); try done. apply IH. intros b x ba Hr. apply Hall. by eapply Linked.reach_child.
Qed.

Section Run.
Context `{Geometry} (fixed grow : bool).
Local Instance bb : Buffer BranchNode := branch_buffer fixed.
Notation bdv s := (lb_bdv (root (ABB.betree s))).
Notation atree σ := (root (LikesBetree.betree σ)).
Notation tr s σ := (tracked (LikesBetree.buf_likes σ) (ABB.compactors s)).
Notation binv := (binv fixed).
Notation bstep := (bstep fixed).

Lemma image_query s σ ba k : binv s σ → fixed = true → Linked.reachable_buffer (root (ABB.betree s)) ba →
  is_Some (Linked.bd_i (bdv s) !! ba) ∧ Linked.bd_query (Linked.bd_i (bdv s)) ba k = Linked.bd_query (lb_bdv (atree σ)) ba k.
Proof.
  intros I Hf Hr. rewrite <-(i_query _ _ _ I _ _ Hr Hf). pose proof (i_tracked _ _ _ I _ Hr) as Ht.
  destruct (f_tree _ _ (b_forest _ _ _ I) _ Ht) as (n&Hst&Hw).
  destruct (root_some _ _ _ (b_forest _ _ _ I) Ht) as [x Hx]. unfold Linked.bd_query. unfold Linked.bd_i at 1 2. rewrite map_lookup_imap, Hx. cbn.
  split; [by eexists|]. rewrite (branch_tree_stores _ _ _ (f_wf _ _ (b_forest _ _ _ I)) Hst), node_buffer_query by done.
  symmetry. apply (branch_query_tree _ _ _ _ (f_wf _ _ (b_forest _ _ _ I)) Hst Hw).
Qed.
Lemma image_answers s σ k m : binv s σ → fixed = true →
  linked_answers (Linked.i_bdv (root (ABB.betree s))) k m ↔ linked_answers (atree σ) k m.
Proof.
  intros I Hf. pose proof (b_skel _ _ _ I) as Hsk. set (T := root (ABB.betree s)) in *.
  destruct (b_exact _ _ _ I) as (Hli&_). pose proof (linv_legal _ Hli) as (Hac&Hbd&_). destruct Hli as (Hw&t&Ht&_).
  assert (Hsk' : skel (Linked.i_bdv T) (atree σ)) by exact Hsk.
  destruct (linked_repr_exists (Linked.i_bdv T)) as [t' Ht'].
  { by rewrite (skel_acyclic _ _ Hsk'). }
  { intros ba Hba. by apply (image_query s σ ba 0%N). }
  rewrite (ans_iff _ _ _ _ Hw Ht), (ans_iff _ t' _ _) by (try done; by rewrite (skel_wf _ _ Hsk')).
  rewrite <-(lreceipt_iff _ _ _ _ Hw Ht), <-(lreceipt_iff (Linked.i_bdv T)) by (try done; by rewrite (skel_wf _ _ Hsk')).
  split; apply receipt_other; try done; try by apply skel_sym.
  - intros ba Hba. apply Hbd. by apply (skel_reachable_buffer _ _ _ Hsk').
  - intros ba Hba. by apply (image_query s σ ba k).
  - intros ba Hba. apply (image_query s σ ba k); [done|done|]. by apply (skel_reachable_buffer _ _ _ Hsk).
  - intros ba Hba. symmetry. apply (image_query s σ ba k); [done|done|]. by apply (skel_reachable_buffer _ _ _ Hsk).
Qed.
Lemma branch_answers_iff s σ k m : binv s σ → fixed = true →
  branch_answers (root (ABB.betree s)) k m ↔ linked_answers (atree σ) k m.
Proof.
  intros I Hf. rewrite <-(image_answers _ _ _ _ I Hf). apply branch_image; [apply I|].
  intros a n ba Hr Hn Hba. apply (f_tree _ _ (b_forest _ _ _ I)). apply (i_tracked _ _ _ I). by exists a, n.
Qed.
Lemma query_there s σ k m : binv s σ → fixed = true →
  (∃ rc, Linked.valid_for rc (root (ABB.betree s)) k ∧ Linked.receipt_result rc m) ↔
  (∃ rc, Linked.valid_for rc (atree σ) k ∧ Linked.receipt_result rc m).
Proof.
  intros I Hf. pose proof (b_skel _ _ _ I) as Hsk. destruct (b_exact _ _ _ I) as (Hli&_). pose proof (linv_legal _ Hli) as (_&Hbd&_).
  split; apply receipt_other; try done; try by apply skel_sym.
  - intros ba Hba. apply Hbd. by apply (skel_reachable_buffer _ _ _ Hsk).
  - intros ba Hba. by apply (i_query _ _ _ I).
  - intros ba Hba. eapply root_some; [apply I|]. apply (i_tracked _ _ _ I). by apply (skel_reachable_buffer _ _ _ Hsk).
  - intros ba Hba. symmetry. apply (i_query _ _ _ I); [|done]. by apply (skel_reachable_buffer _ _ _ Hsk).
Qed.

(** ** Every step *)
Lemma same_step s new σ σ' ll : binv s σ → LikesBetree.betree_likes σ' = LikesBetree.betree_likes σ → LikesBetree.buf_likes σ' = LikesBetree.buf_likes σ →
  atree σ' = atree σ → root new = root (ABB.betree s) → memtable new = memtable (LikesBetree.betree σ') →
  (fixed = true → ∃ lb, LikesBetree.next σ σ' lb ∧ ∀ al, betree_event linked_answers lb al → branch_event (ABB.Lbl ll) al) →
  let s' := ABB.mkState new (ABB.betree_aus s) (ABB.branch_aus s) (ABB.branch_summary s) (ABB.compactors s) (ABB.wip_branches s) in
  binv s' σ' ∧ bstep s s' σ σ' (ABB.Lbl ll).
Proof.
  intros I Et Eb Ea Er Em Hl s'. unfold s'. clear s'. split.
  - destruct I. constructor; proj; rewrite ?Et, ?Eb, ?Ea, ?Er; try done.
    unfold sexact, exact in *. rewrite Et, Eb, Ea. destruct b_exact as ((Hw&t&Hr&Hc)&Hu). split; [|done]. split; rewrite Ea; [done|eauto].
  - constructor; proj; rewrite ?Er; try done.
    + apply kept_refl.
    + unfold held, ABB.branch_allocator_aus. proj. set_solver.
Qed.
Lemma noop_step s s' σ l new : binv s σ → ABB.au_likes_noop fixed s s' l new → ∃ σ', binv s' σ' ∧ bstep s s' σ σ' l.
Proof.
  intros I (ll&->&Hfree&Hn&->). destruct Hn as [(rc&e&k&v&res&->&->&Hv&Hres&Hd&->)|[(puts&->&Hwf&Hst&->)|[(He&->&->)|Hn]]].
  - exists σ. apply same_step; try done; [apply I|]. intros Hf. exists (Query (mt_seq_end (memtable (ABB.betree s))) k v). split; [|done].
    left. exists (LikesBetree.betree σ). split; [done|]. split; [|by destruct σ]. left.
    destruct (proj1 (query_there _ _ k res I Hf)) as (rc'&Hv'&Hres'); [by exists rc|]. exists rc'.
    exists (mt_seq_end (memtable (ABB.betree s))), k, v, res. rewrite <-(b_mt _ _ _ I). done.
  - exists (LikesBetree.mkState (mkBS (apply_puts (memtable (LikesBetree.betree σ)) puts) (atree σ)) (LikesBetree.betree_likes σ) (LikesBetree.buf_likes σ)).
    apply same_step; try done; [cbn; by rewrite (b_mt _ _ _ I)|]. intros Hf. exists (Put puts). split; [|done].
    left. eexists. split; [done|]. split; [|done]. right; left. exists puts. rewrite <-(b_mt _ _ _ I). done.
  - exists σ. apply same_step; try done; [apply I|]. intros Hf.
    exists (FreezeAs (mkStamped (atree σ) (mt_seq_end (memtable (ABB.betree s))))). split.
    + left. exists (LikesBetree.betree σ). split; [done|]. split; [|by destruct σ]. right; right; left.
      split; [by rewrite <-(b_mt _ _ _ I)|]. by rewrite i_bdv_id, (b_mt _ _ _ I).
    + intros al (m&Hm&->). exists m. split; [|done]. cbn [st_value] in *. intros k v. rewrite <-(Hm k v). by apply image_answers.
  - exfalso. destruct Hn as [(?&?&?&?&_)|[(?&?&_)|[(?&?&?&?&?&?&?&_)|[(?&?&?&?&?&?&?&?&_)|[(?&?&?&?&?&?&?&?&?&_)|[(?&?&_)|(?&_)]]]]]]; by subst ll.
Qed.
Lemma abb_step s s' σ l : binv s σ → ABB.next fixed grow s s' l → ∃ σ', binv s' σ' ∧ bstep s s' σ σ' l.
Proof.
  intros I [(new&Hn)|[Hn|[(idx&w&e&Hn)|[(idx&Hn)|[(new&idx&a&Hn)|[(new&a&Hn)|[(new&key&d&rq&na&pa&Hn)|[(new&key&d&i&gc&na&pa&Hn)|
    [(key&d&i&j&input&Hn)|[(i&Hn)|(new&key&d&i&j&ii&bi&na&pa&Hn)]]]]]]]]]].
  - by eapply noop_step.
  - exists σ. by eapply begin_step.
  - exists σ. by eapply build_step.
  - exists σ. by eapply abort_step.
  - by eapply push_step.
  - by eapply grow_step.
  - by eapply split_step.
  - by eapply flush_step.
  - exists σ. by eapply compact_begin_step.
  - exists σ. by eapply compact_abort_step.
  - by eapply compact_step.
Qed.

(** ** The start *)
Definition start_image (l : BLB) (roots : gset Address) : SLB :=
  mkLB (lb_root l) (lb_dv l) (filter (λ ab, ab.1 ∈ roots) (Linked.bd_i (lb_bdv l))).
Lemma abb_init s b : ABB.initialize s b → ∃ σ b', LikesBetree.initialize σ b' ∧ binv s σ ∧ LikesBetree.betree σ = b' ∧ ABB.betree s = b.
Proof.
  intros ((Hac&Hbd&Hdom&Hmt&_)&tl&bl&Ht&Hse&Hda&Hdv&Hc1&Hc2&Hdis&->). 
  set (A := start_image (root b) (mdom bl)). assert (Hsk : skel (root b) A) by done.
  assert (HacA : Linked.acyclic A) by by rewrite <-(skel_acyclic _ _ Hsk).
  assert (HtA : transitive_likes A tl bl) by by rewrite <-(skel_likes _ _ _ _ Hsk).
  destruct (unf_exists A HacA) as [t Hu]. destruct (transitive_unf _ _ _ _ HtA Hu) as [Etl Ebl].
  assert (Hbl : ∀ ba, ba ∈ mdom bl ↔ Linked.reachable_buffer (root b) ba).
  { intros ba. rewrite elem_mdom, Ebl, (bufs_elem A t) by done. symmetry. by apply skel_reachable_buffer. }
  assert (HlA : ∀ a B, lb_bdv A !! a = Some B ↔ a ∈ mdom bl ∧ ∃ x, lb_bdv (root b) !! a = Some x ∧ B = node_buffer (branch_tree (lb_bdv (root b)) a)).
  { intros a B. unfold A, start_image. cbn [lb_bdv]. rewrite map_filter_lookup_Some. cbn. unfold Linked.bd_i. rewrite map_lookup_imap, bind_Some.
    split; [intros [(x&Hx&[= <-]) Ha]; eauto|]. intros (Ha&x&Hx&->). split; [|done]. by exists x. }
  assert (HdA : dom (lb_bdv A) = mdom bl).
  { apply set_eq. intros a. rewrite elem_of_dom. split; [by intros [B [? _]%HlA]|]. intros Ha. destruct (Hbd a) as [x Hx]; [by apply Hbl|].
    eexists. apply HlA. eauto. }
  set (b' := mkBS (memtable b) A). set (σ := LikesBetree.mkState b' tl bl).
  assert (Hinit : LikesBetree.initialize σ b').
  { split; [|exists tl, bl; done]. split; [done|]. split; [|done]. intros ba Hba.
    change (is_Some (lb_bdv A !! ba)). apply elem_of_dom. rewrite HdA. apply Hbl. by apply (skel_reachable_buffer _ _ _ Hsk). }
  pose proof (start_forest (lb_bdv (root b)) (mdom bl) Hse Hda Hdv Hc2) as HF.
  pose proof (start_summarizes (lb_bdv (root b)) (mdom bl) Hse Hda) as HS.
  assert (Etr : tracked bl [] = mdom bl) by (unfold tracked, input_roots; cbn; set_solver).
  exists σ, b'. split; [done|]. split; [|done].
  assert (Hw0 : ABB.alloc_aus [] = ∅) by done.
  constructor; unfold ABB.branch_allocator_aus; cbn [σ LikesBetree.betree LikesBetree.betree_likes LikesBetree.buf_likes b']; proj; rewrite ?Etr, ?Hw0; try done.
  - by apply likes_init in Hinit as [? _].
  - intros Hf r B n (Hr&x&Hx&->)%HlA Hst k. destruct (f_tree _ _ HF r Hr) as (n'&Hn'&Hw'). rewrite (stores_det _ _ _ _ Hst Hn') in *.
    rewrite (branch_tree_stores _ _ _ (f_wf _ _ HF) Hn'). by apply node_buffer_query.
Qed.

(** ** Runs *)
Lemma abb_inv s0 b ls s : ABB.initialize s0 b → run (ABB.next fixed grow) s0 ls s → ∃ σ, binv s σ.
Proof.
  intros Hi Hr. destruct (abb_init _ _ Hi) as (σ0&_&_&I0&_). induction Hr as [s|s ls s1 l s2 Hr IH Hn]; [eauto|].
  destruct (IH Hi I0) as [σ I]. destruct (abb_step _ _ _ _ I Hn) as (σ'&I'&_). eauto.
Qed.
Lemma in_use_iff s σ r : binv s σ → in_use s r ↔ r ∈ tr s σ.
Proof.
  intros I. unfold in_use. rewrite elem_tracked, elem_inputs. rewrite (exact_bufs _ (b_exact _ _ _ I)), <-blive_reach.
  by rewrite <-(skel_buffer_live _ _ r (b_skel _ _ _ I)).
Qed.
Lemma owns_iff s σ u : binv s σ → 
  (owns s TheNodes u ↔ u ∈ mdom (ABB.betree_aus s)) ∧
  ((∃ r, owns s (TheBranch r) u) ↔ u ∈ summary_aus (ABB.branch_summary s)) ∧
  ((∃ i, owns s (TheBuilder i) u) ↔ u ∈ ABB.branch_allocator_aus s).
Proof.
  intros I. split_and!.
  - cbn. rewrite (b_aus _ _ _ I), elem_mdom_au. setoid_rewrite (exact_nodes _ (b_exact _ _ _ I)).
    by setoid_rewrite (skel_node_live _ _ _ (b_skel _ _ _ I)).
  - cbn. rewrite (summarizes_aus _ _ _ _ (b_sum _ _ _ I)). setoid_rewrite (in_use_iff _ _ _ I). split.
    + intros (r&Hr&U&HU&Hu). eauto.
    + intros (r&U&Hr&HU&Hu). eauto.
  - unfold ABB.branch_allocator_aus. rewrite elem_alloc_aus. done.
Qed.
Lemma needed_iff s σ u : binv s σ → needed s u ↔ u ∈ held s.
Proof.
  intros I. destruct (owns_iff _ _ u I) as (H1&H2&H3). unfold needed, held. rewrite !elem_of_union, <-H1, <-H2, <-H3. split.
  - intros [[|r|i] Ho]; [left; by left|left; right; eauto|right; eauto].
  - intros [[Ho|[r Ho]]|[i Ho]]; eauto.
Qed.
Lemma run_units s0 b ls s H0 : ABB.initialize s0 b → run (ABB.next fixed grow) s0 ls s →
  (∀ u, u ∈ H0 ↔ needed s0 u) → ∀ u, u ∈ units_held H0 ls ↔ needed s u.
Proof.
  intros Hi Hr HH. pose proof (abb_init _ _ Hi) as (σ0&_&_&I0&_).
  assert (E0 : H0 = held s0) by (apply set_eq; intros u; by rewrite HH, (needed_iff _ _ _ I0)).
  assert (Hsnoc : ∀ X l ls', units_held X (ls' ++ [l]) = (units_held X ls' ∪ unit_allocs l) ∖ unit_frees l).
  { intros X l ls'. revert X. induction ls' as [|l' ls' IH]; intros X; [done|]. cbn. apply IH. }
  assert (Hmain : ∃ σ, binv s σ ∧ units_held H0 ls = held s).
  { clear HH. induction Hr as [s|s ls s1 l s2 Hr IH Hn]; [eauto|].
    destruct (IH Hi I0 E0) as (σ&I&E). destruct (abb_step _ _ _ _ I Hn) as (σ'&I'&St). exists σ'. split; [done|].
    rewrite Hsnoc, E. symmetry. apply St. }
  destruct Hmain as (σ&I&->). intros u. symmetry. by eapply needed_iff.
Qed.
Lemma run_step_units s0 b ls s s' l : ABB.initialize s0 b → run (ABB.next fixed grow) s0 ls s → ABB.next fixed grow s s' l →
  (∀ u, u ∈ unit_allocs l → ¬ needed s u) ∧ (∀ u, u ∈ unit_frees l → needed s u) ∧
  (∀ u, needed s' u ↔ (needed s u ∨ u ∈ unit_allocs l) ∧ u ∉ unit_frees l).
Proof.
  intros Hi Hr Hn. destruct (abb_inv _ _ _ _ Hi Hr) as [σ I]. destruct (abb_step _ _ _ _ I Hn) as (σ'&I'&St). split_and!; intros u.
  - intros Hu. rewrite (needed_iff _ _ _ I). intros Hh. exact (st_fresh _ _ _ _ _ _ St u Hu Hh).
  - intros Hu. rewrite (needed_iff _ _ _ I). by apply St.
  - rewrite (needed_iff _ _ _ I), (needed_iff _ _ _ I'), (st_held _ _ _ _ _ _ St). rewrite elem_of_difference, elem_of_union. done.
Qed.
Lemma run_one_owner s0 b ls s o o' u : ABB.initialize s0 b → run (ABB.next fixed grow) s0 ls s → owns s o u → owns s o' u → o = o'.
Proof.
  intros Hi Hr. destruct (abb_inv _ _ _ _ Hi Hr) as [σ I]. destruct (owns_iff _ _ u I) as (H1&H2&H3).
  pose proof (b_dis1 _ _ _ I u) as D1. pose proof (b_dis2 _ _ _ I u) as D2. pose proof (b_dis3 _ _ _ I u) as D3.
  assert (Hb : ∀ r, owns s (TheBranch r) u → u ∈ summary_aus (ABB.branch_summary s)) by (intros r Ho; apply H2; eauto).
  assert (Hw : ∀ i, owns s (TheBuilder i) u → u ∈ ABB.branch_allocator_aus s) by (intros i Ho; apply H3; eauto).
  destruct o as [|r|i], o' as [|r'|i']; intros Ho Ho'; try done.
  - exfalso. apply D1; [by apply H1|by eapply Hb].
  - exfalso. apply D2; [by apply H1|by eapply Hw].
  - exfalso. apply D1; [by apply H1|by eapply Hb].
  - destruct Ho as (Hu&U&HU&Hin), Ho' as (Hu'&U'&HU'&Hin'). f_equal. apply (in_use_iff _ _ _ I) in Hu, Hu'.
    eapply unit_roots; [apply I|done|done|exact HU|exact HU'|done|done].
  - exfalso. apply D3; [by eapply Hb|by eapply Hw].
  - exfalso. apply D2; [by apply H1|by eapply Hw].
  - exfalso. apply D3; [by eapply Hb|by eapply Hw].
  - destruct Ho as (w&Hi1&Hw1), Ho' as (w'&Hi2&Hw2). f_equal. destruct (decide (i = i')) as [|Hne]; [done|].
    exfalso. exact (b_wips _ _ _ I _ _ _ _ Hi1 Hi2 Hne u Hw1 Hw2).
Qed.
Lemma run_counts s0 b ls s : ABB.initialize s0 b → run (ABB.next fixed grow) s0 ls s →
  ∀ u, exactly (λ is, ∃ a, node_ref (root (ABB.betree s)) is a ∧ au a = u) (multiplicity u (ABB.betree_aus s)) ∧
       exactly (λ isj, ∃ r, buffer_ref (root (ABB.betree s)) isj r ∧ au r = u) (multiplicity u (ABB.branch_aus s)).
Proof.
  intros Hi Hr u. destruct (abb_inv _ _ _ _ Hi Hr) as [σ I]. rewrite (b_aus _ _ _ I), (b_baus _ _ _ I).
  destruct (b_exact _ _ _ I) as (_&t&Hu&->&->). rewrite !to_au_cnt. pose proof (b_skel _ _ _ I) as [E1 E2].
  assert (Hn : ∀ is a, node_ref (root (ABB.betree s)) is a ↔ node_ref (atree σ) is a) by (intros; unfold node_ref; by rewrite E1, E2).
  split.
  - eapply exactly_iff; [|by apply (node_refs_exactly _ _ (λ y, au y = u) Hu)]. intros is. cbn. by setoid_rewrite Hn.
  - eapply exactly_iff; [|by apply (buf_refs_exactly _ _ (λ y, au y = u) Hu)]. intros isj. cbn. unfold buffer_ref. setoid_rewrite Hn. by rewrite E2.
Qed.
Lemma run_missing s0 b ls s : ABB.initialize s0 b → run (ABB.next fixed grow) s0 ls s →
  nothing_missing (root (ABB.betree s)) ∧
  (∀ r, in_use s r → ∃ n, stores (bdv s) r n ∧ search_tree None None n) ∧
  (∀ a, is_Some (bdv s !! a) ↔ ∃ r, in_use s r ∧ branch_page (bdv s) r a) ∧
  (∀ a, is_Some (lb_dv (root (ABB.betree s)) !! a) → ∃ a', node_live (root (ABB.betree s)) a' ∧ au a' = au a).
Proof.
  intros Hi Hr. destruct (abb_inv _ _ _ _ Hi Hr) as [σ I]. pose proof (b_forest _ _ _ I) as HF.
  assert (Htree : ∀ r, in_use s r → ∃ n, stores (bdv s) r n ∧ search_tree None None n).
  { intros r Hu%(in_use_iff _ _ _ I). destruct (f_tree _ _ HF r Hu) as (n&Hn&Hw). exists n. split; [done|]. by apply wf_iff. }
  split_and!.
  - destruct (linv_missing (LikesBetree.betree σ)) as (N1&N2&N3); [apply (b_exact _ _ _ I)|]. pose proof (b_skel _ _ _ I) as [E1 E2].
    unfold nothing_missing, node_live, node_ref in *. rewrite E1, E2. split; [done|]. split; [done|].
    intros a n ba Ha Hn Hba. destruct (root_some _ _ ba HF) as [x Hx]; [|by eexists]. apply elem_tracked. left.
    rewrite (exact_bufs _ (b_exact _ _ _ I)). exists a, n. split; [|done]. by apply live_reach.
  - done.
  - intros a. split.
    + intros Ha. destruct (f_all _ _ HF a Ha) as (r&Hr'&Hp). exists r. split; [by apply (in_use_iff _ _ _ I)|done].
    + intros (r&Hu%(in_use_iff _ _ _ I)&Hp). by eapply page_some.
  - intros a Ha. destruct (owns_iff _ _ (au a) I) as (H1&_). apply H1. apply (b_nodes _ _ _ I). by apply elem_of_dom.
Qed.
Lemma run_kept s0 b ls s s' l : ABB.initialize s0 b → run (ABB.next fixed grow) s0 ls s → ABB.next fixed grow s s' l →
  branch_pages_kept (root (ABB.betree s)) (root (ABB.betree s')) ∧
  ∀ r, in_use s r → in_use s' r →
    (∀ a, branch_page (bdv s') r a ↔ branch_page (bdv s) r a) ∧ (∀ a, branch_page (bdv s) r a → bdv s' !! a = bdv s !! a).
Proof.
  intros Hi Hr Hn. destruct (abb_inv _ _ _ _ Hi Hr) as [σ I]. destruct (abb_step _ _ _ _ I Hn) as (σ'&I'&St). split; [apply St|].
  intros r Hu%(in_use_iff _ _ _ I) Hu'%(in_use_iff _ _ _ I').
  pose proof (st_same _ _ _ _ _ _ St r Hu Hu') as Hs. split; [|done]. intros a. apply local_page; [|done].
  by apply (f_units _ _ (b_forest _ _ _ I)).
Qed.

(** ** Answers *)
Lemma run_like s0 b ls s : fixed = true → ABB.initialize s0 b → run (ABB.next fixed grow) s0 ls s →
  ∃ σ0 b' lbs σ, LikesBetree.initialize σ0 b' ∧ run LikesBetree.next σ0 lbs σ ∧ binv s σ ∧
    memtable b' = memtable b ∧ (∀ k m, linked_answers (root b') k m ↔ branch_answers (root b) k m) ∧
    Forall2 (λ l lb, ∀ al, betree_event linked_answers lb al → branch_event l al) ls lbs.
Proof.
  intros Hf Hi Hr. destruct (abb_init _ _ Hi) as (σ0&b'&Hi0&I0&Eb&Eb'). exists σ0, b'.
  assert (Hm : memtable b' = memtable b) by (rewrite <-Eb, <-Eb'; symmetry; apply I0).
  assert (Ha : ∀ k m, linked_answers (root b') k m ↔ branch_answers (root b) k m).
  { intros k m. rewrite <-Eb, <-Eb'. symmetry. by apply branch_answers_iff. }
  clear Eb'. induction Hr as [s|s ls s1 l s2 Hr IH Hn].
  - exists [], σ0. split; [done|]. split; [constructor|]. done.
  - destruct (IH Hi I0) as (lbs&σ&_&Hr'&I&_&_&HF). destruct (abb_step _ _ _ _ I Hn) as (σ'&I'&St).
    destruct (st_like _ _ _ _ _ _ St Hf) as (lb&Hlb&Hev). exists (lbs ++ [lb]), σ'.
    split_and!; try done; [by eapply run_snoc|]. apply Forall2_app; [done|]. by repeat constructor.
Qed.
Lemma run_faithful s0 b ls s : fixed = true → ABB.initialize s0 b → run (ABB.next fixed grow) s0 ls s →
  ∃ m, Betree_Spec.holds branch_answers (root b) m ∧ branches_act_as_map (mkStamped m (mt_seq_end (memtable b))) ls s.
Proof.
  intros Hf Hi Hr. destruct (run_like _ _ _ _ Hf Hi Hr) as (σ0&b'&lbs&σ&Hi0&Hr0&I&Hm&Ha&HF).
  destruct (likes_faithful _ _ _ _ Hi0 Hr0) as (m&Hh&a0&als&a&H1&H2&H3&(base&Hb&Hbk)&H5). exists m. split.
  { intros k v. rewrite <-Ha. apply Hh. }
  exists a0, als, a. rewrite <-Hm. split_and!; try done.
  - clear -HF H3. revert als H3. induction HF as [|l lb ls lbs Hl HF IH]; intros als H3; inversion H3; subst; constructor; auto.
  - exists base. split; [intros k v; rewrite (branch_answers_iff _ _ _ _ I Hf); apply Hb|]. intros k. rewrite (b_mt _ _ _ I). apply Hbk.
  - rewrite H5. by rewrite (b_mt _ _ _ I).
Qed.
Lemma can_there s σ k v : fixed = true → binv s σ → branch_can_answer fixed grow s k v ↔ can_answer Linked.strong_next (LikesBetree.betree σ) k v.
Proof.
  intros Hf I. unfold branch_can_answer, can_answer. split.
  - intros Hn. destruct Hn as [(new&ll&[= <-]&_&[(rc&e&k'&v'&res&[= <- <- <-]&_&Hv&Hres&Hd&_)|Hn]&_)|Hn].
    + destruct (proj1 (query_there _ _ k res I Hf)) as (rc'&Hv'&Hres'); [by exists rc|]. left. exists rc'.
      exists (mt_seq_end (memtable (LikesBetree.betree σ))), k, v, res. rewrite <-(b_mt _ _ _ I). done.
    + exfalso. destruct Hn as [(?&?&_)|[(_&?&_)|[(?&?&?&?&_)|[(?&?&_)|[(?&?&?&?&?&?&?&_)|[(?&?&?&?&?&?&?&?&_)|[(?&?&?&?&?&?&?&?&?&_)|[(?&?&_)|(?&_)]]]]]]]]; done.
    + exfalso. destruct Hn as [(?&?&_)|[(?&?&?&?&?&?&?&_)|[(?&?&?&?&_)|[(?&?&?&?&?&?&?&?&_)|[(?&?&?&_)|[(?&?&?&?&?&?&?&?&?&_)|
        [(?&?&?&?&?&?&?&?&?&?&_)|[(?&?&?&?&?&?&_)|[(?&_&?&_)|(?&?&?&?&?&?&?&?&?&?&?&?&?&?&?&_)]]]]]]]]]; done.
  - intros [(rc&e&k'&v'&res&[= <- <- <-]&_&Hv&Hres&Hd&_)|Hn].
    + destruct (proj2 (query_there _ _ k res I Hf)) as (rc'&Hv'&Hres'); [by exists rc|]. left. exists (ABB.betree s).
      exists (Query (mt_seq_end (memtable (ABB.betree s))) k v). split; [done|]. split; [done|]. split; [|by destruct s]. left. exists rc'.
      exists (mt_seq_end (memtable (ABB.betree s))), k, v, res. rewrite (b_mt _ _ _ I). done.
    + exfalso. destruct Hn as [(?&?&_)|[(_&?&_)|[(?&?&?&(?&_)&_)|[(?&(?&_)&_)|[(?&?&?&?&?&?&(?&_)&_)|[(?&?&?&?&?&?&?&(?&_)&_)|
         [(?&?&?&?&?&?&?&?&(?&_)&_)|[(?&?&_)|(?&_)]]]]]]]]; done.
Qed.
Lemma run_one_answer s0 b ls s k : fixed = true → ABB.initialize s0 b → run (ABB.next fixed grow) s0 ls s →
  ∃ v, branch_can_answer fixed grow s k v ∧ ∀ v', branch_can_answer fixed grow s k v' → v' = v.
Proof.
  intros Hf Hi Hr. destruct (run_like _ _ _ _ Hf Hi Hr) as (σ0&b'&lbs&σ&Hi0&Hr0&I&_).
  destruct (likes_run _ _ _ _ Hi0 Hr0) as [Hrun _]. assert (HI : Linked.initialize b' b') by by destruct Hi0.
  destruct (linked_one_answer _ _ _ _ k HI Hrun) as (v&Hv&Hu). exists v. split; [by eapply can_there|].
  intros v' Hv'. apply Hu. by eapply can_there.
Qed.
End Run.
