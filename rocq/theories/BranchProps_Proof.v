(** The lemmas of C33, C34, C39 and C40 in the form in which they are stated. *)
From Verif Require Import Spec_Model Spec_Proof Betree_Model Branch_Model Branch_Spec Branch_Proof BranchPages_Proof BranchBuild_Proof.
From Coq Require Import Sorting.Sorted Lia ZifyBool ZifyNat ZifyN.

Lemma branch_tree keys msgs ls n : first_leaf keys msgs → run PBranch.next (PBranch.Leaf keys msgs) ls n →
  search_tree None None n ∧ leaves_at (levels ls) n ∧ StronglySorted N.lt (contents n).*1.
Proof.
  intros Hf Hr. destruct (branch_run keys msgs ls n Hf Hr) as (Hwf & Hl & _). apply wf_iff in Hwf.
  split; [done|]. split; [done|]. by eapply contents_sorted.
Qed.
Lemma rearrange_keeps n n' l : PBranch.wf n → PBranch.next n n' l → rearranges l →
  contents n' = contents n ∧ ∀ k, PBranch.query n' k = PBranch.query n k.
Proof.
  intros Hwf Hn Hr. destruct (call_step n n' l Hwf Hn) as (_ & _ & Hq & Hc & _). split; [by apply Hc|].
  intros k. rewrite Hq. destruct l; try done; simpl; by rewrite decide_False by (apply not_elem_of_nil).
Qed.
Lemma rearrange_run n n' ls : PBranch.wf n → run PBranch.next n ls n' → Forall rearranges ls →
  contents n' = contents n ∧ ∀ k, PBranch.query n' k = PBranch.query n k.
Proof.
  intros Hwf Hr. induction Hr as [s|s ls s1 l s2 Hr IH Hn]; [done|]. intros HF. apply Forall_app in HF as [H1 H2]. assert (Hl : rearranges l) by (by inversion_clear H2). clear H2. rename Hl into H2.
  destruct (IH Hwf H1) as [E1 E2].
  assert (Hwf1 : PBranch.wf s1).
  { refine (run_inv PBranch.next PBranch.wf _ _ _ Hwf _ Hr). intros a b c Ha Hb. by apply (call_step a b c). }
  destruct (rearrange_keeps s1 s2 l Hwf1 Hn H2) as [E3 E4]. split; [congruence|]. intros k. by rewrite E4.
Qed.
Lemma insert_one n n' k m d : PBranch.wf n → PBranch.next n n' (PBranch.Insert k m d) →
  PBranch.query n' k = m ∧ ∀ j, j ≠ k → PBranch.query n' j = PBranch.query n j.
Proof.
  intros Hwf Hn. destruct (call_step n n' _ Hwf Hn) as (_ & _ & Hq & _). simpl in Hq. split.
  - rewrite Hq, decide_True by (by apply elem_of_list_singleton). by rewrite decide_True.
  - intros j Hj. rewrite Hq, decide_False; [done|]. by intros ->%elem_of_list_singleton.
Qed.
Lemma append_all n n' ks ms d : PBranch.wf n → PBranch.next n n' (PBranch.Append ks ms d) →
  (∀ i k m, ks !! i = Some k → ms !! i = Some m → PBranch.query n' k = m) ∧
  ∀ j, j ∉ ks → PBranch.query n' j = PBranch.query n j.
Proof.
  intros Hwf Hn. destruct (call_step n n' _ Hwf Hn) as (_ & _ & Hq & _). simpl in Hq.
  destruct Hn as [Hcan _]. unfold PBranch.can_append in Hcan. destruct ks as [|first ks0]; [done|].
  destruct (stdpp.list.last (first :: ks0)); [|done]. destruct Hcan as (_ & Hl & Hs & _).
  set (ks := first :: ks0) in *. rewrite zip_fst in Hq by done. split.
  - intros i k m Hk Hm. rewrite Hq, decide_True by (by eapply elem_of_list_lookup_2). apply last_written_in.
    + rewrite zip_fst by done. by apply strong_NoDup, sorted_strong.
    + apply elem_of_zip_iff. by exists i.
  - intros j Hj. by rewrite Hq, decide_False.
Qed.
Lemma contents_answers n k m : PBranch.wf n →
  ((k, m) ∈ contents n → PBranch.query n k = m) ∧ (k ∉ (contents n).*1 → PBranch.query n k = Update nop_delta).
Proof.
  intros Hwf. split; [by apply query_has|]. intros Hk. apply query_none; [done|]. intros x Hx. apply Hk.
  apply elem_of_list_fmap. by exists (k, x).
Qed.
Lemma always_insert keys msgs ls n k m d : first_leaf keys msgs → run PBranch.next (PBranch.Leaf keys msgs) ls n →
  (∃ n', PBranch.next n n' (PBranch.Insert k m d)) ↔ d = levels ls.
Proof.
  intros Hf Hr. destruct (branch_run keys msgs ls n Hf Hr) as (Hwf & Hl & _). rewrite <- (insert_depth n _ k d Hwf Hl). split.
  - intros (n' & Hc & _). done.
  - intros Hc. by eexists.
Qed.

Section pages.
  Context {T : Type}.
  Implicit Types b : LBranch.t T.
  Lemma inv_spells b : LBranch.inv b ↔ LBranch.disk_wf (LBranch.disk b) ∧
    ∃ n, stores (LBranch.disk b) (LBranch.root b) n ∧ search_tree None None n.
  Proof.
    rewrite inv_iff. split.
    - intros (n & H1 & H2 & H3). split; [done|]. exists n. split; [done|]. by apply wf_iff.
    - intros (H1 & n & H2 & H3). exists n. split; [done|]. split; [done|]. by apply wf_iff.
  Qed.
  Lemma inv_holds b n : LBranch.inv b → stores (LBranch.disk b) (LBranch.root b) n → holds b n.
  Proof. intros (n' & Hh)%inv_iff Hs. by rewrite (holds_det b n' n Hh Hs). Qed.
  Lemma pages_behave b b' n ls : LBranch.inv b → stores (LBranch.disk b) (LBranch.root b) n → run LBranch.next b ls b' →
    ∃ n', run PBranch.next n (map erase ls) n' ∧ stores (LBranch.disk b') (LBranch.root b') n' ∧
      LBranch.inv b' ∧ no_cycle b' ∧ (tight b → tight b').
  Proof.
    intros Hi Hs Hr. destruct (pages_run b b' n ls (inv_holds b n Hi Hs) Hr) as (n' & H1 & H2 & H3).
    exists n'. split; [done|]. split; [apply H2|]. split; [apply inv_iff; by exists n'|]. split; [by eapply holds_no_cycle|done].
  Qed.
  Lemma pages_accept b n l : LBranch.inv b → stores (LBranch.disk b) (LBranch.root b) n →
    (∃ b', LBranch.next b b' l) ↔ (∃ n', PBranch.next n n' (erase l)) ∧ ∀ a, takes l = Some a → LBranch.disk b !! a = None.
  Proof. intros Hi Hs. apply pages_enabled. by apply inv_holds. Qed.
  Lemma pages_answer b n k m : LBranch.inv b → stores (LBranch.disk b) (LBranch.root b) n →
    LBranch.query b k m ↔ m = PBranch.query n k.
  Proof. intros Hi Hs. apply query_iff. by apply inv_holds. Qed.
  Lemma pages_history a keys msgs ls b : first_leaf keys msgs →
    run LBranch.next (LBranch.mk a {[a := LBranch.Leaf keys msgs]}) ls b →
    LBranch.inv b ∧ no_cycle b ∧ tight b ∧
    (∀ k m, LBranch.query b k m ↔ m = last_written (zip keys msgs ++ writes (map erase ls)) k) ∧
    answers_last (zip keys msgs) (map erase ls).
  Proof.
    intros Hf Hr. destruct (first_page_holds (T := T) a keys msgs Hf) as [Hh Ht].
    destruct (pages_run _ b _ ls Hh Hr) as (n & Hrn & Hhn & Htn).
    destruct (branch_run keys msgs _ n Hf Hrn) as (_ & _ & Hq & Ha).
    split; [apply inv_iff; by exists n|]. split; [by eapply holds_no_cycle|]. split; [auto|]. split; [|done].
    intros k m. rewrite (query_iff b n k m Hhn). by rewrite Hq.
  Qed.
End pages.

Section build.
  Context `{Geometry}.
  Lemma build_answers free ls s b : run ABranch.build_next_grow (ABranch.new free) ls s → ABranch.branch s = Some b →
    LBranch.inv b ∧ no_cycle b ∧ ∀ k m, ABranch.linked_query b k m ↔ m = last_written (built ls) k.
  Proof.
    intros Hr Hb. destruct (g_branch _ _ _ (good_run _ _ _ Hr) b Hb) as (_ & (n & Hh & Hq) & _).
    split; [apply inv_iff; by exists n|]. split; [by eapply holds_no_cycle|]. intros k m. unfold ABranch.linked_query.
    rewrite (query_iff b n k m Hh). by rewrite Hq.
  Qed.
  Lemma build_pages free ls s b : run ABranch.build_next_grow (ABranch.new free) ls s → ABranch.branch s = Some b →
    (∀ a, is_Some (LBranch.disk b !! a) ↔ page_is_reserved (ABranch.mini_allocator s) a) ∧
    (ABranch.sealed s = false → tight b) ∧
    (ABranch.sealed s = true → ∀ a, is_Some (LBranch.disk b !! a) ↔
       rtc (names (LBranch.disk b)) (LBranch.root b) a ∨ summary_page b a).
  Proof.
    intros Hr Hb. destruct (g_branch _ _ _ (good_run _ _ _ Hr) b Hb) as (H1 & _ & H2 & H3).
    split; [done|]. split; [done|]. intros Hs. by destruct (H3 Hs).
  Qed.
  Lemma build_summary free ls s b : run ABranch.build_next_grow (ABranch.new free) ls s → ABranch.branch s = Some b →
    ABranch.sealed s = true → ∀ u,
    (u ∈ ABranch.get_summary b ↔ units_with_pages b u) ∧
    (u ∈ ABranch.get_summary b ↔ (u ∈ free ∨ u ∈ units_taken ls) ∧ u ∉ units_returned ls).
  Proof.
    intros Hr Hb Hs u. pose proof (good_run _ _ _ Hr) as G. destruct (g_branch _ _ _ G b Hb) as (_ & _ & _ & H3).
    destruct (H3 Hs) as (_ & E & Hu). split; [apply Hu|]. rewrite E, (g_units _ _ _ G). set_solver.
  Qed.
  Lemma build_units free ls s : run ABranch.build_next_grow (ABranch.new free) ls s →
    (∀ u, u ∈ all_aus (ABranch.mini_allocator s) ↔ (u ∈ free ∨ u ∈ units_taken ls) ∧ u ∉ units_returned ls) ∧
    (ABranch.sealed s = false → units_returned ls = ∅).
  Proof.
    intros Hr. pose proof (good_run _ _ _ Hr) as G. split; [|apply (g_open _ _ _ G)]. intros u. rewrite (g_units _ _ _ G). set_solver.
  Qed.
  Lemma build_sealed s s' l : ABranch.sealed s = true → ¬ ABranch.build_next_grow s s' l.
  Proof.
    intros Hs [Hn|(a & -> & (Hf & _) & _)]; [|congruence].
    destruct l as [[e x] y]. destruct e; simpl in Hn; try done;
      repeat match goal with H : _ ∧ _ |- _ => destruct H end; try congruence;
      match goal with Hc : _ |- _ => destruct Hc; congruence end.
  Qed.
  Lemma written_answers free ls s b : run ABranch.build_next (ABranch.new free) ls s → ABranch.branch s = Some b →
    LBranch.inv b ∧ no_cycle b ∧ ∀ k m, ABranch.linked_query b k m ↔ m = last_written (built ls) k.
  Proof. intros Hr. by apply (build_answers free), build_grow_run. Qed.
  Lemma contains_holds b n k : LBranch.inv b → stores (LBranch.disk b) (LBranch.root b) n →
    ABranch.linked_contains' b k ↔ ∃ m, (k, m) ∈ contents n ∧ m ≠ Update nop_delta.
  Proof. intros Hi Hs. apply contains_corrected. by apply inv_holds. Qed.
  Lemma contains_inverted b n k : LBranch.inv b → stores (LBranch.disk b) (LBranch.root b) n →
    ABranch.linked_contains b k ↔ ¬ ∃ m, (k, m) ∈ contents n ∧ m ≠ Update nop_delta.
  Proof. intros Hi Hs. apply contains_written. by apply inv_holds. Qed.
End build.
