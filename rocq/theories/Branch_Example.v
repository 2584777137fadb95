(** Concrete runs of the branches (C33, C34, C39, C40). *)
From Verif Require Import Spec_Model Spec_Proof Betree_Model Branch_Model Branch_Spec Branch_Proof BranchPages_Proof BranchBuild_Proof.
From Verif Require Alloc_Proof.
From Coq Require Import Sorting.Sorted Lia ZifyBool ZifyNat ZifyN.
Import PBranch.

Definition ex_keys : list N := [1; 5]%N.
Definition ex_msgs : list Message := [Define 10; Define 50]%N.
Lemma ex_first : first_leaf ex_keys ex_msgs.
Proof. split; [done|]. split; [done|]. repeat constructor. Qed.
Definition ex_calls : list Call :=
  [Insert 3 (Define 30) 0; Append [7; 9] [Define 70; Update 1] 0; Grow; Split (SplitAtKey 5) 0;
   Insert 3 (Define 31) 1; Query 3 (Define 31); Query 4 (Update nop_delta); Grow; Split (SplitAtIndex 5 0) 0]%N.
Definition ex_left : Node := Leaf [1; 3]%N [Define 10; Define 31]%N.
Definition ex_right : Node := Leaf [5; 7; 9]%N [Define 50; Define 70; Update 1]%N.
Definition ex_final : Node := Index [5%N] [Index [] [ex_left]; Index [] [ex_right]].
(** The tree one call leads to. *)
Definition apply_call (n : Node) (l : Call) : Node :=
  match l with
  | Query _ _ => n
  | Insert k m d => insert n k m d
  | Append ks ms d => append n ks ms d
  | Grow => grow n
  | Split s d => split n s d
  end.
Fixpoint apply_calls (n : Node) (ls : list Call) : list Node :=
  match ls with [] => [n] | l :: rest => n :: apply_calls (apply_call n l) rest end.
Lemma ex_computes : stdpp.list.last (apply_calls (Leaf ex_keys ex_msgs) ex_calls) = Some ex_final.
Proof. reflexivity. Qed.
Lemma leaf_wf keys msgs : first_leaf keys msgs → wf (Leaf keys msgs).
Proof.
  intros (H1 & H2 & H3). split; [destruct keys; [done|simpl; lia]|]. split; [done|]. by apply sorted_strong.
Qed.
(** A path of length 0 or 1 to a leaf. *)
Lemma valid0 n k : wf n → valid n k 0.
Proof. by split. Qed.
Lemma valid1 n k : wf n → leaves_at 1 n → valid n k 1.
Proof.
  intros Hwf Hl. pose proof Hwf as Ht. apply wf_iff in Ht.
  by apply (valid_depth n None None k 1 Ht (within_none k) Hl 1).
Qed.
Definition ncall (i : nat) : Call := nth i ex_calls Grow.
Lemma ex_run : run next (Leaf ex_keys ex_msgs) ex_calls ex_final.
Proof.
  pose proof (leaf_wf _ _ ex_first) as W0. pose proof (leaves_here ex_keys ex_msgs) as L0.
  set (n0 := Leaf ex_keys ex_msgs) in *.
  assert (S1 : next n0 (apply_call n0 (ncall 0)) (ncall 0)).
  { split; [|done]. by apply (insert_depth n0 0). }
  set (n1 := apply_call n0 (ncall 0)) in *. destruct (call_step _ _ _ W0 S1) as (W1 & D1 & _). specialize (D1 0 L0).
  assert (S2 : next n1 (apply_call n1 (ncall 1)) (ncall 1)).
  { split; [|done]. split; [by apply valid0|]. split; [done|]. split; [apply sorted_strong; repeat constructor|].
    split; [exists 5%N; by split|]. by split. }
  set (n2 := apply_call n1 (ncall 1)) in *. destruct (call_step _ _ _ W1 S2) as (W2 & D2 & _). specialize (D2 0 D1).
  assert (S3 : next n2 (apply_call n2 (ncall 2)) (ncall 2)) by (by split).
  set (n3 := apply_call n2 (ncall 2)) in *. destruct (call_step _ _ _ W2 S3) as (W3 & D3 & _). specialize (D3 0 D2).
  assert (S4 : next n3 (apply_call n3 (ncall 3)) (ncall 3)).
  { split; [|done]. split; [done|]. split; [by apply valid0|]. split; [done|]. simpl. split; [done|]. vm_compute. by split. }
  set (n4 := apply_call n3 (ncall 3)) in *. destruct (call_step _ _ _ W3 S4) as (W4 & D4 & _). specialize (D4 1 D3).
  assert (S5 : next n4 (apply_call n4 (ncall 4)) (ncall 4)).
  { split; [|done]. by apply (insert_depth n4 1). }
  set (n5 := apply_call n4 (ncall 4)) in *. destruct (call_step _ _ _ W4 S5) as (W5 & D5 & _). specialize (D5 1 D4).
  assert (S6 : next n5 n5 (ncall 5)) by (split; [done|]; split; [vm_compute; done|done]).
  assert (S7 : next n5 n5 (ncall 6)) by (split; [done|]; split; [vm_compute; done|done]).
  assert (S8 : next n5 (apply_call n5 (ncall 7)) (ncall 7)) by (by split).
  set (n6 := apply_call n5 (ncall 7)) in *. destruct (call_step _ _ _ W5 S8) as (W6 & D6 & _). specialize (D6 1 D5).
  assert (S9 : next n6 (apply_call n6 (ncall 8)) (ncall 8)).
  { split; [|done]. split; [done|]. split; [by apply valid0|]. split; [done|]. exact (conj W5 eq_refl). }
  change ex_calls with (((((((((([] ++ [ncall 0]) ++ [ncall 1]) ++ [ncall 2]) ++ [ncall 3])
    ++ [ncall 4]) ++ [ncall 5]) ++ [ncall 6]) ++ [ncall 7]) ++ [ncall 8])).
  change ex_final with (apply_call n6 (ncall 8)).
  do 9 (eapply run_snoc; [|eassumption]). constructor.
Qed.

(** ** The same calls on pages *)
Section linked.
  Context {T : Type}.
  Definition apply_lcall (b : LBranch.t T) (l : LBranch.Call) : LBranch.t T :=
    match l with
    | LBranch.Query _ _ => b
    | LBranch.Insert k m d => LBranch.insert b k m d
    | LBranch.Append ks ms d => LBranch.append b ks ms d
    | LBranch.Grow a => LBranch.grow b a
    | LBranch.Split s a d => LBranch.split b s a d
    end.
  Lemma apply_lcall_next (b b' : LBranch.t T) l : LBranch.next b b' l → b' = apply_lcall b l.
  Proof. destruct l; by intros [_ ->]. Qed.
  Lemma apply_call_next n n' l : PBranch.next n n' l → n' = apply_call n l.
  Proof. destruct l; simpl; [intros (_ & _ & ->)|intros [_ ->]..]; done. Qed.
  Fixpoint all_fresh (b : LBranch.t T) (ls : list LBranch.Call) : bool :=
    match ls with
    | [] => true
    | l :: rest =>
        match takes l with
        | Some a => match LBranch.disk b !! a with Some _ => false | None => all_fresh (apply_lcall b l) rest end
        | None => all_fresh (apply_lcall b l) rest
        end
    end.
  Lemma linked_run ls : ∀ (b : LBranch.t T) n n', holds b n → run PBranch.next n (map erase ls) n' →
    all_fresh b ls = true → run LBranch.next b ls (foldl apply_lcall b ls).
  Proof.
    induction ls as [|l ls IH]; intros b n n' Hh Hr Hf; [constructor|].
    simpl in Hr. apply Alloc_Proof.run_cons_inv in Hr as (n1 & Hn & Hr). simpl in Hf.
    assert (Ht : ∀ a, takes l = Some a → LBranch.disk b !! a = None).
    { intros a Ha. rewrite Ha in Hf. by destruct (LBranch.disk b !! a). }
    assert (Hf' : all_fresh (apply_lcall b l) ls = true).
    { destruct (takes l) as [a|]; [|done]. by destruct (LBranch.disk b !! a). }
    assert (∃ b', LBranch.next b b' l) as [b' Hb].
    { apply (pages_enabled b n l Hh). split; [by exists n1|done]. }
    pose proof (apply_lcall_next _ _ _ Hb) as ->.
    destruct (pages_step _ _ _ _ Hh Hb) as (n2 & Hn2 & Hh2 & _).
    assert (n2 = n1) as -> by (by rewrite (apply_call_next _ _ _ Hn2), <- (apply_call_next _ _ _ Hn)).
    simpl. eapply run_cons; [exact Hb|]. by eapply IH.
  Qed.
End linked.
Definition pg (a p : nat) : Address := mkAddr a p.
Definition ex_page : LBranch.t (gset AU) := LBranch.mk (pg 1 0) {[pg 1 0 := LBranch.Leaf ex_keys ex_msgs]}.
Definition ex_lcalls : list LBranch.Call :=
  [LBranch.Insert 3 (Define 30) 0; LBranch.Append [7; 9] [Define 70; Update 1] 0; LBranch.Grow (pg 1 1);
   LBranch.Split (SplitAtKey 5) (pg 2 0) 0;
   LBranch.Insert 3 (Define 31) 1; LBranch.Query 3 (Define 31); LBranch.Query 4 (Update nop_delta);
   LBranch.Grow (pg 2 1); LBranch.Split (SplitAtIndex 5 0) (pg 3 0) 0]%N.
Definition ex_pages : LBranch.t (gset AU) :=
  LBranch.mk (pg 2 1)
    (list_to_map
       [(pg 2 1, LBranch.Index [5%N] [pg 1 1; pg 3 0] None); (pg 1 1, LBranch.Index [] [pg 1 0] None);
        (pg 3 0, LBranch.Index [] [pg 2 0] None);
        (pg 1 0, LBranch.Leaf [1; 3]%N [Define 10; Define 31]%N);
        (pg 2 0, LBranch.Leaf [5; 7; 9]%N [Define 50; Define 70; Update 1]%N)]).
Lemma ex_page_holds : holds ex_page (Leaf ex_keys ex_msgs) ∧ tight ex_page.
Proof. apply first_page_holds, ex_first. Qed.
Global Instance node_eq_dec : EqDecision (LBranch.Node (gset AU)).
Proof. solve_decision. Defined.
Lemma ex_pages_eq : foldl apply_lcall ex_page ex_lcalls = ex_pages.
Proof.
  assert (E : LBranch.disk (foldl apply_lcall ex_page ex_lcalls) = LBranch.disk ex_pages).
  { apply (bool_decide_eq_true_1 _). vm_compute. reflexivity. }
  assert (E2 : LBranch.root (foldl apply_lcall ex_page ex_lcalls) = LBranch.root ex_pages) by reflexivity.
  destruct (foldl apply_lcall ex_page ex_lcalls) as [r d]. cbn in E, E2. by subst.
Qed.
Lemma ex_lrun : run LBranch.next ex_page ex_lcalls ex_pages.
Proof.
  rewrite <- ex_pages_eq. eapply linked_run; [apply ex_page_holds|exact ex_run|]. vm_compute. reflexivity.
Qed.
Lemma ex_pages_holds : holds ex_pages ex_final.
Proof.
  destruct (pages_run _ _ _ _ (proj1 ex_page_holds) ex_lrun) as (n & Hr & Hh & _).
  destruct Hh as (H1 & H2 & H3). 
  assert (n = ex_final) as ->; [|done].
  assert (D : ∀ ls a b c, run PBranch.next a ls b → run PBranch.next a ls c → b = c).
  { clear. intros ls. induction ls as [|l ls IH] using rev_ind; intros a b c Hb Hc.
    - apply run_nil_inv in Hb as ->. by apply run_nil_inv in Hc as ->.
    - apply run_snoc_inv in Hb as (b1 & Hb & Hb1). apply run_snoc_inv in Hc as (c1 & Hc & Hc1).
      rewrite (IH _ _ _ Hb Hc) in Hb1. by rewrite (apply_call_next _ _ _ Hb1), <- (apply_call_next _ _ _ Hc1). }
  eapply D; [exact Hr|exact ex_run].
Qed.

(** ** The builder *)
Definition bgeo : Geometry := {| page_count := 2; au_count := 8 |}.
Definition ex_app : list N := [7; 9]%N.
Definition ex_appm : list Message := [Define 70; Update 1]%N.
Definition bcalls : list LBranch.Call :=
  [LBranch.Append ex_app ex_appm 0; LBranch.Grow (pg 1 1); LBranch.Split (SplitAtKey 5%N) (pg 2 0) 0].
Definition b1 := foldl apply_lcall ex_page (take 1 bcalls).
Definition b2 := foldl apply_lcall ex_page (take 2 bcalls).
Definition b3 := foldl apply_lcall ex_page bcalls.
Lemma b_run : ∃ n, run PBranch.next (Leaf ex_keys ex_msgs) (map erase bcalls) n.
Proof.
  pose proof (leaf_wf _ _ ex_first) as W0.
  set (n0 := Leaf ex_keys ex_msgs) in *. set (l1 := Append ex_app ex_appm 0).
  assert (S1 : next n0 (apply_call n0 l1) l1).
  { split; [|done]. split; [by apply valid0|]. split; [done|]. split; [apply sorted_strong; repeat constructor|].
    split; [exists 5%N; by split|]. by split. }
  set (n1 := apply_call n0 l1) in *. destruct (call_step _ _ _ W0 S1) as (W1 & _).
  assert (S2 : next n1 (grow n1) Grow) by (by split).
  set (n2 := grow n1) in *. destruct (call_step _ _ _ W1 S2) as (W2 & _).
  set (l3 := Split (SplitAtKey 5%N) 0).
  assert (S3 : next n2 (apply_call n2 l3) l3).
  { split; [|done]. split; [done|]. split; [by apply valid0|]. split; [done|]. simpl. split; [done|]. vm_compute. by split. }
  eexists. eapply run_cons; [exact S1|]. eapply run_cons; [exact S2|]. eapply run_cons; [exact S3|]. constructor.
Qed.
Lemma b_steps : LBranch.next ex_page b1 (LBranch.Append ex_app ex_appm 0) ∧ LBranch.next b1 b2 (LBranch.Grow (pg 1 1)) ∧
  LBranch.next b2 b3 (LBranch.Split (SplitAtKey 5%N) (pg 2 0) 0).
Proof.
  destruct b_run as [n Hn].
  assert (Hr : run LBranch.next ex_page bcalls b3).
  { eapply linked_run; [apply ex_page_holds|exact Hn|]. vm_compute. reflexivity. }
  unfold bcalls in Hr.
  apply Alloc_Proof.run_cons_inv in Hr as (x1 & H1 & Hr). pose proof (apply_lcall_next _ _ _ H1) as ->.
  apply Alloc_Proof.run_cons_inv in Hr as (x2 & H2 & Hr). pose proof (apply_lcall_next _ _ _ H2) as ->.
  apply Alloc_Proof.run_cons_inv in Hr as (x3 & H3 & Hr). pose proof (apply_lcall_next _ _ _ H3) as ->.
  done.
Qed.
Section builder.
  Local Existing Instance bgeo.
  Definition free1 : gset AU := {[1]}.
  Definition fill23 : gset AU := {[2; 3]}.
  Definition ex_build : list ABranch.Label :=
    [(ABranch.Initialize (pg 1 0) ex_keys ex_msgs, ∅, ∅);
     (ABranch.Append ex_app ex_appm 0, ∅, ∅);
     (ABranch.AllocFill, fill23, ∅);
     (ABranch.Grow (pg 1 1), ∅, ∅);
     (ABranch.Split (pg 2 0) 0 (SplitAtKey 5%N), ∅, ∅);
     (ABranch.Seal (Some (pg 2 1)), ∅, {[3]})].
  Definition st0 := ABranch.new free1.
  Definition st1 := ABranch.branch_initialize st0 (pg 1 0) ex_keys ex_msgs.
  Definition st2 := ABranch.branch_append st1 ex_app ex_appm 0.
  Definition st3 := ABranch.mini_allocator_fill st2 fill23.
  Definition st4 := ABranch.branch_grow st3 (pg 1 1).
  Definition st5 := ABranch.branch_split st4 (pg 2 0) 0 (SplitAtKey 5%N).
  Definition st6 := ABranch.branch_seal st5 (Some (pg 2 1)) {[3]}.
  Definition st3w := ABranch.branch_seal st2 None ∅.
  Lemma can_alloc m a p : allocs m !! au a = Some p → page a < 2 → au a < 8 → au a = pa_au p →
    a ∉ observed p ∪ reserved p → can_allocate m a.
  Proof. intros H1 H2 H3 H4 H5. exists p. split; [done|]. split; [by split|]. split; [done|]. set_solver. Qed.
  Ltac alloc := eapply can_alloc; [vm_compute; reflexivity|vm_compute; lia..|reflexivity|apply (bool_decide_eq_true_1 _); vm_compute; reflexivity].
  Lemma init_ok : ABranch.can_initialize st0 (pg 1 0) ex_keys ex_msgs.
  Proof.
    split; [done|]. split; [apply (bool_decide_eq_true_1 _); vm_compute; reflexivity|]. split; [alloc|].
    split; [simpl; lia|]. split; [done|]. apply sorted_strong. repeat constructor.
  Qed.
  Lemma st1_branch : ABranch.branch st1 = Some ex_page. Proof. reflexivity. Qed.
  Lemma append_ok : ABranch.can_append st1 ex_app ex_appm 0.
  Proof. split; [done|]. exists ex_page. split; [done|]. apply b_steps. Qed.
  Lemma ex_build_run : run ABranch.build_next_grow (ABranch.new free1) ex_build st6.
  Proof.
    apply run_cons with st1; [left; split; [done|split; [done|split; [exact init_ok|done]]]|].
    apply run_cons with st2; [left; split; [done|split; [done|split; [exact append_ok|done]]]|].
    apply run_cons with st3.
    { left. split; [done|]. split; [|done]. split; [done|]. apply (bool_decide_eq_true_1 _). vm_compute. reflexivity. }
    apply run_cons with st4.
    { right. exists (pg 1 1). split; [done|]. split; [|done]. split; [done|]. exists b1. split; [done|]. split; [alloc|]. apply b_steps. }
    apply run_cons with st5.
    { left. split; [done|]. split; [done|]. split; [|done]. split; [done|]. exists b2. split; [done|]. split; [alloc|]. apply b_steps. }
    apply run_one. left. split; [done|]. split; [|done]. split; [done|]. exists b3. split; [done|]. split; [|split].
    - split; [done|]. intros _. by eexists.
    - intros a [= <-]. split; [alloc|]. apply (bool_decide_eq_true_1 _). vm_compute. reflexivity.
    - apply (bool_decide_eq_true_1 _). vm_compute. reflexivity.
  Qed.
  Lemma ex_build_result : ∃ b, ABranch.branch st6 = Some b ∧ ABranch.sealed st6 = true ∧
    ABranch.get_summary b = {[1; 2]} ∧ LBranch.disk b !! pg 2 1 = Some (LBranch.Auxiliary {[1; 2]}) ∧
    built ex_build = [(1, Define 10); (5, Define 50); (7, Define 70); (9, Update 1)]%N.
  Proof.
    eexists. split; [reflexivity|]. split; [done|].
    split; [apply (bool_decide_eq_true_1 _); vm_compute; reflexivity|]. split; [apply (bool_decide_eq_true_1 _); vm_compute; reflexivity|done].
  Qed.
  Definition ex_written : list ABranch.Label :=
    [(ABranch.Initialize (pg 1 0) ex_keys ex_msgs, ∅, ∅);
     (ABranch.Append ex_app ex_appm 0, ∅, ∅);
     (ABranch.Seal None, ∅, ∅)].
  Lemma ex_written_run : run ABranch.build_next (ABranch.new free1) ex_written st3w.
  Proof.
    apply run_cons with st1; [split; [done|split; [done|split; [exact init_ok|done]]]|].
    apply run_cons with st2; [split; [done|split; [done|split; [exact append_ok|done]]]|].
    apply run_one. split; [done|]. split; [|done]. split; [done|]. exists b1. split; [done|]. split; [|split].
    - split; [by intros [? [=]]|done].
    - done.
    - apply (bool_decide_eq_true_1 _). vm_compute. reflexivity.
  Qed.
End builder.
