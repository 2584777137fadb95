(** The be-tree whose buffers are branches serves the assembled store (C59). *)
From Verif Require Import Spec_Model Spec_Spec Spec_Proof Abs_Model Abs_Spec Abs_Proof Betree_Model Betree_Spec Betree_Common Branch_Model Branch_Spec
  LinkedBetree_Model LinkedBetree_Spec LinkedBetree_Proof LinkedBetree_Facts LikesTree_Proof LikesBetree_Model LikesBetree_Spec LikesBetree_Proof LikesBetree_Facts
  BranchSkel_Proof BranchBetree_Model BranchBetree_Spec BranchForest_Proof BranchBetree_Proof BranchSteps_Proof BranchOps_Proof BranchFlush_Proof BranchBetree_Facts
  BranchLive_Spec BranchLive_Proof BranchRestart_Proof Store_Model Store_Proof BranchStore_Model BranchStore_Spec.
From Coq Require Import Lia.
Implicit Types (s t : ABB.State) (σ : LikesBetree.State) (img : Stamped BLB).

Section Layer.
Context `{Geometry} (grow : bool).
Local Instance sbb : Buffer BranchNode := branch_buffer true.
Notation bdv s := (lb_bdv (root (ABB.betree s))).
Notation ndv s := (lb_dv (root (ABB.betree s))).
Notation binv := (binv true).

Lemma sim_there s σ a : binv s σ → sim branch_answers (ABB.betree s) a ↔ sim linked_answers (LikesBetree.betree σ) a.
Proof.
  intros I. unfold sim, state_holds, Betree_Spec.holds. setoid_rewrite (λ k v, branch_answers_iff true s σ k v I eq_refl). by rewrite (b_mt _ _ _ I).
Qed.
Lemma layer_step s s' l σ a : binv s σ → sim branch_answers (ABB.betree s) a → ABB.next true grow s s' l →
  ∃ σ' a' al, binv s' σ' ∧ AbstractMap.next a a' al ∧ branch_event l al ∧ sim branch_answers (ABB.betree s') a'.
Proof.
  intros I Hs Hn. destruct (abb_step true grow _ _ _ _ I Hn) as (σ'&I'&St). destruct (st_like _ _ _ _ _ _ St eq_refl) as (lb&Hlb&Hev).
  destruct (likes_strong _ _ _ (b_exact _ _ _ I) Hlb) as [Hst _].
  destruct (LinkedBetree_Facts.step_sim _ _ _ (proj1 (b_exact _ _ _ I)) Hst) as [_ Hsim].
  destruct (Hsim a (proj1 (sim_there _ _ _ I) Hs)) as (a'&al&Ha&Hal&Hs').
  exists σ', a', al. split; [done|]. split; [done|]. split; [by apply Hev|]. by apply (sim_there _ _ _ I').
Qed.

(** ** Giving up unfinished work *)
Definition cleaner s t : Prop :=
  memtable (ABB.betree t) = memtable (ABB.betree s) ∧ lb_root (root (ABB.betree t)) = lb_root (root (ABB.betree s)) ∧
  ndv t = ndv s ∧ bdv t ⊆ bdv s.
Lemma gives_up_next s t l : gives_up s t l → ABB.next true grow s t l.
Proof. intros [[i Hi]|[i Hi]]; [do 3 right; left|do 9 right; left]; by exists i. Qed.
Lemma gives_up_cleaner s t l : gives_up s t l → cleaner s t.
Proof.
  intros [(i&w&_&_&->)|(i&_&_&->)]; [done|]. unfold cleaner. cbn. split_and!; try done. apply map_filter_subseteq.
Qed.
Lemma gave_up s ls t σ : binv s σ → run gives_up s ls t → cleaner s t ∧ ∃ σ', binv t σ'.
Proof.
  intros I Hr. induction Hr as [s|s ls s1 l s2 Hr IH Hn]; [split; [done|eauto]|].
  destruct (IH I) as [(E1&E2&E3&E4) [σ1 I1]]. pose proof (gives_up_cleaner _ _ _ Hn) as (F1&F2&F3&F4).
  destruct (abb_step true grow _ _ _ _ I1 (gives_up_next _ _ _ Hn)) as (σ2&I2&_). split; [|eauto].
  split_and!; [congruence|congruence|congruence|by etrans].
Qed.
Lemma cleaner_holds s t σ σ' m : binv s σ → binv t σ' → cleaner s t → Betree_Spec.holds branch_answers (root (ABB.betree s)) m →
  Betree_Spec.holds branch_answers (root (ABB.betree t)) m.
Proof.
  intros I I' (_&E1&E2&E3) Hm. destruct (image_holds true _ _ I') as (m'&_&Hm').
  assert (Em : ∀ k, m' k = m k).
  { intros k. symmetry. apply Hm. unfold branch_answers. rewrite <-E1, <-E2. eapply answers_more; [reflexivity|exact E3|]. by apply Hm'. }
  intros k v. rewrite <-(Em k). apply Hm'.
Qed.
Lemma can_give_up n : ∀ s, length (ABB.compactors s) + length (ABB.wip_branches s) = n →
  ∃ ls t, run gives_up s ls t ∧ ABB.compactors t = [] ∧ ABB.wip_branches t = [].
Proof.
  induction n as [|n IH]; intros s En.
  - exists [], s. split; [constructor|]. destruct (ABB.compactors s), (ABB.wip_branches s); done.
  - destruct (ABB.wip_branches s) as [|w ws] eqn:Ew.
    + destruct (ABB.compactors s) as [|c cs] eqn:Ec; [done|].
      assert (∃ s1 dl, ABB.internal_compact_abort s s1 (ABB.Int ∅ dl) 0 ∧ ABB.compactors s1 = cs ∧ ABB.wip_branches s1 = []) as (s1&dl&Hn&E1&E2).
      { eexists _, _. split; [unfold ABB.internal_compact_abort; split; [rewrite Ec; cbn; lia|split; reflexivity]|]. rewrite Ec. done. }
      destruct (IH s1) as (ls&t&Hr&Ht); [rewrite E1, E2; cbn in *; lia|].
      eexists (_ :: ls), t. split; [|done]. eapply run_cons; [|exact Hr]. right. by exists 0.
    + set (s1 := ABB.mkState (ABB.betree s) (ABB.betree_aus s) (ABB.branch_aus s) (ABB.branch_summary s) (ABB.compactors s) ws).
      destruct (IH s1) as (ls&t&Hr&Ht); [cbn in *; lia|].
      eexists (_ :: ls), t. split; [|done]. eapply (run_cons _ _ _ s1); [|exact Hr]. left. exists 0, w. rewrite Ew. done.
Qed.

(** ** Freezing *)
Lemma freeze_inv s s' f : ABB.next true grow s s' (ABB.Lbl (FreezeAs f)) →
  mt_is_empty (memtable (ABB.betree s)) ∧ f = mkStamped (Linked.i_bdv (root (ABB.betree s))) (mt_seq_end (memtable (ABB.betree s))) ∧ s' = s.
Proof.
  intros [(new&ll&[= <-]&_&[(?&?&?&?&?&?&_)|[(?&?&_)|[(He&[= ->]&->)|Hn]]]&->)|Hn].
  - done.
  - done.
  - split; [done|]. split; [done|by destruct s].
  - exfalso. destruct Hn as [(?&?&?&?&_)|[(?&?&_)|[(?&?&?&?&?&?&?&_)|[(?&?&?&?&?&?&?&?&_)|[(?&?&?&?&?&?&?&?&?&_)|[(?&?&_)|(?&_)]]]]]]; done.
  - exfalso. destruct Hn as [(?&?&_)|[(?&?&?&?&?&?&?&_)|[(?&?&?&?&_)|[(?&?&?&?&?&?&?&?&_)|[(?&?&?&_)|[(?&?&?&?&?&?&?&?&?&_)|
        [(?&?&?&?&?&?&?&?&?&?&_)|[(?&?&?&?&?&?&_)|[(?&_&?&_)|(?&?&?&?&?&?&?&?&?&?&?&?&?&?&?&_)]]]]]]]]]; done.
Qed.
Lemma frozen_image s s' img σ : binv s σ → branch_freeze grow s s' img →
  s' = s ∧ ∃ t, ABB.initialize t (branch_start img) ∧ st_seq_end img = mt_seq_end (memtable (ABB.betree s)) ∧
    ∀ m, Betree_Spec.holds branch_answers (root (ABB.betree s)) m → Betree_Spec.holds branch_answers (st_value img) m.
Proof.
  intros I (f&ls&t&Hn&Es&Hr&Hc&Hw&Ev). destruct (freeze_inv _ _ _ Hn) as (He&->&->). split; [done|]. cbn in Es.
  destruct (gave_up _ _ _ _ I Hr) as [Hcl [σ' I']]. exists t. split; [|split; [done|]].
  - replace (branch_start img) with (ABB.betree t); [|].
    + eapply (idle_image true); [exact I'| |done|done]. by rewrite (proj1 Hcl).
    + unfold branch_start. rewrite Ev, Es, <-(proj1 Hcl). rewrite <-(proj1 Hcl) in He.
      destruct (ABB.betree t) as [[mb me] r]. cbn in *. unfold mt_is_empty in He. cbn in He. by subst.
  - intros m Hm. rewrite Ev. exact (cleaner_holds _ _ _ _ _ I I' Hcl Hm).
Qed.
Lemma can_image s : mt_is_empty (memtable (ABB.betree s)) → ∃ img, branch_freeze grow s s img.
Proof.
  intros He. destruct (can_give_up _ s eq_refl) as (ls&t&Hr&Hc&Hw).
  eexists (mkStamped (root (ABB.betree t)) _), _, ls, t. split; [exact (freeze_step true grow s He)|]. by split_and!.
Qed.

(** ** The layer *)
Lemma empty_start : ABB.initialize (ABB.mkState (mkBS (empty_memtable 0) (mkLB None ∅ ∅)) ∅ ∅ ∅ [] []) (mkBS (empty_memtable 0) (mkLB None ∅ ∅)).
Proof.
  destruct r0_init as (Hac&_&_&Hmt&_). split.
  { split; [by apply (skel_acyclic (mkLB None ∅ ∅) (root r0))|]. split; [|split; [|split; [exact Hmt|done]]].
    - intros ba (a&n&_&Hn&_). done.
    - by intros n (a&Ha&_). }
  assert (∃ tl bl, transitive_likes (mkLB None ∅ ∅ : BLB) tl bl ∧ tl = ∅ ∧ bl = ∅) as (tl&bl&Hl&->&->).
  { destruct Hac as (_&rk&Hrk). eexists _, _. split; [|split; reflexivity]. exists rk. done. }
  exists ∅, ∅. split; [done|]. assert (E : mdom (∅ : gmultiset Address) = ∅) by done. cbn [root lb_bdv lb_dv]. rewrite E.
  split; [by intros r Hr%elem_of_empty|]. split; [by intros a b Ha%elem_of_empty|].
  split; [by intros u v U V Hu|]. split; [by intros a|]. split; [by intros a|].
  split; [by intros u Hu|]. by f_equal.
Qed.
Lemma branch_ok : map_ok (branch_layer grow) branch_answers branch_room.
Proof.
  refine (mkMapOk (branch_layer grow) branch_answers branch_room (λ img, ∃ t, ABB.initialize t (branch_start img))
    (λ s a, (∃ σ, binv s σ) ∧ sim branch_answers (ABB.betree s) a) _ _ _ _ _ _ _ _).
  - split; [eexists; exact empty_start|]. split; [|done]. intros k v. cbn. split.
    + intros Ha. by inversion Ha.
    + intros <-. constructor.
  - intros s img m _ Hl Hm. destruct (abb_init true _ _ Hl) as (σ&_&_&I&_&Eb). split; [eauto|]. rewrite Eb. split; [|done].
    by apply state_holds_image.
  - intros s s' l a [[σ I] Hs] Hn. destruct l as [e k v|puts|img|]; cbn in Hn.
    + destruct (layer_step _ _ _ _ _ I Hs Hn) as (σ'&a'&al&I'&Ha&Hev&Hs'). exists a', al. by eauto.
    + destruct (layer_step _ _ _ _ _ I Hs Hn) as (σ'&a'&al&I'&Ha&Hev&Hs'). exists a', al. by eauto.
    + destruct (frozen_image _ _ _ _ I Hn) as (->&_&_&Es&Hm). destruct Hn as (f&_&_&Hn&_).
      destruct (layer_step _ _ _ _ _ I Hs Hn) as (σ'&a'&al&I'&Ha&(m&Hf&->)&Hs'). exists a'. eexists. split; [exact Ha|]. split; [|by eauto].
      destruct (freeze_inv _ _ _ Hn) as (_&->&_). cbn in Hf. exists m. split; [|do 2 f_equal; symmetry; exact Es].
      apply Hm. destruct (image_holds true _ _ I) as (m'&H1&H2). intros k v. rewrite (H2 k v), <-(H1 k v). apply Hf.
    + destruct Hn as (alls&dl&Hn). destruct (layer_step _ _ _ _ _ I Hs Hn) as (σ'&a'&al&I'&Ha&Hev&Hs'). exists a', al. by eauto.
  - intros s s' img a [[σ I] _] Hn. destruct (frozen_image _ _ _ _ I Hn) as (_&t&Ht&_). by exists t.
  - done.
  - intros s a puts [_ [_ He]] Hw Hf. unfold can_follow in Hf. eexists. left. eexists _, _. split; [reflexivity|]. split; [done|].
    split; [|reflexivity]. right; left. exists puts. split; [done|]. split; [done|]. split; [|done]. congruence.
  - intros s a k [[σ I] [_ He]]. destruct (linked_can_answer (LikesBetree.betree σ) k (proj1 (b_exact _ _ _ I))) as (v&Hv).
    exists s, v. cbn. rewrite He. by apply (can_there true grow _ _ k v eq_refl I).
  - intros s a [[σ I] _] (Hp&u1&u2&u3&Hnd&Hu).
    destruct (inv_can_freeze true grow _ _ _ _ _ I Hnd Hu Hp) as (ls&s1&Hr&HF&He&_).
    destruct (can_image s1 He) as [img Hi]. exists (replicate (length ls) tt), s1, img. split; [|done].
    clear -Hr HF. induction Hr as [s|s ls s1 l s2 Hr IH Hn]; [constructor|].
    apply Forall_app in HF as [HF1 HF2]. rewrite app_length, Nat.add_1_r, replicate_S_end. eapply run_snoc; [by apply IH|].
    apply Forall_cons_1 in HF2 as [(alls&dl&->&_) _]. by exists alls, dl.
Qed.
End Layer.
