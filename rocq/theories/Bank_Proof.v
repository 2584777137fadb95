(** Proofs about the bank's specification, its state machine and the system model. *)
From Coq Require Import ZifyBool ZifyNat ZifyN.
From Verif Require Export Bank_Spec Spec_Proof.

(** ** Sums over maps *)
Definition msum {A} (f : A → N) (m : gmap N A) : N := map_fold (λ _ a s, (f a + s)%N) 0%N m.

Lemma msum_empty {A} (f : A → N) : msum f ∅ = 0%N.
Proof. apply map_fold_empty. Qed.
Lemma msum_new {A} (f : A → N) m k v :
  m !! k = None → msum f (<[k := v]> m) = (f v + msum f m)%N.
Proof. intros E. unfold msum. rewrite map_fold_insert_L; [done| |done]. intros. lia. Qed.
Lemma msum_update {A} (f : A → N) m k v v' :
  m !! k = Some v → (msum f (<[k := v']> m) + f v = msum f m + f v')%N.
Proof.
  intros E. rewrite <- insert_delete_insert, msum_new by apply lookup_delete.
  rewrite <- (insert_delete m k v) at 2 by done. rewrite msum_new by apply lookup_delete. lia.
Qed.
Lemma msum_ext {A} (f g : A → N) m :
  (∀ k a, m !! k = Some a → f a = g a) → msum f m = msum g m.
Proof.
  induction m as [|k v m E IH] using map_ind; [by rewrite !msum_empty|]. intros Hfg.
  rewrite !msum_new by done. f_equal.
  - eapply (Hfg k). apply lookup_insert.
  - apply IH. intros k' a Hk. apply (Hfg k'). rewrite lookup_insert_ne; [done|congruence].
Qed.
Lemma msum_fmap {A B} (f : B → N) (g : A → B) m : msum f (g <$> m) = msum (f ∘ g) m.
Proof.
  induction m as [|k v m E IH] using map_ind; [by rewrite fmap_empty, !msum_empty|].
  rewrite fmap_insert, !msum_new; [by rewrite IH|done|by rewrite lookup_fmap, E].
Qed.
Lemma msum_zero {A} (f : A → N) m : (∀ k a, m !! k = Some a → f a = 0%N) ↔ msum f m = 0%N.
Proof.
  induction m as [|k v m E IH] using map_ind.
  - rewrite msum_empty. split; [done|]. intros _ k a Hk. by rewrite lookup_empty in Hk.
  - rewrite msum_new by done. split.
    + intros Hz. rewrite (Hz k v) by apply lookup_insert.
      rewrite (proj1 IH); [done|]. intros k' a Hk. apply (Hz k'). rewrite lookup_insert_ne; [done|congruence].
    + intros Hz k' a Hk. destruct (decide (k' = k)) as [->|ne].
      * rewrite lookup_insert in Hk. simplify_eq. lia.
      * rewrite lookup_insert_ne in Hk by done. apply (proj2 IH ltac:(lia) k'). done.
Qed.
Lemma msum_le {A} (f : A → N) m k v : m !! k = Some v → (f v ≤ msum f m)%N.
Proof.
  intros E. rewrite <- (insert_delete m k v) by done. rewrite msum_new by apply lookup_delete. lia.
Qed.

Lemma money_msum m : money m = msum (λ a, a) m. Proof. done. Qed.

Lemma elem_of_below n i : i ∈ below n ↔ (i < n)%N.
Proof.
  unfold below. rewrite elem_of_list_to_set, elem_of_list_fmap. split.
  - intros (k & -> & Hk%elem_of_seq). lia.
  - intros Hi. exists (N.to_nat i). split; [lia|]. apply elem_of_seq. lia.
Qed.
Lemma below_S n : below (N.succ n) = {[n]} ∪ below n.
Proof. apply set_eq. intros i. rewrite elem_of_union, elem_of_singleton, !elem_of_below. lia. Qed.

Lemma new_accounts_lookup n v i a :
  new_accounts n v !! i = Some a ↔ (i < n)%N ∧ a = v.
Proof. unfold new_accounts. rewrite lookup_gset_to_gmap_Some, elem_of_below. naive_solver. Qed.
Lemma dom_new_accounts n v : dom (new_accounts n v) = below n.
Proof. apply dom_gset_to_gmap. Qed.
Lemma money_new n v : money (new_accounts n v) = (v * n)%N.
Proof.
  unfold new_accounts. rewrite money_msum. induction n as [|n IH] using N.peano_ind.
  - unfold below. change (N.to_nat 0) with 0. cbn [seq fmap list_fmap list_to_set].
    rewrite gset_to_gmap_empty, msum_empty. lia.
  - rewrite below_S, gset_to_gmap_union_singleton, msum_new, IH; [lia|].
    rewrite lookup_gset_to_gmap_None, elem_of_below. lia.
Qed.

(** A transfer between two accounts moves money. *)
Lemma money_transfer m f t fa ta a :
  f ≠ t → m !! f = Some fa → m !! t = Some ta → (a ≤ fa)%N →
  money (<[t := (ta + a)%N]> (<[f := (fa - a)%N]> m)) = money m.
Proof.
  intros ne Ef Et Ha. rewrite !money_msum.
  pose proof (msum_update (λ a, a) m f fa (fa - a)%N Ef) as H1.
  pose proof (msum_update (λ a, a) (<[f := (fa - a)%N]> m) t ta (ta + a)%N) as H2.
  rewrite lookup_insert_ne in H2 by done. specialize (H2 Et). cbn beta in *. change (money m) with (msum (λ a, a) m). lia.
Qed.

(** ** The specification *)
Lemma spec_conserves n v s0 ls s :
  BankSpec.initialize s0 n v → run (BankSpec.next true) s0 ls s →
  money (BankSpec.accounts s) = (v * n)%N ∧ dom (BankSpec.accounts s) = below n.
Proof.
  intros -> Hr. remember (BankSpec.mk _ _ _) as s0 eqn:E0.
  induction Hr as [s|s ls s1 l s2 Hr IH Hn]; subst.
  { split; [apply money_new|apply dom_new_accounts]. }
  specialize (IH eq_refl) as [IHm IHd].
  destruct Hn as [(?&?&?&->)|[(req&reply&fa&ta&->&?&?&?&?&Ef&Et&Ha&ne&->)|[(?&?&?&?&?&?&?&->)|(?&?&?&->)]]];
    try done; cbn [BankSpec.accounts].
  specialize (ne eq_refl). split; [by rewrite money_transfer|].
  rewrite !dom_insert_L, IHd. apply elem_of_dom_2 in Ef, Et. rewrite IHd in Ef, Et. set_solver.
Qed.

(** ** The state machine *)
Lemma bank_transfer_inv pre post l :
  Bank.transfer pre post l → ∃ req reply fa ta, l = ExecuteOp req reply ∧
    req ∈ Bank.requests pre ∧ req_id req = reply_id reply ∧ succeeded reply = true ∧
    from (input req) ≠ to (input req) ∧
    Bank.account_map pre !! from (input req) = Some fa ∧
    Bank.account_map pre !! to (input req) = Some ta ∧ (amt (input req) ≤ fa)%N ∧
    post = Bank.mk (Bank.total_accounts pre) (Bank.total_amount pre)
             (<[to (input req) := (ta + amt (input req))%N]>
               (<[from (input req) := (fa - amt (input req))%N]> (Bank.account_map pre)))
             (Bank.requests pre ∖ {[+ req +]}) (Bank.replies pre ⊎ {[+ reply +]}).
Proof.
  intros (req&reply&fa&ta&->&Hin&Hid&Hs&Hf&Ht&Ha&H1&H2&->).
  assert (from (input req) ≠ to (input req)) as ne.
  { intros E. rewrite E, lookup_delete in Ht. done. }
  rewrite lookup_delete_ne in Ht by done.
  exists req, reply, fa, ta. repeat (split; [done|]). f_equal.
  apply map_eq. intros k. destruct (decide (k = to (input req))) as [->|]; [by rewrite !lookup_insert|].
  rewrite !(lookup_insert_ne _ (to _)) by done.
  destruct (decide (k = from (input req))) as [->|]; [by rewrite !lookup_insert|].
  rewrite !lookup_insert_ne by done. by rewrite !lookup_delete_ne.
Qed.
Lemma bank_transfer_intro pre req fa ta :
  req ∈ Bank.requests pre → from (input req) ≠ to (input req) →
  Bank.account_map pre !! from (input req) = Some fa →
  Bank.account_map pre !! to (input req) = Some ta → (amt (input req) ≤ fa)%N →
  let reply := mkReply true (req_id req) in
  Bank.transfer pre
    (Bank.mk (Bank.total_accounts pre) (Bank.total_amount pre)
             (<[to (input req) := (ta + amt (input req))%N]>
               (<[from (input req) := (fa - amt (input req))%N]> (Bank.account_map pre)))
             (Bank.requests pre ∖ {[+ req +]}) (Bank.replies pre ⊎ {[+ reply +]}))
    (ExecuteOp req reply).
Proof.
  intros Hin ne Ef Et Ha reply. exists req, reply, fa, ta. repeat (split; [done|]).
  cbv zeta. split; [by rewrite lookup_delete_ne|]. split; [done|].
  split; [rewrite lookup_delete_ne by done; apply lookup_delete|].
  split; [rewrite lookup_insert_ne by done; apply lookup_delete|].
  f_equal. apply map_eq. intros k.
  destruct (decide (k = to (input req))) as [->|]; [by rewrite !lookup_insert|].
  rewrite !(lookup_insert_ne _ (to _)) by done.
  destruct (decide (k = from (input req))) as [->|]; [by rewrite !lookup_insert|].
  rewrite !lookup_insert_ne by done. by rewrite !lookup_delete_ne.
Qed.

(** BankObligations_v.rs 48-60, with the ids also tied to the history. *)
Definition sys_inv (y : BankSys.State) : Prop :=
  let b := BankSys.bank y in
  (∀ r, multiplicity r (Bank.requests b) ≤ 1) ∧
  (∀ r, multiplicity r (Bank.replies b) ≤ 1) ∧
  (∀ r r', r ∈ Bank.requests b → r' ∈ Bank.requests b → req_id r = req_id r' → r = r') ∧
  (∀ r r', r ∈ Bank.replies b → r' ∈ Bank.replies b → reply_id r = reply_id r' → r = r') ∧
  (∀ r r', r ∈ Bank.requests b → r' ∈ Bank.replies b → req_id r ≠ reply_id r') ∧
  (∀ r, r ∈ Bank.requests b → req_id r ∈ BankSys.id_history y) ∧
  (∀ r, r ∈ Bank.replies b → reply_id r ∈ BankSys.id_history y).

Section gms.
  Context `{Countable A}.
  Implicit Types X : gmultiset A.
  Lemma gms_diff_elem X x y :
    (∀ z, multiplicity z X ≤ 1) → y ∈ X ∖ {[+ x +]} ↔ y ∈ X ∧ y ≠ x.
  Proof.
    intros Hm. rewrite !elem_of_multiplicity, multiplicity_difference. specialize (Hm y).
    destruct (decide (y = x)) as [->|ne].
    - rewrite multiplicity_singleton. split; [lia|intros []; congruence].
    - rewrite multiplicity_singleton_ne by done. split; [intros; split; [lia|done]|lia].
  Qed.
  Lemma gms_diff_le X x :
    (∀ z, multiplicity z X ≤ 1) → ∀ z, multiplicity z (X ∖ {[+ x +]}) ≤ 1.
  Proof. intros Hm z. rewrite multiplicity_difference. specialize (Hm z). lia. Qed.
  Lemma gms_add_elem X x y : y ∈ X ⊎ {[+ x +]} ↔ y ∈ X ∨ y = x.
  Proof.
    rewrite !elem_of_multiplicity, multiplicity_disj_union. destruct (decide (y = x)) as [->|ne].
    - rewrite multiplicity_singleton. split; [by right|lia].
    - rewrite multiplicity_singleton_ne by done. split; [intros; left; lia|intros []; [lia|congruence]].
  Qed.
  Lemma gms_add_le X x :
    (∀ z, multiplicity z X ≤ 1) → x ∉ X → ∀ z, multiplicity z (X ⊎ {[+ x +]}) ≤ 1.
  Proof.
    intros Hm Hx z. rewrite multiplicity_disj_union. specialize (Hm z).
    rewrite elem_of_multiplicity in Hx.
    destruct (decide (z = x)) as [->|ne];
      [rewrite multiplicity_singleton|rewrite multiplicity_singleton_ne by done]; lia.
  Qed.
  Lemma gms_dom_add X x : dom (X ⊎ {[+ x +]}) = {[x]} ∪ dom X.
  Proof. apply set_eq. intros y. rewrite gmultiset_elem_of_dom, gms_add_elem, elem_of_union, gmultiset_elem_of_dom, elem_of_singleton. tauto. Qed.
  Lemma gms_dom_diff X x :
    (∀ z, multiplicity z X ≤ 1) → dom (X ∖ {[+ x +]}) = dom X ∖ {[x]}.
  Proof. intros Hm. apply set_eq. intros y. rewrite gmultiset_elem_of_dom, gms_diff_elem, elem_of_difference, gmultiset_elem_of_dom, elem_of_singleton by done. tauto. Qed.
End gms.

Lemma sys_init n v y : BankSys.initialize y n v → sys_inv y.
Proof.
  destruct y as [b h]. intros [E1 E]. unfold Bank.initialize in E1. cbn in E, E1. subst h b. unfold sys_inv. cbn.
  split_and!; intros *; rewrite ?multiplicity_empty; try lia; multiset_solver.
Qed.

(** What a step does, in one form for all of them. *)
Inductive sys_step_view (y y' : BankSys.State) : BankLabel → Prop :=
  | sv_request req :
      req_id req ∉ BankSys.id_history y →
      y' = BankSys.mk (Bank.mk (Bank.total_accounts (BankSys.bank y)) (Bank.total_amount (BankSys.bank y))
                         (Bank.account_map (BankSys.bank y))
                         (Bank.requests (BankSys.bank y) ⊎ {[+ req +]}) (Bank.replies (BankSys.bank y)))
                      ({[req_id req]} ∪ BankSys.id_history y) →
      sys_step_view y y' (RequestOp req)
  | sv_execute req reply m :
      req ∈ Bank.requests (BankSys.bank y) → req_id req = reply_id reply →
      (if succeeded reply
       then ∃ fa ta, from (input req) ≠ to (input req) ∧
              Bank.account_map (BankSys.bank y) !! from (input req) = Some fa ∧
              Bank.account_map (BankSys.bank y) !! to (input req) = Some ta ∧
              (amt (input req) ≤ fa)%N ∧
              m = <[to (input req) := (ta + amt (input req))%N]>
                    (<[from (input req) := (fa - amt (input req))%N]> (Bank.account_map (BankSys.bank y)))
       else m = Bank.account_map (BankSys.bank y)) →
      y' = BankSys.mk (Bank.mk (Bank.total_accounts (BankSys.bank y)) (Bank.total_amount (BankSys.bank y)) m
                         (Bank.requests (BankSys.bank y) ∖ {[+ req +]})
                         (Bank.replies (BankSys.bank y) ⊎ {[+ reply +]}))
                      (BankSys.id_history y) →
      sys_step_view y y' (ExecuteOp req reply)
  | sv_reply r :
      r ∈ Bank.replies (BankSys.bank y) →
      y' = BankSys.mk (Bank.mk (Bank.total_accounts (BankSys.bank y)) (Bank.total_amount (BankSys.bank y))
                         (Bank.account_map (BankSys.bank y))
                         (Bank.requests (BankSys.bank y)) (Bank.replies (BankSys.bank y) ∖ {[+ r +]}))
                      (BankSys.id_history y) →
      sys_step_view y y' (ReplyOp r).

Lemma sys_step_iff y y' l : BankSys.next y y' l ↔ sys_step_view y y' l.
Proof.
  split.
  - destruct y' as [b' h'].
    intros [(req&->&Hnew&Hn&Hh)|(Hl&Hn&Hh)]; cbn [BankSys.bank BankSys.id_history] in *; subst h'.
    + destruct Hn as [(?&[= <-]&->)|[H|[H|H]]].
      * by apply (sv_request _ _ req).
      * apply bank_transfer_inv in H as (?&?&?&?&?&_). done.
      * destruct H as (?&?&?&_). done.
      * destruct H as (?&?&_). done.
    + destruct Hn as [(?&->&_)|[H|[H|H]]]; [by destruct (Hl x)| | |].
      * apply bank_transfer_inv in H as (req&reply&fa&ta&->&?&?&Hs&?&?&?&?&->).
        eapply sv_execute; [done..| |done]. rewrite Hs. by exists fa, ta.
      * destruct H as (req&reply&->&?&?&Hs&->).
        eapply sv_execute; [done..| |done]. by rewrite Hs.
      * destruct H as (r&->&?&->). by apply sv_reply.
  - intros [req Hnew ->|req reply m Hin Hid Hm ->|r Hin ->].
    + left. exists req. split; [done|]. split; [done|]. split; [|done]. left. by exists req.
    + right. split; [done|]. split; [|done]. cbn [BankSys.bank].
      destruct reply as [[] k]; cbn in Hid, Hm; subst k.
      * destruct Hm as (fa&ta&?&?&?&?&->). right; left. by apply bank_transfer_intro.
      * right; right; left. subst m. by exists req, (mkReply false (req_id req)).
    + right. split; [done|]. split; [|done]. right; right; right. by exists r.
Qed.

Lemma sys_next_inv y y' l : BankSys.next y y' l → sys_inv y → sys_inv y'.
Proof.
  rewrite sys_step_iff. intros Hs (Hm1&Hm2&Hu1&Hu2&Hd&Hh1&Hh2).
  destruct Hs as [req Hnew ->|req reply m Hin Hid Hm ->|r Hin ->]; unfold sys_inv; cbv zeta;
    cbn [BankSys.bank BankSys.id_history Bank.requests Bank.replies].
  - split_and!.
    + apply gms_add_le; [done|]. intros Hin. by apply Hh1 in Hin.
    + done.
    + intros r r'. rewrite !gms_add_elem. intros [Hr| ->] [Hr'| ->] E; eauto.
      * apply Hh1 in Hr. congruence.
      * apply Hh1 in Hr'. congruence.
    + done.
    + intros r r'. rewrite gms_add_elem. intros [Hr| ->] Hr'; eauto.
      apply Hh2 in Hr'. congruence.
    + intros r. rewrite gms_add_elem. intros [Hr%Hh1| ->]; set_solver.
    + intros r Hr%Hh2. set_solver.
  - assert (reply ∉ Bank.replies (BankSys.bank y)) as Hnr.
    { intros Hr. by apply (Hd req reply). }
    split_and!.
    + by apply gms_diff_le.
    + by apply gms_add_le.
    + intros r r'. rewrite !gms_diff_elem by done. intros [] []; eauto.
    + intros r r'. rewrite !gms_add_elem. intros [Hr| ->] [Hr'| ->] E; eauto.
      * by destruct (Hd req r); [done|done|congruence].
      * by destruct (Hd req r'); [done|done|congruence].
    + intros r r'. rewrite gms_diff_elem, gms_add_elem by done. intros [Hr ne] [Hr'| ->]; eauto.
      rewrite <- Hid. intros E. apply ne. by apply Hu1.
    + intros r. rewrite gms_diff_elem by done. intros []; eauto.
    + intros r. rewrite gms_add_elem. intros [Hr| ->]; [eauto|]. rewrite <- Hid. eauto.
  - split_and!; try done.
    + by apply gms_diff_le.
    + intros r' r''. rewrite !gms_diff_elem by done. intros [] []; eauto.
    + intros r' r''. rewrite gms_diff_elem by done. intros ? []; eauto.
    + intros r'. rewrite gms_diff_elem by done. intros []; eauto.
Qed.

Lemma sys_reach n v y0 ls y :
  BankSys.initialize y0 n v → run BankSys.next y0 ls y → sys_inv y.
Proof.
  intros Hi Hr. apply sys_init in Hi. induction Hr; [done|]. by eapply sys_next_inv; [|apply IHHr].
Qed.

Lemma sys_sim y y' l :
  sys_inv y → BankSys.next y y' l →
  BankSpec.next true (Bank.i (BankSys.bank y)) (Bank.i (BankSys.bank y')) l.
Proof.
  intros (Hm1&Hm2&Hu1&Hu2&Hd&Hh1&Hh2). rewrite sys_step_iff.
  destruct y as [[tot am m R P] h]. cbn in *.
  intros [req Hnew ->|req reply m' Hin Hid Hm ->|r Hin ->]; unfold Bank.i; cbn in *.
  - left. exists req. split; [done|]. cbn. rewrite gms_dom_add. split; [|done].
    intros r Hr%gmultiset_elem_of_dom E. apply Hh1 in Hr. congruence.
  - assert (∀ r, r ∈ dom P → reply_id r ≠ reply_id reply) as Hfresh.
    { intros r Hr%gmultiset_elem_of_dom E. apply (Hd req r); [done..|congruence]. }
    destruct (succeeded reply) eqn:Es.
    + destruct Hm as (fa&ta&?&?&?&?&->). right; left. exists req, reply, fa, ta. cbn.
      rewrite gmultiset_elem_of_dom, gms_dom_add, gms_dom_diff by done. done.
    + subst m'. right; right; left. exists req, reply. cbn.
      rewrite gmultiset_elem_of_dom, gms_dom_add, gms_dom_diff by done. done.
  - right; right; right. exists r. cbn. by rewrite gmultiset_elem_of_dom, gms_dom_diff.
Qed.

Lemma sys_refines n v y0 ls y :
  BankSys.initialize y0 n v → run BankSys.next y0 ls y →
  ∃ s0, BankSpec.initialize s0 n v ∧ run (BankSpec.next true) s0 ls (Bank.i (BankSys.bank y)).
Proof.
  intros Hi Hr. exists (Bank.i (BankSys.bank y0)). split.
  { destruct y0 as [b h], Hi as [E _]. unfold Bank.initialize in E. cbn in E. subst b. unfold Bank.i, BankSpec.initialize.
    cbn [BankSys.bank Bank.account_map Bank.requests Bank.replies].
    f_equal; apply set_eq; intros x; rewrite gmultiset_elem_of_dom; multiset_solver. }
  pose proof (sys_reach _ _ _ _ _ Hi Hr) as _.
  revert Hi. induction Hr as [s|s ls s1 l s2 Hr IH Hn]; intros Hi; [constructor|].
  econstructor; [by apply IH|]. apply sys_sim; [|done]. by eapply sys_reach.
Qed.

Lemma spec_next_weaken s s' l : BankSpec.next true s s' l → BankSpec.next false s s' l.
Proof.
  intros [H|[H|H]]; [by left| |by right; right]. right; left.
  destruct H as (req&reply&fa&ta&?&?&?&?&?&?&?&?&?&?). exists req, reply, fa, ta. by split_and!.
Qed.
Lemma spec_run_weaken s ls s' : run (BankSpec.next true) s ls s' → run (BankSpec.next false) s ls s'.
Proof. induction 1; [constructor|]. econstructor; [done|]. by apply spec_next_weaken. Qed.

Lemma sys_conserves n v y0 ls y :
  BankSys.initialize y0 n v → run BankSys.next y0 ls y →
  money (Bank.account_map (BankSys.bank y)) = (v * n)%N ∧
  dom (Bank.account_map (BankSys.bank y)) = below n.
Proof.
  intros Hi Hr. destruct (sys_refines _ _ _ _ _ Hi Hr) as (s0 & H0 & Hs).
  apply (spec_conserves _ _ _ _ _ H0 Hs).
Qed.

(** ** The balances are determined by the history *)
Lemma sys_balances n v y0 ls y :
  BankSys.initialize y0 n v → run BankSys.next y0 ls y →
  Bank.account_map (BankSys.bank y) = balances n v ls.
Proof.
  intros Hi Hr. unfold balances. induction Hr as [s|s ls s1 l s2 Hr IH Hn].
  - destruct s as [b h], Hi as [E _]. unfold Bank.initialize in E. cbn in E. by subst b.
  - rewrite fold_left_app, <- IH by done. cbn [fold_left].
    apply sys_step_iff in Hn. destruct Hn as [req Hnew ->|req reply m' Hin Hid Hm ->|r Hin ->]; try done.
    cbn [BankSys.bank Bank.account_map]. destruct req as [[f t a] k], reply as [[] k']; cbn in *.
    + destruct Hm as (fa&ta&?&Ef&Et&?&->). by rewrite Ef, Et.
    + done.
Qed.

(** ** Every request is decided and answered at most once, in order *)
Lemma times_app f l1 l2 : times f (l1 ++ l2) = times f l1 + times f l2.
Proof. unfold times. by rewrite sum_list_with_app. Qed.
Lemma times_one f l : times f [l] = f l.
Proof. unfold times. cbn. lia. Qed.

Definition in_requests (k : N) (y : BankSys.State) : Prop :=
  ∃ r, r ∈ Bank.requests (BankSys.bank y) ∧ req_id r = k.
Definition in_replies (k : N) (y : BankSys.State) : Prop :=
  ∃ r, r ∈ Bank.replies (BankSys.bank y) ∧ reply_id r = k.

(** For each id: never asked; or asked and pending; or decided and not answered;
    or answered. *)
Definition stage (k : N) (ls : list BankLabel) (y : BankSys.State) : Prop :=
  (times (asks k) ls = 0 ∧ times (decides k) ls = 0 ∧ times (answers k) ls = 0 ∧
     k ∉ BankSys.id_history y ∧ ¬ in_requests k y ∧ ¬ in_replies k y) ∨
  (times (asks k) ls = 1 ∧ times (decides k) ls = 0 ∧ times (answers k) ls = 0 ∧
     k ∈ BankSys.id_history y ∧ in_requests k y ∧ ¬ in_replies k y) ∨
  (times (asks k) ls = 1 ∧ times (decides k) ls = 1 ∧ times (answers k) ls = 0 ∧
     k ∈ BankSys.id_history y ∧ ¬ in_requests k y ∧ in_replies k y) ∨
  (times (asks k) ls = 1 ∧ times (decides k) ls = 1 ∧ times (answers k) ls = 1 ∧
     k ∈ BankSys.id_history y ∧ ¬ in_requests k y ∧ ¬ in_replies k y).

Lemma sys_stage n v y0 ls y k :
  BankSys.initialize y0 n v → run BankSys.next y0 ls y → stage k ls y.
Proof.
  intros Hi Hr. induction Hr as [s|s ls s1 l s2 Hr IH Hn].
  - left. destruct Hi as [Hb ->]. unfold in_requests, in_replies. rewrite Hb. cbn.
    split_and!; try done; [set_solver|intros (?&?&_); multiset_solver..].
  - specialize (IH Hi). pose proof (sys_reach _ _ _ _ _ Hi Hr) as (Hm1&Hm2&Hu1&Hu2&Hd&Hh1&Hh2).
    apply sys_step_iff in Hn. unfold stage in *. rewrite !times_app, !times_one.
    destruct Hn as [req Hnew ->|req reply m' Hin Hid Hm ->|r Hin ->];
      cbn [asks decides answers]; unfold in_requests, in_replies in *;
      cbn [BankSys.bank Bank.requests Bank.replies BankSys.id_history].
    + destruct (decide (req_id req = k)) as [<-|ne].
      * destruct IH as [(?&?&?&?&?&?)|[(?&?&?&?&?)|[(?&?&?&?&?)|(?&?&?&?&?)]]]; try done.
        right; left. split_and!; try lia; [set_solver| |done].
        exists req. split; [|done]. rewrite gms_add_elem. by right.
      * rewrite !Nat.add_0_r.
        assert (∀ Q : Prop, (∃ r, r ∈ Bank.requests (BankSys.bank s1) ⊎ {[+ req +]} ∧ req_id r = k) ↔
                 ∃ r, r ∈ Bank.requests (BankSys.bank s1) ∧ req_id r = k) as E.
        { intros _. split; intros (r & Hr' & E); exists r; rewrite gms_add_elem in *; [|tauto].
          destruct Hr' as [?| ->]; [done|congruence]. }
        rewrite (E True). rewrite elem_of_union, elem_of_singleton.
        assert (k ≠ req_id req) by congruence. tauto.
    + assert ((∃ r, r ∈ Bank.replies (BankSys.bank s1) ⊎ {[+ reply +]} ∧ reply_id r = k) ↔
                 (∃ r, r ∈ Bank.replies (BankSys.bank s1) ∧ reply_id r = k) ∨ reply_id reply = k) as E1.
      { split; [intros (r & Hr' & E)|intros [(r & Hr' & E)|E]].
        - rewrite gms_add_elem in Hr'. destruct Hr' as [?| ->]; [left; eauto|by right].
        - exists r. rewrite gms_add_elem. auto.
        - exists reply. rewrite gms_add_elem. auto. }
      assert ((∃ r, r ∈ Bank.requests (BankSys.bank s1) ∖ {[+ req +]} ∧ req_id r = k) ↔
                 (∃ r, r ∈ Bank.requests (BankSys.bank s1) ∧ req_id r = k) ∧ req_id req ≠ k) as E2.
      { split; [intros (r & Hr' & E)|intros [(r & Hr' & E) ne]].
        - rewrite gms_diff_elem in Hr' by done. destruct Hr' as [? ne]. split; [eauto|].
          intros E'. apply ne. apply Hu1; [done..|congruence].
        - exists r. rewrite gms_diff_elem by done. split; [|done]. split; [done|congruence]. }
      rewrite E1, E2. rewrite <- Hid.
      destruct (decide (req_id req = k)) as [<-|ne]; [|rewrite !Nat.add_0_r; tauto].
      destruct IH as [(?&?&?&Hno&?&?)|[(?&?&?&?&?&?)|[(?&?&?&?&Hno&?)|(?&?&?&?&Hno&?)]]];
        [by destruct (Hno (Hh1 _ Hin))| |by destruct (Hno (ex_intro _ req (conj Hin eq_refl)))..].
      right; right; left. split_and!; try lia; try done; first [by intros [_ ?]|by right].
    + assert ((∃ r', r' ∈ Bank.replies (BankSys.bank s1) ∖ {[+ r +]} ∧ reply_id r' = k) ↔
                 (∃ r', r' ∈ Bank.replies (BankSys.bank s1) ∧ reply_id r' = k) ∧ reply_id r ≠ k) as E2.
      { split; [intros (r' & Hr' & E)|intros [(r' & Hr' & E) ne]].
        - rewrite gms_diff_elem in Hr' by done. destruct Hr' as [? ne]. split; [eauto|].
          intros E'. apply ne. apply Hu2; [done..|congruence].
        - exists r'. rewrite gms_diff_elem by done. split; [|done]. split; [done|congruence]. }
      rewrite E2. destruct (decide (reply_id r = k)) as [<-|ne]; [|rewrite !Nat.add_0_r; tauto].
      destruct IH as [(?&?&?&?&?&Hno)|[(?&?&?&?&?&Hno)|[(?&?&?&?&?&?)|(?&?&?&?&?&Hno)]]];
        [by destruct (Hno (ex_intro _ r (conj Hin eq_refl)))..| |by destruct (Hno (ex_intro _ r (conj Hin eq_refl)))].
      right; right; right. split_and!; try lia; try done.
Qed.

(** Where what is pending comes from. *)
Lemma sys_origin n v y0 ls y :
  BankSys.initialize y0 n v → run BankSys.next y0 ls y →
  (∀ req, req ∈ Bank.requests (BankSys.bank y) → ∃ i, ls !! i = Some (RequestOp req)) ∧
  (∀ r, r ∈ Bank.replies (BankSys.bank y) → ∃ i j req, i < j ∧ ls !! i = Some (RequestOp req) ∧
      ls !! j = Some (ExecuteOp req r) ∧ req_id req = reply_id r).
Proof.
  intros Hi Hr. induction Hr as [s|s ls s1 l s2 Hr IH Hn].
  - destruct Hi as [E _]. unfold Bank.initialize in E. rewrite E. cbn. split; intros; multiset_solver.
  - specialize (IH Hi) as [IH1 IH2].
    pose proof (sys_reach _ _ _ _ _ Hi Hr) as (Hm1&Hm2&Hu1&Hu2&Hd&Hh1&Hh2).
    assert (∀ i x, ls !! i = Some x → (ls ++ [l]) !! i = Some x) as Hold.
    { intros i x. apply lookup_app_l_Some. }
    assert ((ls ++ [l]) !! length ls = Some l) as Hnew by (by apply list_lookup_middle).
    apply sys_step_iff in Hn. destruct Hn as [req Hnew' ->|req reply m' Hin Hid Hm ->|r Hin ->];
      cbn [BankSys.bank Bank.requests Bank.replies].
    + split.
      * intros r. rewrite gms_add_elem. intros [[i Hr']%IH1| ->]; eauto.
      * intros r (i&j&req'&?&?&?&?)%IH2. exists i, j, req'. split_and!; auto.
    + split.
      * intros r. rewrite gms_diff_elem by done. intros [[i Hr']%IH1 _]; eauto.
      * intros r. rewrite gms_add_elem. intros [(i&j&req'&?&?&?&?)%IH2| ->].
        -- exists i, j, req'. split_and!; auto.
        -- destruct (IH1 _ Hin) as [i Hi']. exists i, (length ls), req.
           split_and!; auto. by apply lookup_lt_Some in Hi'.
    + split.
      * intros r' [i Hr']%IH1; eauto.
      * intros r'. rewrite gms_diff_elem by done. intros [(i&j&req'&?&?&?&?)%IH2 _].
        exists i, j, req'. split_and!; auto.
Qed.

Lemma sys_reply_origin n v y0 ls y r k :
  BankSys.initialize y0 n v → run BankSys.next y0 ls y → ls !! k = Some (ReplyOp r) →
  ∃ i j req, i < j < k ∧ ls !! i = Some (RequestOp req) ∧ ls !! j = Some (ExecuteOp req r) ∧
    req_id req = reply_id r.
Proof.
  intros Hi Hr. revert k. induction Hr as [s|s ls s1 l s2 Hr IH Hn]; intros k Hk; [done|].
  destruct (decide (k < length ls)) as [Hlt|Hge].
  - rewrite lookup_app_l in Hk by done. destruct (IH Hi k Hk) as (i&j&req&?&H1&H2&?).
    exists i, j, req. split; [done|]. rewrite !lookup_app_l by lia. done.
  - assert (k = length ls) as ->.
    { apply lookup_lt_Some in Hk. rewrite app_length in Hk. cbn in Hk. lia. }
    rewrite list_lookup_middle in Hk by done. simplify_eq.
    apply sys_step_iff in Hn. inversion Hn; subst.
    destruct (proj2 (sys_origin _ _ _ _ _ Hi Hr) r) as (i&j&req&?&H1&H2&?); [done|].
    exists i, j, req. pose proof (lookup_lt_Some _ _ _ H2). split; [lia|].
    rewrite !lookup_app_l by lia. done.
Qed.
