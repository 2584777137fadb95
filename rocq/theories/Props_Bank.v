(** * C36: the bank example *)
From Verif Require Import AsyncDisk_Proof Bank_Example.
Import SimpleBank.

(** ** The trusted specification *)

(** FINDING. As written the specification lets a transfer from an account to itself
    create money: one account with 5, and a "transfer" of 3 from it to itself
    leaves 8. *)
Theorem C36_spec_creates_money_refuted :
  ∃ s0 ls s, BankSpec.initialize s0 1 5 ∧ run (BankSpec.next false) s0 ls s ∧
    money (BankSpec.accounts s0) = 5%N ∧ money (BankSpec.accounts s) = 8%N.
Proof. exact (ex_intro _ _ (ex_intro _ _ (ex_intro _ _ (conj eq_refl (conj self_run (conj eq_refl eq_refl)))))). Qed.
Print Assumptions C36_spec_creates_money_refuted.

(** With the guard that the two accounts differ, it conserves money, and no account
    appears or disappears. *)
Theorem C36_spec_conserves_money total initial s0 ls s :
  BankSpec.initialize s0 total initial → run (BankSpec.next true) s0 ls s →
  money (BankSpec.accounts s) = (initial * total)%N ∧ dom (BankSpec.accounts s) = below total.
Proof. exact (spec_conserves total initial s0 ls s). Qed.
Print Assumptions C36_spec_conserves_money.
Example C36_spec_conserves_money_example :
  ∃ s0 s, BankSpec.initialize s0 3 10 ∧ run (BankSpec.next true) s0 (clients story_labels) s.
Proof.
  destruct (prog_refines 3 10 story_labels story_end ltac:(done) story_run ltac:(done)) as (y0&y&Hi&Hr&_).
  destruct (sys_refines _ _ _ _ _ Hi Hr) as (s0&?&?). by exists s0, (Bank.i (BankSys.bank y)).
Qed.

(** ** The bank under the auditor's system model *)

(** Every behaviour is one of the specification, with the same requests,
    executions and replies, also of the one that lets no account pay itself. *)
Theorem C36_system_refines_spec total initial y0 ls y :
  BankSys.initialize y0 total initial → run BankSys.next y0 ls y →
  ∃ s0 s, BankSpec.initialize s0 total initial ∧
    run (BankSpec.next false) s0 ls s ∧ run (BankSpec.next true) s0 ls s ∧
    BankSpec.accounts s = Bank.account_map (BankSys.bank y).
Proof.
  exact (λ Hi Hr, match sys_refines total initial y0 ls y Hi Hr with
    | ex_intro _ s0 (conj H0 Hs) =>
        ex_intro _ s0 (ex_intro _ _ (conj H0 (conj (spec_run_weaken _ _ _ Hs) (conj Hs eq_refl)))) end).
Qed.
Print Assumptions C36_system_refines_spec.

(** Money is conserved. *)
Theorem C36_system_conserves_money total initial y0 ls y :
  BankSys.initialize y0 total initial → run BankSys.next y0 ls y →
  money (Bank.account_map (BankSys.bank y)) = (initial * total)%N ∧
  dom (Bank.account_map (BankSys.bank y)) = below total.
Proof. exact (sys_conserves total initial y0 ls y). Qed.
Print Assumptions C36_system_conserves_money.

(** The balances are what the executed transfers, in their order, make them. *)
Theorem C36_system_balances total initial y0 ls y :
  BankSys.initialize y0 total initial → run BankSys.next y0 ls y →
  Bank.account_map (BankSys.bank y) = balances total initial ls.
Proof. exact (sys_balances total initial y0 ls y). Qed.
Print Assumptions C36_system_balances.

(** Each id is asked at most once, decided at most as often as it was asked, and
    answered at most as often as it was decided, *)
Theorem C36_system_answers_at_most_once total initial y0 ls y k :
  BankSys.initialize y0 total initial → run BankSys.next y0 ls y →
  times (answers k) ls ≤ times (decides k) ls ≤ times (asks k) ls ∧ times (asks k) ls ≤ 1.
Proof.
  intros Hi Hr. destruct (sys_stage total initial y0 ls y k Hi Hr) as [(->&->&->&_)|[(->&->&->&_)|[(->&->&->&_)|(->&->&->&_)]]];
    repeat split; auto.
Qed.
Print Assumptions C36_system_answers_at_most_once.

(** and a reply that is delivered is the one decided on, after the request, for
    the request with the same id. *)
Theorem C36_system_replies_are_decisions total initial y0 ls y r k :
  BankSys.initialize y0 total initial → run BankSys.next y0 ls y → ls !! k = Some (ReplyOp r) →
  ∃ i j req, i < j < k ∧ ls !! i = Some (RequestOp req) ∧ ls !! j = Some (ExecuteOp req r) ∧
    req_id req = reply_id r.
Proof. exact (sys_reply_origin total initial y0 ls y r k). Qed.
Print Assumptions C36_system_replies_are_decisions.
Example C36_system_example :
  ∃ y0 y, BankSys.initialize y0 3 10 ∧ run BankSys.next y0 (clients story_labels) y ∧
    clients story_labels = [RequestOp rq; ExecuteOp rq rp; ReplyOp rp].
Proof.
  destruct (prog_refines 3 10 story_labels story_end ltac:(done) story_run ltac:(done)) as (y0&y&Hi&Hr&_).
  by exists y0, y.
Qed.

(** ** The multi-threaded program, for every interleaving of its threads

    The hypothesis on the number of requests is the width of the request counter. *)

(** What clients see is a behaviour of the system model. *)
Theorem C36_program_refines_system total initial ls s :
  (initial ≤ u32_max)%N → run next (new total initial) ls s →
  (N.of_nat (times is_request (clients ls)) ≤ u64_max)%N →
  ∃ y0 y, BankSys.initialize y0 total initial ∧ run BankSys.next y0 (clients ls) y.
Proof.
  exact (λ Hv Hr Hb, match prog_refines total initial ls s Hv Hr Hb with
    | ex_intro _ y0 (ex_intro _ y (conj Hi (conj Hy _))) => ex_intro _ y0 (ex_intro _ y (conj Hi Hy)) end).
Qed.
Print Assumptions C36_program_refines_system.
Example C36_program_refines_system_example :
  run next (new 3 10) story_labels story_end ∧ (10 ≤ u32_max)%N ∧
  (N.of_nat (times is_request (clients story_labels)) ≤ u64_max)%N.
Proof. split; [exact story_run|]. split; vm_compute; discriminate. Qed.

(** Whenever no thread holds an account for writing, the balances in memory are
    those that the executed transfers make, and together they are what the bank
    started with. *)
Theorem C36_program_conserves_money total initial ls s :
  (initial ≤ u32_max)%N → run next (new total initial) ls s →
  (N.of_nat (times is_request (clients ls)) ≤ u64_max)%N → no_writer s →
  stands_at s (balances total initial (clients ls)) ∧
  money (balances total initial (clients ls)) = (initial * total)%N.
Proof. exact (prog_stands total initial ls s). Qed.
Print Assumptions C36_program_conserves_money.
Example C36_program_conserves_money_example :
  run next (new 3 10) story_labels story_end ∧ no_writer story_end.
Proof.
  split; [exact story_run|]. intros i Hi.
  assert (map_Forall (λ _ sl, sl ≠ Taken) (slots story_end)) as Hf.
  { apply (bool_decide_eq_true_1 _). vm_compute. reflexivity. }
  exact (Hf i Taken Hi eq_refl).
Qed.

(** No balance exceeds 32 bits, and no thread is ever about to subtract below zero
    or add beyond 32 bits. *)
Theorem C36_program_never_overflows total initial ls s :
  (initial ≤ u32_max)%N → run next (new total initial) ls s →
  (N.of_nat (times is_request (clients ls)) ≤ u64_max)%N →
  (∀ i a r, slots s !! i = Some (Free a r) → (a ≤ u32_max)%N) ∧ ∀ t, ¬ panics s t.
Proof. exact (prog_bounds total initial ls s). Qed.
Print Assumptions C36_program_never_overflows.

(** A transfer succeeds exactly if the two accounts exist and differ, the payer has
    the amount, and the payee's balance stays within 32 bits, all at the moment of
    the decision. *)
Theorem C36_program_decides_exactly total initial ls s s' req reply :
  (initial ≤ u32_max)%N → run next (new total initial) ls s →
  (N.of_nat (times is_request (clients ls)) ≤ u64_max)%N →
  next s s' (Client (ExecuteOp req reply)) →
  reply_id reply = req_id req ∧
  (succeeded reply = true ↔
   from (input req) ≠ to (input req) ∧
   ∃ fa ta, balances total initial (clients ls) !! from (input req) = Some fa ∧
            balances total initial (clients ls) !! to (input req) = Some ta ∧
            (amt (input req) ≤ fa)%N ∧ (ta + amt (input req) ≤ u32_max)%N).
Proof. exact (prog_decides total initial ls s s' req reply). Qed.
Print Assumptions C36_program_decides_exactly.
Example C36_program_decides_exactly_example :
  (∃ ls s s', run next (new 3 10) ls s ∧ next s s' (Client (ExecuteOp rq rp))) ∧
  (∃ ls s s', run next (new 3 10) ls s ∧ next s s' (Client (ExecuteOp rq2 rp2))).
Proof.
  assert (∀ ls s l k, run next (new 3 10) ls s → ls !! k = Some l →
            ∃ ls1 s1 s2, run next (new 3 10) ls1 s1 ∧ next s1 s2 l) as H.
  { intros ls s l k Hr. revert k. induction Hr as [s|s ls s1 l' s2 Hr IH Hn]; intros k Hk; [done|].
    apply lookup_snoc_Some in Hk as [[_ Hk]|[_ <-]]; [by eapply IH|]. by exists ls, s1, s2. }
  split; [by eapply (H _ _ _ 6 whole_run)|by eapply (H _ _ _ 22 whole_run)].
Qed.

(** The threads never block each other for good: from every state reached, the
    calls under way can all finish, without any further request, *)
Theorem C36_program_calls_can_finish total initial ls s :
  (initial ≤ u32_max)%N → run next (new total initial) ls s →
  (N.of_nat (times is_request (clients ls)) ≤ u64_max)%N →
  ∃ ls' s', run next s ls' s' ∧ all_idle s' ∧ times is_request (clients ls') = 0.
Proof. exact (prog_finishes total initial ls s). Qed.
Print Assumptions C36_program_calls_can_finish.
Example C36_program_calls_can_finish_example : run next (new 3 10) jam_labels jam_end.
Proof. exact jam_run. Qed.

(** in fact as long as a call is under way, some thread can go on with its call, *)
Theorem C36_program_never_deadlocks total initial ls s t :
  (initial ≤ u32_max)%N → run next (new total initial) ls s →
  (N.of_nat (times is_request (clients ls)) ≤ u64_max)%N → pc s t ≠ Idle →
  ∃ t' s' l, progress t' s s' l.
Proof.
  exact (λ Hv Hr Hb, match prog_refines total initial ls s Hv Hr Hb with
    | ex_intro _ y0 (ex_intro _ y (conj _ (conj _ (conj HR _)))) => busy_steps total s y HR t end).
Qed.
Print Assumptions C36_program_never_deadlocks.
Example C36_program_never_deadlocks_example : pc jam_end 1 ≠ Idle ∧ pc jam_end 2 ≠ Idle.
Proof. by vm_compute. Qed.

(** and once they have, every request has been decided and answered exactly once. *)
Theorem C36_program_answers_exactly_once total initial ls s k :
  (initial ≤ u32_max)%N → run next (new total initial) ls s →
  (N.of_nat (times is_request (clients ls)) ≤ u64_max)%N → all_idle s →
  times (decides k) (clients ls) = times (asks k) (clients ls) ∧
  times (answers k) (clients ls) = times (asks k) (clients ls) ∧ times (asks k) (clients ls) ≤ 1.
Proof. exact (prog_idle_answered total initial ls s k). Qed.
Print Assumptions C36_program_answers_exactly_once.
Example C36_program_answers_exactly_once_example :
  run next (new 3 10) story_labels story_end ∧ all_idle story_end ∧ times (asks 0) (clients story_labels) = 1.
Proof.
  split; [exact story_run|]. split; [|reflexivity]. intros t.
  assert (map_Forall (λ _ p, p = Idle) (threads story_end)) as Hf.
  { apply (bool_decide_eq_true_1 _). vm_compute. reflexivity. }
  unfold pc. destruct (threads story_end !! t) as [p|] eqn:E; [|done]. exact (Hf t p E).
Qed.

(** FINDING. The bound on the number of requests is needed: the counter wraps
    around, and a request id is handed out again. *)
Theorem C36_request_ids_wrap_refuted :
  ∃ ls s, run next (new 1 0) ls s ∧ 2 ≤ times (asks 0) (clients ls).
Proof. exact ids_wrap. Qed.
Print Assumptions C36_request_ids_wrap_refuted.

(** ** Reading balances *)

(** If no transfer takes effect between the call and the return, [get_total]
    ([i = 0], [upto] the number of accounts) and [check_value] ([upto = i + 1]) return
    the sum of the balances asked for, if it fits 64 bits. *)
Theorem C36_sum_is_exact total initial ls mid s t i upto w :
  (initial ≤ u32_max)%N →
  run next (new total initial) (ls ++ [StartSum t i upto] ++ mid ++ [EndSum t w]) s →
  (N.of_nat (times is_request (clients (ls ++ mid))) ≤ u64_max)%N →
  no_transfer mid → (∀ w', EndSum t w' ∉ mid) →
  (sum_of (balances total initial (clients ls)) i upto ≤ u64_max)%N →
  w = sum_of (balances total initial (clients ls)) i upto.
Proof. exact (prog_sum total initial ls mid s t i upto w). Qed.
Print Assumptions C36_sum_is_exact.
Example C36_sum_is_exact_example :
  run next (new 3 10) (story_labels ++ [StartSum 3 0 3] ++ more_mid ++ [EndSum 3 30]) more_end ∧
  no_transfer more_mid ∧ (∀ w', EndSum 3 w' ∉ more_mid).
Proof.
  split; [exact whole_run|]. unfold no_transfer, more_mid. split.
  - intros req reply. rewrite !elem_of_cons, elem_of_nil. intros H.
    repeat (destruct H as [H|H]; [simplify_eq; done|]). done.
  - intros w'. rewrite !elem_of_cons, elem_of_nil. intuition discriminate.
Qed.

(** FINDING (the code's own comment says "not thread safe"). With a transfer in
    between, [get_total] returns a sum the bank never had: 26 of 30. *)
Theorem C36_total_during_transfer_refuted :
  ∃ mid s, run next (new 3 10) ([StartSum 1 0 3] ++ mid ++ [EndSum 1 26]) s ∧
    ∀ k, money (balances 3 10 (clients (take k mid))) = 30%N.
Proof.
  exists [Silent; Silent; Client (RequestOp rq); Silent; Silent; Client (ExecuteOp rq rp); Silent; Silent;
          Client (ReplyOp rp); Silent; Silent; Silent; Silent; Silent], story_end.
  split; [exact story_run|]. intros k. do 15 (destruct k as [|k]; [by vm_compute|]). by vm_compute.
Qed.
Print Assumptions C36_total_during_transfer_refuted.
