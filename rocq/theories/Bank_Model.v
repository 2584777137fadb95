(** Model of the bank example, Splinter/src/example: the trusted specification
    (BankSpec_t.rs), the tokenized state machine (Bank_v.rs), the auditor's system
    model (BankContract_t.rs) and the multi-threaded program (SimpleBank_v.rs with
    ClientAPI_t.rs). Definitions only. *)
From stdpp Require Export gmultiset.
From Verif Require Export Spec_Model.

(** BankSpec_t.rs 12-16: [usize], [usize], [u32]; the widths are stated where the
    program relies on them ([SimpleBank.input_ok]). *)
Record Input := mkInput { from : N; to : N; amt : N }.
(** 22-25; the id is a [u64] *)
Record Request := mkRequest { input : Input; req_id : N }.
(** 18-20, 27-30: the one field of [Output] is inlined. *)
Record Reply := mkReply { succeeded : bool; reply_id : N }.

(** Decidable equality and countability, for use in finite sets. *)
(** Decidable equality, or an order's decision procedure: no counterpart in /repo. *)
Global Instance Input_eq_dec : EqDecision Input.
Proof. solve_decision. Defined.
(** Decidable equality, or an order's decision procedure: no counterpart in /repo. *)
Global Instance Request_eq_dec : EqDecision Request.
Proof. solve_decision. Defined.
(** Countability, for std++'s finite maps: no counterpart in /repo. *)
Global Instance Request_countable : Countable Request.
Proof.
  refine (inj_countable' (λ r, (from (input r), to (input r), amt (input r), req_id r))
            (λ t, mkRequest (mkInput t.1.1.1 t.1.1.2 t.1.2) t.2) _).
  by intros [[] ?].
Defined.
(** Decidable equality, or an order's decision procedure: no counterpart in /repo. *)
Global Instance Reply_eq_dec : EqDecision Reply.
Proof. solve_decision. Defined.
(** Countability, for std++'s finite maps: no counterpart in /repo. *)
Global Instance Reply_countable : Countable Reply.
Proof.
  refine (inj_countable' (λ r, (succeeded r, reply_id r)) (λ t, mkReply t.1 t.2) _).
  by intros [].
Defined.

(** BankSpec_t.rs 39-43. The three label types BankSpec_t.rs 39-43, Bank_v.rs 36-40
    and BankContract_t.rs 13-19 have the same cases, and the translations between
    them (BankObligations_v.rs 12-31) rename the cases one to one, so the model has
    one label type. *)
Inductive BankLabel :=
  | RequestOp (req : Request)
  | ExecuteOp (req : Request) (reply : Reply)
  | ReplyOp (reply : Reply).

(** The account numbers below [n]: [acc < total_accounts], BankSpec_t.rs 46. *)
Definition below (n : N) : gset N := list_to_set (N.of_nat <$> seq 0 (N.to_nat n)).
(** BankSpec_t.rs 46, Bank_v.rs 45: accounts [0 .. total-1], all with one amount. *)
Definition new_accounts (total_accounts : N) (initial_value : N) : gmap N N :=
  gset_to_gmap initial_value (below total_accounts).

(** ** The trusted specification *)
Module BankSpec.
  (** BankSpec_t.rs 33-37 *)
  Record State := mk { accounts : gmap N N; requests : gset Request; replies : gset Reply }.
  (** 45-49 *)
  Definition initialize (s : State) (total_accounts initial_value : N) : Prop :=
    s = mk (new_accounts total_accounts initial_value) ∅ ∅.
  (** 51-55 *)
  Definition request (pre post : State) (l : BankLabel) : Prop :=
    ∃ req, l = RequestOp req ∧
      (∀ r, r ∈ requests pre → req_id r ≠ req_id req) ∧
      post = mk (accounts pre) ({[req]} ∪ requests pre) (replies pre).
  (** 57-78. [distinct = false] is the code as written; [true] adds the guard
      that the two accounts differ, which the two models below have. *)
  Definition transfer (distinct : bool) (pre post : State) (l : BankLabel) : Prop :=
    ∃ req reply from_amt to_amt, l = ExecuteOp req reply ∧
      req_id req = reply_id reply ∧ succeeded reply = true ∧
      req ∈ requests pre ∧ (∀ r, r ∈ replies pre → reply_id r ≠ reply_id reply) ∧
      accounts pre !! from (input req) = Some from_amt ∧
      accounts pre !! to (input req) = Some to_amt ∧
      (amt (input req) ≤ from_amt)%N ∧
      (distinct = true → from (input req) ≠ to (input req)) ∧
      post = mk (<[to (input req) := (to_amt + amt (input req))%N]>
                   (<[from (input req) := (from_amt - amt (input req))%N]> (accounts pre)))
                (requests pre ∖ {[req]}) ({[reply]} ∪ replies pre).
  (** 80-90 *)
  Definition failed_transfer (pre post : State) (l : BankLabel) : Prop :=
    ∃ req reply, l = ExecuteOp req reply ∧
      req_id req = reply_id reply ∧ succeeded reply = false ∧
      req ∈ requests pre ∧ (∀ r, r ∈ replies pre → reply_id r ≠ reply_id reply) ∧
      post = mk (accounts pre) (requests pre ∖ {[req]}) ({[reply]} ∪ replies pre).
  (** 92-96 *)
  Definition reply (pre post : State) (l : BankLabel) : Prop :=
    ∃ r, l = ReplyOp r ∧ r ∈ replies pre ∧
      post = mk (accounts pre) (requests pre) (replies pre ∖ {[r]}).
  (** 32-97: the transitions together *)
  Definition next (distinct : bool) (pre post : State) (l : BankLabel) : Prop :=
    request pre post l ∨ transfer distinct pre post l ∨ failed_transfer pre post l ∨ reply pre post l.
End BankSpec.

(** ** The tokenized state machine *)
Module Bank.
  (** Bank_v.rs 15-34 *)
  Record State := mk { total_accounts : N; total_amount : N; account_map : gmap N N;
                       requests : gmultiset Request; replies : gmultiset Reply }.
  (** 42-48 *)
  Definition initialize (s : State) (total initial : N) : Prop :=
    s = mk total (initial * total) (new_accounts total initial) ∅ ∅.
  (** 50-53 *)
  Definition request (pre post : State) (l : BankLabel) : Prop :=
    ∃ req, l = RequestOp req ∧
      post = mk (total_accounts pre) (total_amount pre) (account_map pre)
                (requests pre ⊎ {[+ req +]}) (replies pre).
  (** 55-75. A token taken out ([remove account_map -= [k => let v]]) has to be in
      the map and is gone for what follows, so the second [remove] fails when the
      two accounts are the same; the two [add]s need absent keys. *)
  Definition transfer (pre post : State) (l : BankLabel) : Prop :=
    ∃ req reply from_amt to_amt, l = ExecuteOp req reply ∧
      req ∈ requests pre ∧
      req_id req = reply_id reply ∧ succeeded reply = true ∧
      let m0 := account_map pre in
      let f := from (input req) in let t := to (input req) in let a := amt (input req) in
      m0 !! f = Some from_amt ∧
      let m1 := delete f m0 in
      m1 !! t = Some to_amt ∧
      let m2 := delete t m1 in
      (a ≤ from_amt)%N ∧
      m2 !! f = None ∧
      let m3 := <[f := (from_amt - a)%N]> m2 in
      m3 !! t = None ∧
      let m4 := <[t := (to_amt + a)%N]> m3 in
      post = mk (total_accounts pre) (total_amount pre) m4
                (requests pre ∖ {[+ req +]}) (replies pre ⊎ {[+ reply +]}).
  (** 77-85 *)
  Definition failed_transfer (pre post : State) (l : BankLabel) : Prop :=
    ∃ req reply, l = ExecuteOp req reply ∧
      req ∈ requests pre ∧
      req_id req = reply_id reply ∧ succeeded reply = false ∧
      post = mk (total_accounts pre) (total_amount pre) (account_map pre)
                (requests pre ∖ {[+ req +]}) (replies pre ⊎ {[+ reply +]}).
  (** 87-90 *)
  Definition reply (pre post : State) (l : BankLabel) : Prop :=
    ∃ r, l = ReplyOp r ∧ r ∈ replies pre ∧
      post = mk (total_accounts pre) (total_amount pre) (account_map pre)
                (requests pre) (replies pre ∖ {[+ r +]}).
  (** 14-127: the transitions together *)
  Definition next (pre post : State) (l : BankLabel) : Prop :=
    request pre post l ∨ transfer pre post l ∨ failed_transfer pre post l ∨ reply pre post l.
  (** BankObligations_v.rs 131-138 *)
  Definition i (s : State) : BankSpec.State :=
    BankSpec.mk (account_map s) (dom (requests s)) (dom (replies s)).
End Bank.

(** ** The auditor's system model, for this bank *)
Module BankSys.
  (** BankContract_t.rs 33-36 *)
  Record State := mk { bank : Bank.State; id_history : gset N }.
  (** 40-44 *)
  Definition initialize (s : State) (total initial : N) : Prop :=
    Bank.initialize (bank s) total initial ∧ id_history s = ∅.
  (** 46-54 *)
  Definition accept_request (pre post : State) (l : BankLabel) : Prop :=
    ∃ req, l = RequestOp req ∧ req_id req ∉ id_history pre ∧
      Bank.next (bank pre) (bank post) l ∧
      id_history post = {[req_id req]} ∪ id_history pre.
  (** 56-60 *)
  Definition bank_internal (pre post : State) (l : BankLabel) : Prop :=
    (∀ req, l ≠ RequestOp req) ∧ Bank.next (bank pre) (bank post) l ∧
    id_history post = id_history pre.
  (** 32-61: the transitions together *)
  Definition next (pre post : State) (l : BankLabel) : Prop :=
    accept_request pre post l ∨ bank_internal pre post l.
End BankSys.

(** ** The multi-threaded program

    Threads share a vector of accounts, each behind a reader-writer lock, and a
    request counter. A lock operation, the counter's [fetch_add] and the thread-local
    code between two of them are one step each. Simplification: a lock is acquired
    in one step when it is available (vstd's lock spins on two atomics); a thread
    may be created at any time (an absent thread is [Idle]). *)
Module SimpleBank.
  (** SimpleBank_v.rs: [u32::MAX] at 172, [u64::MAX] at 226; ClientAPI_t.rs 25: the
      counter is a 64 bit word. *)
  Definition u32_max : N := 4294967295.
  (** [u64::MAX], SimpleBank_v.rs 226 *)
  Definition u64_max : N := 18446744073709551615.

  (** 17-20 in its lock (36): the physical value with the number of readers, or
      nothing while a writer holds the lock (the value is moved out to the writer).
      The ghost token is left out. *)
  Inductive Slot := Free (a : N) (readers : nat) | Taken.

  (** Where a thread is, with its local variables. *)
  (** The control points of SimpleBank_v.rs 125-281. *)
  Inductive PC :=
    | Idle
    (** 156-158: entered [maybe_transfer] *)
    | Received (req : Request)
    (** 162-170: one lock held, the one of the smaller account *)
    | HasFirst (req : Request) (a : N)
    (** 172: both locks held *)
    | HasBoth (req : Request) (from_a to_a : N)
    (** 191, 195: the values to put back, no lock released yet *)
    | Decided (req : Request) (from_a to_a : N) (reply : Reply)
    (** 192, 196: the lock of [from] released *)
    | ReleasedFrom (req : Request) (to_a : N) (reply : Reply)
    (** 159, 193, 197: returned, reply not sent *)
    | Answered (reply : Reply)
    (** 219-223: reading accounts [i .. upto-1]; [total] so far *)
    | Summing (i upto total : N)
    (** 224-225: read lock of [i] held *)
    | SumHeld (i upto total a : N)
    (** 229, 233: about to return [total] *)
    | SumDone (total : N).

  (** 35-38, the program counters, and the request counter of ClientAPI_t.rs 25.
      Simplification: the vector is a map from indexes below [count]. *)
  Record State := mk { slots : gmap N Slot; count : N; threads : gmap N PC; next_id : N }.

  (** What is seen of a step: [Client] steps are those of the bank's labels;
      [StartSum]/[EndSum] are the call and the return of [get_total] or
      [check_value]; [Silent] is everything else. *)
  (** What an observer sees of SimpleBank_v.rs 125-281. *)
  Inductive Label :=
    | Client (l : BankLabel)
    | StartSum (t i upto : N)
    | EndSum (t total : N)
    | Silent.

  (** The position of a thread. *)
  (** A component of the state: no counterpart in /repo. *)
  Definition pc (s : State) (t : N) : PC := default Idle (threads s !! t).
  (** Thread [t] moves to [p]; the slots become [m]. *)
  (** A step of one thread: no counterpart in /repo. *)
  Definition move (s : State) (t : N) (p : PC) (m : gmap N Slot) : State :=
    mk m (count s) (<[t := p]> (threads s)) (next_id s).

  (** 79-123: [_new] *)
  Definition new (total_accounts initial_amount : N) : State :=
    mk (gset_to_gmap (Free initial_amount 0) (below total_accounts))
       total_accounts ∅ 0.

  (** 165-170: which account is locked first and which second *)
  Definition lo (i : Input) : N := if (from i <? to i)%N then from i else to i.
  (** SimpleBank_v.rs 165-170 *)
  Definition hi (i : Input) : N := if (from i <? to i)%N then to i else from i.

  (** The types of BankSpec_t.rs 13-15. *)
  Definition input_ok (i : Input) : Prop :=
    (from i ≤ u64_max)%N ∧ (to i ≤ u64_max)%N ∧ (amt i ≤ u32_max)%N.

  (** ClientAPI_t.rs 37-59: [fetch_add] wraps around. Simplification: the input
      is any input, not the one computed from the id at 44-50. *)
  Definition receive (t : N) (i : Input) (pre post : State) (l : Label) : Prop :=
    pc pre t = Idle ∧ input_ok i ∧
    let req := mkRequest i (next_id pre) in
    l = Client (RequestOp req) ∧
    post = mk (slots pre) (count pre) (<[t := Received req]> (threads pre))
              ((next_id pre + 1) mod (u64_max + 1))%N.
  (** 158 *)
  Definition invalid (s : State) (i : Input) : Prop :=
    from i = to i ∨ (count s ≤ from i)%N ∨ (count s ≤ to i)%N.
  (** 158-160 with [failed_reply] (125-141) *)
  Definition reject (t : N) (pre post : State) (l : Label) : Prop :=
    ∃ req, pc pre t = Received req ∧ invalid pre (input req) ∧
      let reply := mkReply false (req_id req) in
      l = Client (ExecuteOp req reply) ∧ post = move pre t (Answered reply) (slots pre).
  (** 162-170, first [acquire_write] *)
  Definition lock_first (t : N) (pre post : State) (l : Label) : Prop :=
    ∃ req a, pc pre t = Received req ∧ ¬ invalid pre (input req) ∧
      slots pre !! lo (input req) = Some (Free a 0) ∧
      l = Silent ∧ post = move pre t (HasFirst req a) (<[lo (input req) := Taken]> (slots pre)).
  (** 162-170, second [acquire_write] *)
  Definition lock_second (t : N) (pre post : State) (l : Label) : Prop :=
    ∃ req a b, pc pre t = HasFirst req a ∧
      slots pre !! hi (input req) = Some (Free b 0) ∧
      l = Silent ∧
      post = move pre t
               (if (from (input req) <? to (input req))%N then HasBoth req a b else HasBoth req b a)
               (<[hi (input req) := Taken]> (slots pre)).
  (** 172 *)
  Definition enough (req : Request) (from_a to_a : N) : Prop :=
    (amt (input req) ≤ from_a)%N ∧ (to_a ≤ u32_max - amt (input req))%N.
  (** 189-190: the new balances; [None] is the panic of a subtraction below zero
      or of an addition above [u32::MAX]. *)
  Definition new_balances (req : Request) (from_a to_a : N) : option (N * N) :=
    if decide (amt (input req) ≤ from_a ∧ to_a + amt (input req) ≤ u32_max)%N
    then Some (from_a - amt (input req), to_a + amt (input req))%N else None.
  (** 172-190 *)
  Definition transfer (t : N) (pre post : State) (l : Label) : Prop :=
    ∃ req fa ta fa' ta', pc pre t = HasBoth req fa ta ∧ enough req fa ta ∧
      new_balances req fa ta = Some (fa', ta') ∧
      let reply := mkReply true (req_id req) in
      l = Client (ExecuteOp req reply) ∧
      post = move pre t (Decided req fa' ta' reply) (slots pre).
  (** A thread about to panic at 189-190 *)
  Definition panics (s : State) (t : N) : Prop :=
    ∃ req fa ta, pc s t = HasBoth req fa ta ∧ enough req fa ta ∧ new_balances req fa ta = None.
  (** 194-197. The ghost step of [failed_reply] is taken after the two releases;
      the model reports the failure at the decision, while the locks are held. *)
  Definition decline (t : N) (pre post : State) (l : Label) : Prop :=
    ∃ req fa ta, pc pre t = HasBoth req fa ta ∧ ¬ enough req fa ta ∧
      let reply := mkReply false (req_id req) in
      l = Client (ExecuteOp req reply) ∧
      post = move pre t (Decided req fa ta reply) (slots pre).
  (** 191, 195 *)
  Definition release_from (t : N) (pre post : State) (l : Label) : Prop :=
    ∃ req fa ta reply, pc pre t = Decided req fa ta reply ∧ l = Silent ∧
      post = move pre t (ReleasedFrom req ta reply) (<[from (input req) := Free fa 0]> (slots pre)).
  (** 192, 196 *)
  Definition release_to (t : N) (pre post : State) (l : Label) : Prop :=
    ∃ req ta reply, pc pre t = ReleasedFrom req ta reply ∧ l = Silent ∧
      post = move pre t (Answered reply) (<[to (input req) := Free ta 0]> (slots pre)).
  (** ClientAPI_t.rs 62-71 *)
  Definition send (t : N) (pre post : State) (l : Label) : Prop :=
    ∃ reply, pc pre t = Answered reply ∧ l = Client (ReplyOp reply) ∧
      post = move pre t Idle (slots pre).
  (** 213-219: [get_total] sums all accounts; 201-210: [check_value] of [id] is the
      sum of the accounts [id .. id] ([amt <= u64::MAX - 0] always holds). *)
  Definition start_sum (t i upto : N) (pre post : State) (l : Label) : Prop :=
    pc pre t = Idle ∧ (i = 0 ∧ upto = count pre ∨ i < count pre ∧ upto = i + 1)%N ∧
    l = StartSum t i upto ∧ post = move pre t (Summing i upto 0) (slots pre).
  (** 219-223 *)
  Definition sum_acquire (t : N) (pre post : State) (l : Label) : Prop :=
    ∃ i upto total a r, pc pre t = Summing i upto total ∧ (i < upto)%N ∧
      slots pre !! i = Some (Free a r) ∧ l = Silent ∧
      post = move pre t (SumHeld i upto total a) (<[i := Free a (S r)]> (slots pre)).
  (** 224-231 *)
  Definition sum_release (t : N) (pre post : State) (l : Label) : Prop :=
    ∃ i upto total a r, pc pre t = SumHeld i upto total a ∧
      slots pre !! i = Some (Free a (S r)) ∧ l = Silent ∧
      post = move pre t
               (if decide (a ≤ u64_max - total)%N then Summing (i + 1) upto (total + a) else SumDone total)
               (<[i := Free a r]> (slots pre)).
  (** 219, 233 *)
  Definition sum_finish (t : N) (pre post : State) (l : Label) : Prop :=
    ∃ i upto total, pc pre t = Summing i upto total ∧ (upto ≤ i)%N ∧ l = Silent ∧
      post = move pre t (SumDone total) (slots pre).
  (** 229, 233: the return *)
  Definition sum_return (t : N) (pre post : State) (l : Label) : Prop :=
    ∃ total, pc pre t = SumDone total ∧ l = EndSum t total ∧
      post = move pre t Idle (slots pre).

  (** One step of thread [t] that is under way with a call *)
  (** The steps of SimpleBank_v.rs 125-281 listed above. *)
  Definition progress (t : N) (pre post : State) (l : Label) : Prop :=
    reject t pre post l ∨ lock_first t pre post l ∨ lock_second t pre post l ∨
    transfer t pre post l ∨ decline t pre post l ∨ release_from t pre post l ∨
    release_to t pre post l ∨ send t pre post l ∨ sum_acquire t pre post l ∨
    sum_release t pre post l ∨ sum_finish t pre post l ∨ sum_return t pre post l.
  (** One step of some thread (the loop at 252-270 and [bank_main] 64-70) *)
  Definition next (pre post : State) (l : Label) : Prop :=
    ∃ t, (∃ i, receive t i pre post l) ∨ (∃ i upto, start_sum t i upto pre post l) ∨
         progress t pre post l.
End SimpleBank.
