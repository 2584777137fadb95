(** What the claims about the bank example say, independently of how the bank
    works. *)
From Verif Require Export Bank_Model.

(** All the money in a table of balances. *)
Definition money (m : gmap N N) : N := map_fold (λ _ a s, (a + s)%N) 0%N m.

(** The balances after one operation took effect, and after a history of them:
    a successful transfer moves its amount, nothing else changes a balance. *)
Definition effect (m : gmap N N) (l : BankLabel) : gmap N N :=
  match l with
  | ExecuteOp (mkRequest (mkInput f t a) _) (mkReply true _) =>
      <[t := (default 0 (m !! t) + a)%N]> (<[f := (default 0 (m !! f) - a)%N]> m)
  | _ => m
  end.
Definition balances (total_accounts initial : N) (ls : list BankLabel) : gmap N N :=
  fold_left effect ls (gset_to_gmap initial (below total_accounts)).

(** How often a history asks, decides and answers the request numbered [k]. *)
Definition asks (k : N) (l : BankLabel) : nat :=
  match l with RequestOp r => if decide (req_id r = k) then 1 else 0 | _ => 0 end.
Definition decides (k : N) (l : BankLabel) : nat :=
  match l with ExecuteOp r _ => if decide (req_id r = k) then 1 else 0 | _ => 0 end.
Definition answers (k : N) (l : BankLabel) : nat :=
  match l with ReplyOp r => if decide (reply_id r = k) then 1 else 0 | _ => 0 end.
Definition times (f : BankLabel → nat) (ls : list BankLabel) : nat := sum_list_with f ls.

(** Any request at all. *)
Definition is_request (l : BankLabel) : nat := match l with RequestOp _ => 1 | _ => 0 end.

(** What the clients see of a run of the program. *)
Definition clients (ls : list SimpleBank.Label) : list BankLabel :=
  omap (λ l, match l with SimpleBank.Client b => Some b | _ => None end) ls.

(** The balances as they stand in the vector of accounts, when no writer has
    taken one out. *)
Definition stands_at (s : SimpleBank.State) (m : gmap N N) : Prop :=
  ∀ i a, m !! i = Some a ↔ ∃ r, SimpleBank.slots s !! i = Some (SimpleBank.Free a r).
Definition no_writer (s : SimpleBank.State) : Prop :=
  ∀ i, SimpleBank.slots s !! i ≠ Some SimpleBank.Taken.

(** No thread is in the middle of a call. *)
Definition all_idle (s : SimpleBank.State) : Prop := ∀ t, SimpleBank.pc s t = SimpleBank.Idle.

(** The sum of the balances of the accounts [i .. upto-1]. *)
Definition sum_of (m : gmap N N) (i upto : N) : N :=
  foldr (λ k s, (default 0 (m !! (i + N.of_nat k)%N) + s)%N) 0%N (seq 0 (N.to_nat (upto - i))).

(** No successful transfer among the steps. *)
Definition no_transfer (ls : list SimpleBank.Label) : Prop :=
  ∀ req reply, SimpleBank.Client (ExecuteOp req reply) ∈ ls → succeeded reply = false.
