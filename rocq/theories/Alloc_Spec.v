(** What a user of the page allocator relies on (C32). *)
From Verif Require Import Alloc_Model.

(** In the history [tr] some call in between positions [i] and [j] satisfies [P]. *)
Definition between {L} (tr : list L) (i j : nat) (P : L → Prop) : Prop :=
  ∃ k l, i < k < j ∧ tr !! k = Some l ∧ P l.
(** Just before position [j], unit [u] is the one given last and not given up. *)
Definition holds_unit (tr : list XAlloc.Label) (j : nat) (u : nat) (since : nat) : Prop :=
  since < j ∧ (∃ n, tr !! since = Some (XAlloc.Give n) ∧ N.to_nat n = u) ∧
  ¬ between tr since j (λ l, l = XAlloc.Reset).
(** The pages taken since position [i]. *)
Definition takes (tr : list XAlloc.Label) : list Address :=
  omap (λ l, match l with XAlloc.Take a => Some a | _ => None end) tr.
(** The specification's calls that an executable call amounts to. *)
Definition as_spec_calls (m : MiniAllocator) (l : XAlloc.Label) : list MAlloc.Label :=
  match l with
  | XAlloc.Give u => [MAlloc.Give {[N.to_nat u]}]
  | XAlloc.Take a => [MAlloc.Take a; MAlloc.Observe a]
  | XAlloc.Reset => [MAlloc.Prune (dom (allocs m))]
  end.
