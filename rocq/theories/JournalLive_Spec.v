(** Vocabulary of C49: when the journal can write another page. *)
From Verif Require Import CrashJournal_Model.
From Verif Require Export CrashJournal_Spec.
Open Scope nat_scope.

(** Steps the journal takes on its own and the steps of a commit: no client
    request, no crash. *)
Definition quiet (l : AllocCrash.Label) : Prop :=
  match l with
  | AllocCrash.Internal _ _ | AllocCrash.CommitStart _ _ | AllocCrash.CommitComplete _ _ => True
  | _ => False
  end.

Section Room.
Context `{Geometry}.
(** The journal holds a unit it can write the next page to: one it is filling, or
    one nothing was ever written to. *)
Definition holds_room (m : MiniAllocator) : Prop :=
  is_Some (curr m) ∨ ∃ u p, allocs m !! u = Some p ∧ all_pages_free p ∧ addr_wf (mkAddr u 0).
(** It holds one, or the device has a unit the journal does not use. *)
Definition alloc_room (s : AllocCrash.State) : Prop :=
  ∃ v, AllocCrash.ephemeral s = Some v ∧
    (holds_room (AllocJournal.mini_allocator v) ∨
     ∃ u, addr_wf (mkAddr u 0) ∧ u ∉ AllocJournal.accessible_aus v ∧
       u ∉ img_accessible_aus (AllocCrash.persistent s) ∧
       ∀ f, AllocCrash.inflight s = Some f → u ∉ img_accessible_aus f).
Definition unified_room (s : Unified.State) : Prop :=
  ∃ v, Unified.ephemeral s = Some v ∧
    (holds_room (es_alloc v) ∨
     ∃ u, addr_wf (mkAddr u 0) ∧ u ∉ AllocJournal.accessible_aus (to_aj v (Unified.dv s))).
End Room.

(** No truncation point of a durable image is past [b]. *)
Definition alloc_durable_from (s : AllocCrash.State) (b : LSN) : Prop :=
  ∀ i, i = AllocCrash.persistent s ∨ AllocCrash.inflight s = Some i → Linked.tj_seq_start (img_tj i) ≤ b.
Definition unified_durable_from (s : Unified.State) (b : LSN) : Prop :=
  ∀ i, durable_image s i → is_boundary i ≤ b.
