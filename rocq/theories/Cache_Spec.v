(** Small specification of a page store with a volatile part (C26), stated on
    what a client of the page cache sees. *)
From Verif Require Import Disk_Model Cache_Model.
Open Scope nat_scope.

Notation trace := (list CacheSys.Label).
(** The event at position [k] writes [d] to page [a]. *)
Definition writes_at (tr : trace) (k : nat) (a : Address) (d : RawPage) : Prop :=
  ∃ r w, tr !! k = Some (CacheSys.Access r w) ∧ w !! a = Some d.
(** At position [m] the client was told that page [a] needs no write back. *)
Definition checked_at (tr : trace) (m : nat) (a : Address) : Prop :=
  ∃ addrs, tr !! m = Some (CacheSys.EvictableCheck addrs) ∧ a ∈ addrs.
(** A write at position [k] may be missing at position [j]: there was a crash in
    between, and no check of that page between the write and the crash. *)
Definition may_be_lost (tr : trace) (a : Address) (k j : nat) : Prop :=
  ∃ c, k < c < j ∧ tr !! c = Some CacheSys.Crash ∧ ∀ m, k < m < c → ¬ checked_at tr m a.
(** Page [a] may hold [d] just before position [j]: [d] was written there, or was
    there at the start, and every later write may have been lost in a crash. *)
Definition may_hold (c0 : gmap Address RawPage) (tr : trace) (j : nat) (a : Address) (d : RawPage) : Prop :=
  (c0 !! a = Some d ∧ ∀ k d', k < j → writes_at tr k a d' → may_be_lost tr a k j) ∨
  (∃ i, i < j ∧ writes_at tr i a d ∧ ∀ k d', i < k < j → writes_at tr k a d' → may_be_lost tr a k j).
(** Page [a] may still be a page that nobody ever wrote. *)
Definition may_be_unwritten (c0 : gmap Address RawPage) (tr : trace) (j : nat) (a : Address) : Prop :=
  c0 !! a = None ∧ ∀ k d', k < j → writes_at tr k a d' → may_be_lost tr a k j.

(** Without crashes: the content of page [a] after [tr]. *)
Definition page_after (c0 : gmap Address RawPage) (tr : trace) (a : Address) : option RawPage :=
  fold_left (λ acc e, match e with
                      | CacheSys.Access _ w => match w !! a with Some d => Some d | None => acc end
                      | _ => acc
                      end) tr (c0 !! a).

(** Slot [s] holds page [a]; with its content [d]. *)
Definition slot_for (c : Cache.State) (s : Slot) (a : Address) : Prop :=
  ∃ e, Cache.entries c !! s = Some e ∧ get_addr e = Some a.
Definition slot_holds (c : Cache.State) (s : Slot) (a : Address) (d : RawPage) : Prop :=
  Cache.entries c !! s = Some (Filled a d).
Definition slot_empty (c : Cache.State) (s : Slot) : Prop := Cache.entries c !! s = Some Empty.
Definition only_internal (ls : trace) : Prop := Forall (λ l, l = CacheSys.Internal) ls.
(** The pages in [X] are all in the cache. *)
Definition in_cache (c : Cache.State) (X : gset Address) : Prop := ∀ a, a ∈ X → ∃ k, slot_for c k a.
(** Slot [k] can be given to another page: it is not reserved for a write to come,
    and the page it holds, if any, is one the disk has. *)
Definition usable `{Geometry} (c : Cache.State) (k : Slot) : Prop :=
  ∃ e, Cache.entries c !! k = Some e ∧ (∀ a, e ≠ Reserved a) ∧ (∀ a, get_addr e = Some a → addr_wf a).
(** No slot is reserved for a write to page [a]. *)
Definition not_reserved (c : Cache.State) (a : Address) : Prop := ∀ k, Cache.entries c !! k ≠ Some (Reserved a).
