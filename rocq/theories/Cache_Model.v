(** Model of Splinter/src/implementation/Cache_v.rs and of its composition with
    the disk (implementation/JournalCoordinationSystem_v.rs 228-251). Definitions
    only. A lookup [m[k]] of an absent key, arbitrary in Rust, fails the guard it
    occurs in here. *)
From Verif Require Export Disk_Model.
Open Scope Z_scope.

(** Cache_v.rs 17: [i32], as an integer with its range made explicit where the
    type matters (only in [Cache.initialize]). *)
Notation Slot := Z (only parsing).
(** [i32::MIN], for Cache_v.rs 17 *)
Definition slot_min : Z := -2147483648.
(** [i32::MAX], for Cache_v.rs 17 *)
Definition slot_max : Z := 2147483647.
(** The slots of a cache: those below [slots], from [first_slot] on. The code
    (Cache_v.rs 292-297) says only [i < slots], for [i] an [i32]: its first slot is
    the least [i32]. A repair would add [0 <= i]. *)
Record SlotRange := mkSlots { first_slot : Z; slots : nat }.
(** Cache_v.rs 292-297 *)
Definition as_written (slots : nat) : SlotRange := mkSlots slot_min slots.
(** Cache_v.rs 292-297, repaired *)
Definition from_zero (slots : nat) : SlotRange := mkSlots 0 slots.
Coercion as_written : nat >-> SlotRange.
(** 22-27 *)
Inductive Status := NotFilled | Clean | Dirty | Writeback.
(** 29-34 *)
Inductive Entry :=
  | Empty
  | Reserved (addr : Address)
  | Loading (addr : Address)
  | Filled (addr : Address) (data : RawPage).
(** 37-46; [arbitrary()] on an empty entry is [None] here. *)
Definition get_addr (e : Entry) : option Address :=
  match e with
  | Reserved a | Loading a | Filled a _ => Some a
  | Empty => None
  end.

(** vstd [Map::is_injective] *)
(** A vstd function: no counterpart in /repo. *)
Definition injective `{Countable K} {V} (m : gmap K V) : Prop :=
  ∀ k1 k2 v, m !! k1 = Some v → m !! k2 = Some v → k1 = k2.
(** vstd [Map::invert]: maps every value to some key that has it. Rust picks the
    key with [choose]; any choice is allowed here. *)
(** A vstd function: no counterpart in /repo. *)
Definition inverts `{Countable K} `{Countable V} (m : gmap K V) (inv : gmap V K) : Prop :=
  (∀ k v, m !! k = Some v → is_Some (inv !! v)) ∧ (∀ v k, inv !! v = Some k → m !! k = Some v).
(** vstd [Map::restrict] and [Map::remove_keys] *)
(** A vstd function: no counterpart in /repo. *)
Definition restrict `{Countable K} {V} (m : gmap K V) (X : gset K) : gmap K V :=
  filter (λ kv, kv.1 ∈ X) m.
(** A vstd function: no counterpart in /repo. *)
Definition remove_keys `{Countable K} {V} (m : gmap K V) (X : gset K) : gmap K V :=
  filter (λ kv, kv.1 ∉ X) m.
(** vstd [Map::values] *)
(** A vstd function: no counterpart in /repo. *)
Definition map_values `{Countable K} `{Countable V} (m : gmap K V) : gset V :=
  list_to_set (snd <$> map_to_list m).

Module Cache.
  (** 50-55 *)
  Record State := mkState {
    entries : gmap Slot Entry;
    status_map : gmap Slot Status;
    lookup_map : gmap Address Slot;
    outstanding_reqs : gmap ID Slot }.
  (** 57-62 *)
  Inductive Label :=
    | Access (reads writes : gmap Address RawPage)
    | EvictableCheck (addrs : gset Address)
    | DiskOps (requests : gmap ID DiskRequest) (responses : gmap ID DiskResponse)
    | Internal.
  (** 64-69 *)
  Definition valid_read (c : State) (a : Address) (data : RawPage) : Prop :=
    ∃ s a', lookup_map c !! a = Some s ∧ entries c !! s = Some (Filled a' data).
  (** 71-79 *)
  Definition valid_write (c : State) (a : Address) : Prop :=
    ∃ s, lookup_map c !! a = Some s ∧
      ((∃ a', entries c !! s = Some (Reserved a')) ∨
       (∃ a' d, entries c !! s = Some (Filled a' d)) ∧ status_map c !! s ≠ Some Writeback).
  (** 81-90 *)
  Definition valid_new_slots_mapping (c : State) (mapping : gmap Slot Address) : Prop :=
    injective mapping ∧
    (∀ s a, mapping !! s = Some a → lookup_map c !! a = None) ∧
    (∀ s a, mapping !! s = Some a → entries c !! s = Some Empty).
  (** 93-105 *)
  Definition reserve (pre post : State) (l : Label) (mapping : gmap Slot Address) : Prop :=
    l = Internal ∧ valid_new_slots_mapping pre mapping ∧
    ∃ inv, inverts mapping inv ∧
      post = mkState ((Reserved <$> mapping) ∪ entries pre) (status_map pre)
                     (inv ∪ lookup_map pre) (outstanding_reqs pre).
  (** 107-111. The equivalence in 110 is read at [ReadReq] requests, the only ones
      whose field [from] is defined. *)
  Definition valid_load_requests (requests : gmap ID DiskRequest) (mapping : gmap Slot Address) : Prop :=
    (∀ id r, requests !! id = Some r → ∃ a, r = ReadReq a) ∧
    (∀ a, (∃ id, requests !! id = Some (ReadReq a)) ↔ (∃ s, mapping !! s = Some a)).
  (** 113-137 *)
  Definition load_initiate (pre post : State) (l : Label) (mapping : gmap Slot Address) : Prop :=
    ∃ requests, l = DiskOps requests ∅ ∧ requests ≠ ∅ ∧
      valid_new_slots_mapping pre mapping ∧
      injective requests ∧ dom requests ## dom (outstanding_reqs pre) ∧
      valid_load_requests requests mapping ∧
      ∃ inv, inverts mapping inv ∧
        post = mkState ((Loading <$> mapping) ∪ entries pre) (status_map pre) (inv ∪ lookup_map pre)
                       (omap (λ r, inv !! req_addr r) requests ∪ outstanding_reqs pre).
  (** 139-145 *)
  Definition valid_load_responses (c : State) (responses : gmap ID DiskResponse) : Prop :=
    ∀ id r, responses !! id = Some r →
      (∃ d, r = ReadResp d) ∧
      ∃ s a, outstanding_reqs c !! id = Some s ∧ entries c !! s = Some (Loading a).
  (** 159-162: the slot's entry once the response has arrived. *)
  Definition loaded (pre : State) (responses : gmap ID DiskResponse) (s : Slot) (id : ID) : option Entry :=
    match entries pre !! s, responses !! id with
    | Some e, Some (ReadResp d) => (λ a, Filled a d) <$> get_addr e
    | _, _ => None
    end.
  (** 148-173 *)
  Definition load_complete (pre post : State) (l : Label) : Prop :=
    ∃ responses, l = DiskOps ∅ responses ∧ responses ≠ ∅ ∧
      dom responses ⊆ dom (outstanding_reqs pre) ∧ valid_load_responses pre responses ∧
      ∃ slot_id, inverts (restrict (outstanding_reqs pre) (dom responses)) slot_id ∧
        post = mkState (map_imap (loaded pre responses) slot_id ∪ entries pre)
                       (((λ _, Clean) <$> slot_id) ∪ status_map pre)
                       (lookup_map pre)
                       (remove_keys (outstanding_reqs pre) (dom responses)).
  (** 188-191: the slot's entry after the write; [writes] at an absent address,
      arbitrary in Rust, leaves the entry alone here. *)
  Definition written (writes : gmap Address RawPage) (slots : gset Slot) (s : Slot) (e : Entry) : option Entry :=
    if decide (s ∈ slots) then a ← get_addr e; Filled a <$> writes !! a else None.
  (** 177-200 *)
  Definition access (pre post : State) (l : Label) : Prop :=
    ∃ reads writes, l = Access reads writes ∧
      (∀ a d, reads !! a = Some d → valid_read pre a d) ∧
      (∀ a d, writes !! a = Some d → valid_write pre a) ∧
      let write_slots := map_values (restrict (lookup_map pre) (dom writes)) in
      post = mkState (map_imap (written writes write_slots) (entries pre) ∪ entries pre)
                     (gset_to_gmap Dirty write_slots ∪ status_map pre)
                     (lookup_map pre) (outstanding_reqs pre).
  (** 202-210 *)
  Definition valid_writeback_requests (c : State) (requests : gmap ID DiskRequest) : Prop :=
    ∀ id r, requests !! id = Some r →
      ∃ a d s, r = WriteReq a d ∧ lookup_map c !! a = Some s ∧
        entries c !! s = Some (Filled a d) ∧ status_map c !! s = Some Dirty.
  (** 212-225. [strict] is a repair: the requests of one batch are distinct, as
      [load_initiate] asks of its own (120). The code has [strict = false]. *)
  Definition writeback_initiate (strict : bool) (pre post : State) (l : Label) : Prop :=
    ∃ requests, l = DiskOps requests ∅ ∧ requests ≠ ∅ ∧
      dom requests ## dom (outstanding_reqs pre) ∧ valid_writeback_requests pre requests ∧
      (strict = true → injective requests) ∧
      let updated := omap (λ r, lookup_map pre !! req_addr r) requests in
      post = mkState (entries pre)
                     (gset_to_gmap Writeback (map_values updated) ∪ status_map pre)
                     (lookup_map pre) (updated ∪ outstanding_reqs pre).
  (** 227-234 *)
  Definition valid_writeback_responses (c : State) (responses : gmap ID DiskResponse) : Prop :=
    ∀ id r, responses !! id = Some r →
      r = WriteResp ∧ ∃ s a d, outstanding_reqs c !! id = Some s ∧
        entries c !! s = Some (Filled a d) ∧ status_map c !! s = Some Writeback.
  (** 237-253 *)
  Definition writeback_complete (pre post : State) (l : Label) : Prop :=
    ∃ responses, l = DiskOps ∅ responses ∧ responses ≠ ∅ ∧
      dom responses ⊆ dom (outstanding_reqs pre) ∧ valid_writeback_responses pre responses ∧
      let slots := map_values (restrict (outstanding_reqs pre) (dom responses)) in
      post = mkState (entries pre) (gset_to_gmap Clean slots ∪ status_map pre) (lookup_map pre)
                     (remove_keys (outstanding_reqs pre) (dom responses)).
  (** 255-276 *)
  Definition evict (pre post : State) (l : Label) (slots : gset Slot) : Prop :=
    l = Internal ∧ slots ⊆ dom (entries pre) ∧
    (∀ s, s ∈ slots → (∃ a d, entries pre !! s = Some (Filled a d)) ∧ status_map pre !! s = Some Clean) ∧
    let evicted := map_values (omap get_addr (restrict (entries pre) slots)) in
    post = mkState (gset_to_gmap Empty slots ∪ entries pre) (gset_to_gmap NotFilled slots ∪ status_map pre)
                   (remove_keys (lookup_map pre) evicted) (outstanding_reqs pre).
  (** 278-286 *)
  Definition evictable (pre post : State) (l : Label) : Prop :=
    ∃ addrs, l = EvictableCheck addrs ∧
      (∀ a s, a ∈ addrs → lookup_map pre !! a = Some s →
        (∃ a' d, entries pre !! s = Some (Filled a' d)) ∧ status_map pre !! s = Some Clean) ∧
      post = pre.
  (** 288-290 *)
  Definition noop (pre post : State) (l : Label) : Prop := l = Internal ∧ post = pre.
  (** 292-297 *)
  Definition initialize (c : State) (r : SlotRange) : Prop :=
    (∀ s, entries c !! s = if decide (first_slot r ≤ s ≤ slot_max ∧ s < Z.of_nat (slots r)) then Some Empty else None) ∧
    (∀ s, status_map c !! s =
      if decide (first_slot r ≤ s ≤ slot_max ∧ s < Z.of_nat (slots r)) then Some NotFilled else None) ∧
    lookup_map c = ∅ ∧ outstanding_reqs c = ∅.
  (** The transitions of the state machine (49-297). *)
  Definition next (strict : bool) (pre post : State) (l : Label) : Prop :=
    (∃ mapping, reserve pre post l mapping) ∨ (∃ mapping, load_initiate pre post l mapping) ∨
    load_complete pre post l ∨ access pre post l ∨ writeback_initiate strict pre post l ∨
    writeback_complete pre post l ∨ (∃ slots, evict pre post l slots) ∨
    evictable pre post l ∨ noop pre post l.

  (** 325-329 *)
  Definition non_empty_slot (c : State) (s : Slot) : Prop :=
    ∃ e, entries c !! s = Some e ∧ e ≠ Empty.
  (** 331-336 *)
  Definition slots_hold_unique_addr (c : State) : Prop :=
    ∀ s1 s2 e1 e2, entries c !! s1 = Some e1 → entries c !! s2 = Some e2 →
      e1 ≠ Empty → e2 ≠ Empty → s1 ≠ s2 → get_addr e1 ≠ get_addr e2.
  (** 316-323: the inverse of the addresses of the filled slots. *)
  Definition filled_addr (e : Entry) : option Address :=
    match e with Filled a _ => Some a | _ => None end.
  (** Cache_v.rs 316-323 *)
  Definition is_build_lookup_map (c : State) (m : gmap Address Slot) : Prop :=
    inverts (omap filled_addr (entries c)) m.
  (** 299-314, with [outstanding_reqs_non_empty_slots] *)
  Definition inv (c : State) : Prop :=
    slots_hold_unique_addr c ∧
    dom (status_map c) = dom (entries c) ∧
    is_build_lookup_map c (lookup_map c) ∧
    (∀ s st, status_map c !! s = Some st →
      (st = NotFilled ↔ ¬ ∃ a d, entries c !! s = Some (Filled a d))) ∧
    map_values (outstanding_reqs c) ⊆ map_values (lookup_map c) ∧
    injective (outstanding_reqs c) ∧
    (∀ id s, outstanding_reqs c !! id = Some s → non_empty_slot c s).
End Cache.

(** ** The cache over the disk *)
Module CacheSys.
  (** JournalCoordinationSystem_v.rs 142-146, without the journal *)
  Record State := mkState { cache : Cache.State; disk : AsyncDisk.State }.
  (** What a client of the cache sees: the accesses and the eviction checks of
      JournalCoordinationSystem_v.rs (161-164, 171-178, 208-209, 221-222). A crash
      (AsyncDisk_t.rs 213-218) is added: the cache is started anew and the disk
      keeps its pages. *)
  Inductive Label :=
    | Access (reads writes : gmap Address RawPage)
    | EvictableCheck (addrs : gset Address)
    | Internal
    | Crash.
  Section CacheSys.
    Context `{Geometry} (strict : bool) (range : SlotRange).
    (** 161-162, 221-225 *)
    Definition access (pre post : State) (l : Label) : Prop :=
      ∃ reads writes c', l = Access reads writes ∧
        Cache.next strict (cache pre) c' (Cache.Access reads writes) ∧ post = mkState c' (disk pre).
    (** 177-178, 208-209 *)
    Definition evictable_check (pre post : State) (l : Label) : Prop :=
      ∃ addrs, l = EvictableCheck addrs ∧
        Cache.next strict (cache pre) (cache pre) (Cache.EvictableCheck addrs) ∧ post = pre.
    (** 228-239 *)
    Definition cache_disk_ops (pre post : State) (l : Label) : Prop :=
      l = Internal ∧ ∃ requests responses c' d',
        Cache.next strict (cache pre) c' (Cache.DiskOps requests responses) ∧
        AsyncDisk.next (disk pre) d' (AsyncDisk.DiskOps requests responses) ∧
        post = mkState c' d'.
    (** 241-245 *)
    Definition cache_internal (pre post : State) (l : Label) : Prop :=
      l = Internal ∧ ∃ c', Cache.next strict (cache pre) c' Cache.Internal ∧ post = mkState c' (disk pre).
    (** 247-251 *)
    Definition disk_internal (pre post : State) (l : Label) : Prop :=
      l = Internal ∧ ∃ d', AsyncDisk.next (disk pre) d' AsyncDisk.Internal ∧ post = mkState (cache pre) d'.
    (** AsyncDisk_t.rs 213-218, Cache_v.rs 292-297 *)
    Definition crash (pre post : State) (l : Label) : Prop :=
      l = Crash ∧ AsyncDisk.next (disk pre) (disk post) AsyncDisk.Crash ∧ Cache.initialize (cache post) range.
    (** Cache_v.rs 292-297, on a disk with any content and no request in flight. *)
    Definition init (s : State) (content : gmap Address RawPage) : Prop :=
      Cache.initialize (cache s) range ∧ disk s = AsyncDisk.mkState ∅ ∅ content.
    (** The transitions listed above. *)
    (** JournalCoordinationSystem_v.rs 228-251, with the crash added *)
    Definition next (pre post : State) (l : Label) : Prop :=
      access pre post l ∨ evictable_check pre post l ∨ cache_disk_ops pre post l ∨
      cache_internal pre post l ∨ disk_internal pre post l ∨ crash pre post l.
  End CacheSys.
End CacheSys.
