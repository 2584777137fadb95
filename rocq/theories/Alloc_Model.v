(** Model of the executable page allocator Splinter/src/exec/MiniAllocator_v.rs, and
    of histories of calls of it and of its specification
    (allocation_layer/MiniAllocator_v.rs, modelled in AllocJournal_Model.v).
    Definitions only. *)
From Verif Require Export AllocJournal_Model.

(** ** The executable allocator *)
Module XAlloc.
  (** spec/ImplDisk_t.rs 17, 19: [u32] *)
  Definition u32_max : N := 4294967295.
  (** exec/MiniAllocator_v.rs 16-20 *)
  Record PageAllocator := mkPA { observed : N; reserved : N; pa_au : N }.
  (** 98-100 *)
  Record MiniAllocator := mkMA { allocs : option PageAllocator }.
  (** spec/ImplDisk_t.rs 21-24 with its view, disk/GenericDisk_v.rs 224-230 *)
  Definition iaddr_view (u g : N) : Address := mkAddr (N.to_nat u) (N.to_nat g).
  (** 36-41 *)
  Definition pa_new (u : N) : PageAllocator := mkPA 0 0 u.
  (** 58-73: [None] is the panic of an addition that overflows [u32]. *)
  Definition reserve (p : PageAllocator) : option (Address * PageAllocator) :=
    if (reserved p <? u32_max)%N
    then Some (iaddr_view (pa_au p) (reserved p), mkPA (observed p) (reserved p + 1) (pa_au p))
    else None.
  (** 75-85 *)
  Definition observe_all (p : PageAllocator) : PageAllocator :=
    mkPA (reserved p) (reserved p) (pa_au p).
  (** 119-121 *)
  Definition empty : MiniAllocator := mkMA None.
  (** 127-136 *)
  Definition add_aus (m : MiniAllocator) (u : N) : MiniAllocator := mkMA (Some (pa_new u)).
  (** 139-181: [None] is a panic ([unwrap] of nothing, or overflow). *)
  Definition allocate_and_observe (m : MiniAllocator) : option (Address * MiniAllocator) :=
    match allocs m with
    | None => None
    | Some p => match reserve p with
                | None => None
                | Some (a, p') => Some (a, mkMA (Some (observe_all p')))
                end
    end.
  (** 183-194 *)
  Definition prune (m : MiniAllocator) : MiniAllocator := mkMA None.

  Section spec.
    Context `{Geometry}.
    (** 49-51 *)
    Definition has_free_addr (p : PageAllocator) : Prop := N.to_nat (reserved p) ≠ page_count.
    (** 53-55 *)
    Definition no_unobserved_pages (p : PageAllocator) : Prop := reserved p = observed p.
    (** disk/GenericDisk_v.rs 216-222, starting at page 0 *)
    Definition addr_range (u : N) (upto : N) : gset Address :=
      list_to_set (mkAddr (N.to_nat u) <$> seq 0 (N.to_nat upto)).
    (** 25-32 *)
    Definition pa_view (p : PageAllocator) : AllocJournal_Model.PageAllocator :=
      AllocJournal_Model.mkPA (addr_range (pa_au p) (observed p)) (addr_range (pa_au p) (reserved p))
                              (N.to_nat (pa_au p)).
    (** 105-115. As written ([fixed = false]) the unit counts as the current one
        whenever it has a free page, so also before any page of it was taken;
        [fixed = true] is the repair that asks for a page taken, as [add_aus] of the
        specification (allocation_layer/MiniAllocator_v.rs 153-162) has it. *)
    Definition view (fixed : bool) (m : MiniAllocator) : AllocJournal_Model.MiniAllocator :=
      match allocs m with
      | Some p => AllocJournal_Model.mkMA {[N.to_nat (pa_au p) := pa_view p]}
                    (if decide (N.to_nat (reserved p) ≠ page_count ∧ (fixed = true → reserved p ≠ 0%N))
                     then Some (N.to_nat (pa_au p)) else None)
      | None => ma_empty
      end.

    (** A call: a unit is given, a page is taken, everything is given up. *)
    (** The calls of exec/MiniAllocator_v.rs 127-186. *)
    Inductive Label := Give (u : N) | Take (a : Address) | Reset.
    (** A call whose [requires] clause (127-131, 140-144, 184-186) holds and which
        does not panic. *)
    Definition next (pre post : MiniAllocator) (l : Label) : Prop :=
      match l with
      | Give u => allocs pre = None ∧ N.to_nat u < au_count ∧ post = add_aus pre u
      | Take a => (∃ p, allocs pre = Some p ∧ has_free_addr p ∧ no_unobserved_pages p) ∧
                  allocate_and_observe pre = Some (a, post)
      | Reset => (∃ p, allocs pre = Some p) ∧ post = prune pre
      end.
  End spec.
End XAlloc.

(** ** Histories of the specification's allocator *)
Module MAlloc.
  (** The operations of allocation_layer/MiniAllocator_v.rs 153-216. *)
  Inductive Label :=
    | Give (aus : gset AU) | Take (a : Address) | Observe (a : Address) | Prune (aus : gset AU).
  Section next.
    Context `{Geometry} (guarded : bool).
    (** allocation_layer/MiniAllocator_v.rs 153-162, 183-191, 193-201, 203-216, each
        call with its [recommends] clause as a guard. [guarded] also asks
        [can_remove] (166-169) of every unit pruned, which 164-165 asks of callers
        and AllocationJournal_v.rs 1392-1400 does. *)
    Definition next (pre post : MiniAllocator) (l : Label) : Prop :=
      match l with
      | Give aus => post = add_aus pre aus
      | Take a => can_allocate pre a ∧ post = allocate pre a
      | Observe a => page_is_reserved pre a ∧ post = ma_observe pre a
      | Prune aus => (guarded = true → ∀ u, u ∈ aus → can_remove pre u) ∧ post = prune pre aus
      end.
  End next.
End MAlloc.
