(** Model of Splinter/src/spec/AsyncDisk_t.rs and of the address helpers in
    Splinter/src/disk/GenericDisk_v.rs. Definitions only. *)
From Verif Require Export Spec_Model.

(** AsyncDisk_t.rs 23, 26 *)
Notation AU := nat (only parsing).
(** AsyncDisk_t.rs 26 *)
Notation Page := nat (only parsing).
(** AsyncDisk_t.rs 31-36 *)
Record Address := mkAddr { au : AU; page : Page }.
(** Decidable equality, or an order's decision procedure: no counterpart in /repo. *)
Global Instance Address_eq_dec : EqDecision Address.
Proof. solve_decision. Defined.
(** Countability, for std++'s finite maps: no counterpart in /repo. *)
Global Instance Address_countable : Countable Address.
Proof.
  refine (inj_countable' (λ a, (au a, page a)) (λ p, mkAddr p.1 p.2) _).
  by intros [].
Defined.
(** AsyncDisk_t.rs 41, 45: [page_count] and [au_count] are uninterpreted there;
    here they are an explicit (implicitly passed) parameter. *)
Class Geometry := { page_count : nat; au_count : nat }.
(** AsyncDisk_t.rs 49-52 *)
Definition addr_wf `{Geometry} (a : Address) : Prop := au a < au_count ∧ page a < page_count.

(** GenericDisk_v.rs 39-41 *)
Definition addr_first_page (a : Address) : Address := mkAddr (au a) 0.
(** GenericDisk_v.rs 44-46; only used at non-zero pages. *)
Definition addr_previous (a : Address) : Address := mkAddr (au a) (page a - 1).
(** GenericDisk_v.rs 49-51 *)
Definition addr_next (a : Address) : Address := mkAddr (au a) (page a + 1).
(** GenericDisk_v.rs 54-58: [after_page self addr] *)
Definition after_page `{Geometry} (self addr : Address) : Prop :=
  addr_wf addr ∧ au addr = au self ∧ page self < page addr.
(** GenericDisk_v.rs 239 *)
Notation Pointer := (option Address) (only parsing).
(** GenericDisk_v.rs 61-66 *)
Definition first_page (ptr : Pointer) : Pointer := addr_first_page <$> ptr.
(** GenericDisk_v.rs 70-75 *)
Definition min_addr (a b : Address) : Address :=
  if decide (au a < au b) then a else if decide (au b < au a) then b
  else if decide (page a ≤ page b) then a else b.
(** GenericDisk_v.rs 83-86 *)
Definition to_aus (addrs : gset Address) : gset AU := set_map au addrs.
(** GenericDisk_v.rs 240 *)
Notation Ranking := (gmap Address nat) (only parsing).

(** ** AsyncDisk (AsyncDisk_t.rs 104-236) *)
(** AsyncDisk_t.rs 57: a raw page is a byte sequence; bytes as [N]. *)
Notation RawPage := (list N) (only parsing).
(** AsyncDisk_t.rs 72-75 *)
Inductive DiskRequest :=
  | ReadReq (from : Address)
  | WriteReq (to : Address) (data : RawPage).
(** AsyncDisk_t.rs 89-92 *)
Inductive DiskResponse :=
  | ReadResp (data : RawPage)
  | WriteResp.
(** AsyncDisk_t.rs 79-86 *)
Definition req_addr (r : DiskRequest) : Address :=
  match r with ReadReq a => a | WriteReq a _ => a end.

Module AsyncDisk.
  (** 105-112 *)
  Record State := mkState {
    requests : gmap ID DiskRequest;
    responses : gmap ID DiskResponse;
    content : gmap Address RawPage }.
  (** 114-121 *)
  Inductive Label :=
    | DiskOps (requests : gmap ID DiskRequest) (responses : gmap ID DiskResponse)
    | Internal
    | Crash.
  (** 123-127 *)
  Definition initialize (s : State) : Prop := s = mkState ∅ ∅ ∅.
  (** 130-149 *)
  Definition disk_ops (pre post : State) (l : Label) : Prop :=
    ∃ reqs resps, l = DiskOps reqs resps ∧
      dom reqs ## dom (requests pre) ∧ dom reqs ## dom (responses pre) ∧
      resps ⊆ responses pre ∧
      post = mkState (reqs ∪ requests pre) (responses pre ∖ resps) (content pre).
  (** 152-168. Reading an address that was never written ([content[addr]]
      outside the domain) yields an arbitrary page in Rust: any [data] here. *)
  Definition process_read `{Geometry} (pre post : State) (l : Label) (id : ID) : Prop :=
    l = Internal ∧ ∃ from data, requests pre !! id = Some (ReadReq from) ∧ addr_wf from ∧
      (∀ d, content pre !! from = Some d → data = d) ∧
      post = mkState (delete id (requests pre)) (<[id := ReadResp data]> (responses pre)) (content pre).
  (** 194-210 *)
  Definition process_write `{Geometry} (pre post : State) (l : Label) (id : ID) : Prop :=
    l = Internal ∧ ∃ to data, requests pre !! id = Some (WriteReq to data) ∧ addr_wf to ∧
      post = mkState (delete id (requests pre)) (<[id := WriteResp]> (responses pre))
                     (<[to := data]> (content pre)).
  (** 213-218 *)
  Definition crash (pre post : State) (l : Label) : Prop :=
    l = Crash ∧ post = mkState ∅ ∅ (content pre).
  (** [next], which the state_machine! macro generates from the transitions of AsyncDisk_t.rs 106-242. *)
  Definition next `{Geometry} (pre post : State) (l : Label) : Prop :=
    disk_ops pre post l ∨ (∃ id, process_read pre post l id) ∨
    (∃ id, process_write pre post l id) ∨ crash pre post l.
End AsyncDisk.
