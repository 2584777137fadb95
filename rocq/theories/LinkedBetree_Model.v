(** Model of Splinter/src/betree/: LinkedSeq_v.rs, BufferDisk_v.rs, the [Buffer]
    trait of Buffer_v.rs, and LinkedBetree_v.rs: the be-tree as nodes on a disk
    linked by pointers. Definitions only. Line numbers without a file name refer
    to LinkedBetree_v.rs.

    A [LinkedSeq] (LinkedSeq_v.rs 10-13) is the list of its addresses; a
    [DiskView] (233-235) and a [BufferDisk] (BufferDisk_v.rs 19-21) are the finite
    maps of their entries. *)
From Verif Require Export Betree_Model Disk_Model.

(** ** Buffers on a disk *)
(** LinkedSeq_v.rs 11-13 *)
Notation LinkedSeq := (list Address) (only parsing).
(** BufferDisk_v.rs 18-20 *)
Notation BufferDisk T := (gmap Address T) (only parsing).
(** Buffer_v.rs 12-24: the trait. *)
Class Buffer (T : Type) := {
  linked_contains : T → gmap Address T → Address → Key → Prop;
  linked_query : T → gmap Address T → Address → Key → Message;
  buf_i : T → gmap Address T → Address → gmap N Message }.
(** Buffer_v.rs 32-44: a simple buffer is self-contained. *)
Global Instance simple_buffer : Buffer (gmap N Message) := {
  linked_contains b dv a k := is_Some (b !! k);
  linked_query b dv a k := buf_query b k;
  buf_i b dv a := b }.
(** LinkedSeq_v.rs 47-52 *)
Definition ls_update_subrange (l : LinkedSeq) (a b : nat) (x : Address) : LinkedSeq :=
  subrange l 0 a ++ [x] ++ subrange l b (length l).

(** ** Nodes *)
Module LNode.
  (** 34-39 *)
  Record t := mk {
    buffers : LinkedSeq;
    pivots : PivotTable;
    children : list Pointer;
    flushed : BufferOffsets }.
  (** 57-64 *)
  Definition wf (n : t) : Prop :=
    pt_wf (pivots n) ∧ length (children n) = num_ranges (pivots n) ∧
    length (children n) = length (flushed n) ∧ ofs_all_lte (flushed n) (length (buffers n)).
  (** [self.children[i]] (66-69 is the range check); unspecified out of range. *)
  Definition child_at (n : t) (i : nat) : Pointer := nth i (children n) None.
  (** 71-76 *)
  Definition occupied_child_index (n : t) (i : nat) : Prop :=
    i < length (children n) ∧ child_at n i ≠ None.
  (** 78-85 *)
  Definition my_domain (n : t) : Domain := mkDomain (pivot_at (pivots n) 0) (pivot_last (pivots n)).
  (** 87-94 *)
  Definition child_domain (n : t) (i : nat) : Domain :=
    mkDomain (pivot_at (pivots n) i) (pivot_at (pivots n) (i + 1)).
  (** 96-106 *)
  Definition extend_buffer_seq (n : t) (bs : LinkedSeq) : t :=
    mk (buffers n ++ bs) (pivots n) (children n) (flushed n).
  (** 117-123 *)
  Definition flushed_ofs (n : t) (k : Key) : nat := nth (route_idx (pivots n) k) (flushed n) 0.
  (** 125-130 *)
  Definition is_leaf (n : t) : Prop := children n = [None] ∧ flushed n = [0].
  (** 132-135 *)
  Definition is_index (n : t) : Prop := Forall (λ p, p ≠ None) (children n).
  (** 137-143 *)
  Definition can_split_leaf (n : t) (split_key : Key) : Prop :=
    wf n ∧ is_leaf n ∧ dom_contains (my_domain n) split_key ∧
    dom_start (my_domain n) ≠ to_element split_key.
  (** 145-165 *)
  Definition split_leaf (n : t) (split_key : Key) : t * t :=
    (mk (buffers n) (pt_update (pivots n) 1 (to_element split_key)) (children n) (flushed n),
     mk (buffers n) (pt_update (pivots n) 0 (to_element split_key)) (children n) (flushed n)).
  (** 167-172 *)
  Definition can_split_index (n : t) (pivot_idx : nat) : Prop :=
    wf n ∧ is_index n ∧ 0 < pivot_idx < num_ranges (pivots n).
  (** 174-195 *)
  Definition split_index (n : t) (idx : nat) : t * t :=
    (mk (buffers n) (pt_subrange (pivots n) 0 (idx + 1)) (subrange (children n) 0 idx)
        (ofs_slice (flushed n) 0 idx),
     mk (buffers n) (pt_subrange (pivots n) idx (length (pivots n)))
        (subrange (children n) idx (length (children n)))
        (ofs_slice (flushed n) idx (length (flushed n)))).
  (** 197-206 *)
  Definition empty_root (d : Domain) : t := mk [] (domain_to_pivots d) [None] [0].
  (** 208-212 *)
  Definition key_in_domain (n : t) (k : Key) : Prop := wf n ∧ bounded_key (pivots n) k.
  (** 214-218 *)
  Definition child_ptr (n : t) (k : Key) : Pointer := child_at n (route_idx (pivots n) k).
  (** 220-230; [wf] is assumed where this is used. *)
  Definition make_offset_map (n : t) : Key → nat := λ k,
    if decide (bounded_key (pivots n) k) then flushed_ofs n k else length (buffers n).
End LNode.

(** ** The disk of nodes (DiskView) *)
(** LinkedBetree_v.rs 233-235 *)
Notation NodeDisk := (gmap Address LNode.t) (only parsing).
(** 243-246 *)
Definition nd_nondangling (dv : NodeDisk) (p : Pointer) : Prop :=
  ∀ a, p = Some a → is_Some (dv !! a).
(** 238-241 *)
Definition nd_entries_wf (dv : NodeDisk) : Prop := ∀ a n, dv !! a = Some n → LNode.wf n.
(** 248-252 *)
Definition nd_nondangling_children (dv : NodeDisk) (n : LNode.t) : Prop :=
  ∀ i p, LNode.children n !! i = Some p → nd_nondangling dv p.
(** 254-269 *)
Definition nd_linked_children (dv : NodeDisk) (n : LNode.t) : Prop :=
  ∀ i c m, LNode.children n !! i = Some (Some c) → dv !! c = Some m →
    LNode.my_domain m = LNode.child_domain n i.
(** 271-285; finiteness is by typing. *)
Definition nd_wf (dv : NodeDisk) : Prop :=
  nd_entries_wf dv ∧
  ∀ a n, dv !! a = Some n → nd_nondangling_children dv n ∧ nd_linked_children dv n.
(** 303-313 *)
Definition nd_children_respect_rank (dv : NodeDisk) (r : Ranking) (a : Address) (n : LNode.t) : Prop :=
  ∀ i c ra, LNode.children n !! i = Some (Some c) → r !! a = Some ra →
    ∃ rc, r !! c = Some rc ∧ rc < ra.
(** 315-320 *)
Definition nd_valid_ranking (dv : NodeDisk) (r : Ranking) : Prop :=
  nd_wf dv ∧ ∀ a n, dv !! a = Some n → is_Some (r !! a) → nd_children_respect_rank dv r a n.

(** 360-363, 377-381 *)
Record TwoAddrs := mkTwo { addr1 : Address; addr2 : Address }.
(** LinkedBetree_v.rs 377-381 *)
Record SplitAddrs := mkSplit { sa_left : Address; sa_right : Address; sa_parent : Address }.
(** 366-374 *)
Definition two_no_dup (n : TwoAddrs) : Prop := addr1 n ≠ addr2 n.
(** LinkedBetree_v.rs 371-374 *)
Definition two_repr (n : TwoAddrs) : gset Address := {[ addr1 n; addr2 n ]}.
(** 384-394 *)
Definition split_no_dup (n : SplitAddrs) : Prop :=
  sa_left n ≠ sa_right n ∧ sa_right n ≠ sa_parent n ∧ sa_parent n ≠ sa_left n.
(** LinkedBetree_v.rs 391-394 *)
Definition split_repr (n : SplitAddrs) : gset Address := {[ sa_left n; sa_right n; sa_parent n ]}.

(** SplitRequest_v.rs 15-24 *)
Definition request_child (r : SplitRequest) : nat :=
  match r with SplitLeaf i _ => i | SplitIndex i _ => i end.

(** ** The linked tree (434-438) *)
Record LinkedBetree (T : Type) := mkLB { lb_root : Pointer; lb_dv : gmap Address LNode.t; lb_bdv : gmap Address T }.
Arguments mkLB {T}. Arguments lb_root {T}. Arguments lb_dv {T}. Arguments lb_bdv {T}.

Module Linked.
  Section Linked.
  Context {T : Type} `{!Buffer T}.
  (** LinkedBetree_v.rs 434-438 *)
  Notation LB := (LinkedBetree T).

  (** ** Buffer disk operations (BufferDisk_v.rs) *)
  (** 60-63; [entries[addr]] outside the domain is unspecified, here a no-op. *)
  Definition bd_query (bd : gmap Address T) (a : Address) (k : Key) : Message :=
    match bd !! a with Some b => linked_query b bd a k | None => Update nop_delta end.
  (** 65-74: the merge of a list of buffers; [query_from] applies it to a suffix. *)
  Fixpoint bd_query_all (bd : gmap Address T) (bs : LinkedSeq) (k : Key) : Message :=
    match bs with
    | [] => Update nop_delta
    | a :: rest => merge (bd_query bd a k) (bd_query_all bd rest k)
    end.
  (** BufferDisk_v.rs 65-75 *)
  Definition bd_query_from (bd : gmap Address T) (bs : LinkedSeq) (k : Key) (start : nat) : Message :=
    bd_query_all bd (drop start bs) k.
  (** 77-81 *)
  Definition queryable_contains (bd : gmap Address T) (a : Address) (k : Key) : Prop :=
    ∃ b, bd !! a = Some b ∧ linked_contains b bd a k.
  (** 83-95 *)
  Definition bd_key_in_buffer_filtered (bd : gmap Address T) (bs : LinkedSeq) (offsets : Key → nat)
      (from_idx : nat) (k : Key) (idx : nat) : Prop :=
    from_idx ≤ idx ∧ (∃ a, bs !! idx = Some a ∧ queryable_contains bd a k) ∧ offsets k ≤ idx.
  (** 104-108 *)
  Definition valid_buffers (bd : gmap Address T) (bs : LinkedSeq) : Prop :=
    ∀ a, a ∈ bs → is_Some (bd !! a).
  (** 34-37: [self.entries.agrees(other.entries)] *)
  Definition bd_agrees (bd bd' : gmap Address T) : Prop :=
    ∀ a x y, bd !! a = Some x → bd' !! a = Some y → x = y.
  (** LinkedBetree_v.rs 398-402 *)
  Definition bd_i (bd : gmap Address T) : gmap Address (gmap N Message) :=
    map_imap (λ a b, Some (buf_i b bd a)) bd.
  (** LinkedBetree_v.rs 404-412 *)
  Definition valid_compact_key_domain (bd : gmap Address T) (n : LNode.t) (a b : nat) (k : Key) : Prop :=
    LNode.key_in_domain n k ∧ LNode.flushed_ofs n k ≤ b ∧
    ∃ idx, bd_key_in_buffer_filtered bd (subrange (LNode.buffers n) a b)
             (offsets_decrement (LNode.make_offset_map n) a) 0 k idx.
  (** LinkedBetree_v.rs 414-419; truncated subtraction is the case split. *)
  Definition compact_key_value (bd : gmap Address T) (n : LNode.t) (a b : nat) (k : Key) : Message :=
    bd_query_from bd (subrange (LNode.buffers n) a b) k (LNode.flushed_ofs n k - a).

  (** 441-445 *)
  Definition wf (l : LB) : Prop := nd_wf (lb_dv l) ∧ nd_nondangling (lb_dv l) (lb_root l).
  (** 447-457: [has_root] together with the node [root()]. *)
  Definition root_is (l : LB) (n : LNode.t) : Prop :=
    ∃ a, lb_root l = Some a ∧ lb_dv l !! a = Some n.
  (** LinkedBetree_v.rs 447-450 *)
  Definition has_root (l : LB) : Prop := ∃ n, root_is l n.
  (** The root node as a value; unspecified without a root. *)
  (** LinkedBetree_v.rs 452-457 *)
  Definition root_node (l : LB) : LNode.t :=
    match lb_root l with
    | Some a => default (LNode.mk [] [] [] []) (lb_dv l !! a)
    | None => LNode.mk [] [] [] []
    end.
  (** The Verus update [LinkedBetree{root: p, ..self}]. *)
  Definition with_root (l : LB) (p : Pointer) : LB := mkLB p (lb_dv l) (lb_bdv l).
  (** 459-464 *)
  Definition valid_ranking (l : LB) (r : Ranking) : Prop :=
    wf l ∧ nd_valid_ranking (lb_dv l) r ∧
    (has_root l → ∀ a, lb_root l = Some a → is_Some (r !! a)).
  (** 466-470 *)
  Definition acyclic (l : LB) : Prop := wf l ∧ ∃ r, valid_ranking l r.
  (** 494-501 *)
  Definition child_at_idx (l : LB) (i : nat) : LB := with_root l (LNode.child_at (root_node l) i).
  (** 503-509 *)
  Definition child_for_key (l : LB) (k : Key) : LB := with_root l (LNode.child_ptr (root_node l) k).
  (** 543-575: the addresses of the nodes under the root. The code computes the
      set by recursion on a ranking; this is the same set as a least fixed point. *)
  Inductive reachable_node (dv : NodeDisk) : Pointer → Address → Prop :=
    | reach_here a n : dv !! a = Some n → reachable_node dv (Some a) a
    | reach_child a n i p b :
        dv !! a = Some n → LNode.children n !! i = Some p → reachable_node dv p b →
        reachable_node dv (Some a) b.
  (** 578-601 *)
  Definition reachable_buffer (l : LB) (ba : Address) : Prop :=
    ∃ a n, reachable_node (lb_dv l) (lb_root l) a ∧ lb_dv l !! a = Some n ∧ ba ∈ LNode.buffers n.
  (** 603-614 *)
  Definition grow (l : LB) (new_root_addr : Address) : LB :=
    let new_root := LNode.mk [] (domain_to_pivots total_domain) [lb_root l] [0] in
    mkLB (Some new_root_addr) (<[new_root_addr := new_root]> (lb_dv l)) (lb_bdv l).
  (** 627-641 *)
  Definition can_split_parent (l : LB) (r : SplitRequest) : Prop :=
    wf l ∧ has_root l ∧ request_child r < length (LNode.children (root_node l)) ∧
    has_root (child_at_idx l (request_child r)) ∧
    match r with
    | SplitLeaf i k => LNode.can_split_leaf (root_node (child_at_idx l i)) k
    | SplitIndex i j => LNode.can_split_index (root_node (child_at_idx l i)) j
    end.
  (** 645-688, with [split_element] 616-624 inlined as the code does. *)
  Definition split_parent (l : LB) (r : SplitRequest) (na : SplitAddrs) : LB :=
    let root := root_node l in
    let '(i, (nl, nr), e) :=
      match r with
      | SplitLeaf i k => (i, LNode.split_leaf (root_node (child_at_idx l i)) k, to_element k)
      | SplitIndex i j => (i, LNode.split_index (root_node (child_at_idx l i)) j,
                           pivot_at (LNode.pivots (root_node (child_at_idx l i))) j)
      end in
    let new_children := seq_insert (<[i := Some (sa_left na)]> (LNode.children root)) (i + 1) (Some (sa_right na)) in
    let new_parent := LNode.mk (LNode.buffers root) (pt_insert (LNode.pivots root) (i + 1) e)
                        new_children (ofs_dup (LNode.flushed root) i) in
    mkLB (Some (sa_parent na))
      (<[sa_parent na := new_parent]> (<[sa_right na := nr]> (<[sa_left na := nl]> (lb_dv l))))
      (lb_bdv l).
  (** 690-696 *)
  Definition can_flush (l : LB) (i buffer_gc : nat) : Prop :=
    wf l ∧ has_root l ∧ LNode.occupied_child_index (root_node l) i ∧
    ofs_all_gte (ofs_update (LNode.flushed (root_node l)) i (length (LNode.buffers (root_node l)))) buffer_gc.
  (** 698-706 *)
  Definition flush_buffers (l : LB) (i : nat) : LinkedSeq :=
    let root := root_node l in
    subrange (LNode.buffers root) (nth i (LNode.flushed root) 0) (length (LNode.buffers root)).
  (** 708-726 *)
  Definition flush (l : LB) (i buffer_gc : nat) (na : TwoAddrs) : LB :=
    let root := root_node l in
    let flush_upto := length (LNode.buffers root) in
    let child := root_node (child_at_idx l i) in
    let new_child := LNode.extend_buffer_seq child (flush_buffers l i) in
    let new_root := LNode.mk (subrange (LNode.buffers root) buffer_gc flush_upto) (LNode.pivots root)
        (<[i := Some (addr2 na)]> (LNode.children root))
        (ofs_shift_left (ofs_update (LNode.flushed root) i flush_upto) buffer_gc) in
    mkLB (Some (addr1 na)) (<[addr2 na := new_child]> (<[addr1 na := new_root]> (lb_dv l))) (lb_bdv l).
  (** 728-732, 817-821 *)
  Definition valid_buffer_dv (l : LB) : Prop := ∀ ba, reachable_buffer l ba → is_Some (lb_bdv l !! ba).
  (** 734-740 *)
  Definition is_fresh (l : LB) (addrs : gset Address) : Prop :=
    dom (lb_dv l) ## addrs ∧ dom (lb_bdv l) ## addrs.
  (** 745-753 *)
  Definition valid_view (l other : LB) : Prop :=
    wf other ∧ lb_root l = lb_root other ∧ lb_dv other ⊆ lb_dv l ∧ bd_agrees (lb_bdv other) (lb_bdv l).
  (** 755-759 *)
  Definition reachable_buffers_preserved (l other : LB) : Prop :=
    ∀ ba, reachable_buffer l ba → is_Some (lb_bdv other !! ba).
  (** 778-795 *)
  Definition push_memtable (l : LB) (sealed : T) (na : TwoAddrs) : LB :=
    let base := match lb_root l with
                | Some a => default (LNode.empty_root total_domain) (lb_dv l !! a)
                | None => LNode.empty_root total_domain
                end in
    mkLB (Some (addr1 na)) (<[addr1 na := LNode.extend_buffer_seq base [addr2 na]]> (lb_dv l))
         (<[addr2 na := sealed]> (lb_bdv l)).
  (** 823-830 *)
  Definition i_bdv (l : LB) : LinkedBetree (gmap N Message) := mkLB (lb_root l) (lb_dv l) (bd_i (lb_bdv l)).
  (** 832-863 *)
  Definition can_compact (l : LB) (a b : nat) (compacted : T) (new_bdv : gmap Address T) (na : TwoAddrs) : Prop :=
    wf l ∧ has_root l ∧ a < b ≤ length (LNode.buffers (root_node l)) ∧
    (∀ k, linked_contains compacted new_bdv (addr2 na) k ↔
          valid_compact_key_domain (lb_bdv l) (root_node l) a b k) ∧
    (∀ k, linked_contains compacted new_bdv (addr2 na) k →
          linked_query compacted new_bdv (addr2 na) k = compact_key_value (lb_bdv l) (root_node l) a b k).
  (** 865-880 *)
  Definition compact (l : LB) (a b : nat) (compacted : T) (na : TwoAddrs) : LB :=
    let root := root_node l in
    let new_root := LNode.mk (ls_update_subrange (LNode.buffers root) a b (addr2 na)) (LNode.pivots root)
                      (LNode.children root) (ofs_adjust_compact (LNode.flushed root) a b) in
    mkLB (Some (addr1 na)) (<[addr1 na := new_root]> (lb_dv l)) (<[addr2 na := compacted]> (lb_bdv l)).

  (** ** Query receipts (883-975) *)
  (** 883-886, 895-899 *)
  Record Line := mkLine { line_linked : LB; line_result : Message }.
  (** LinkedBetree_v.rs 895-899 *)
  Record QueryReceipt := mkReceipt { rc_key : Key; rc_linked : LB; rc_lines : list Line }.
  (** 902-911 *)
  Definition structure (r : QueryReceipt) : Prop :=
    wf (rc_linked r) ∧
    (∃ l0, rc_lines r !! 0 = Some l0 ∧ line_linked l0 = rc_linked r) ∧
    (∀ i l, rc_lines r !! i = Some l →
       lb_dv (line_linked l) = lb_dv (rc_linked r) ∧ lb_bdv (line_linked l) = lb_bdv (rc_linked r) ∧
       (has_root (line_linked l) ↔ i < length (rc_lines r) - 1)) ∧
    (∃ ll, rc_lines r !! (length (rc_lines r) - 1) = Some ll ∧ line_result ll = message_empty).
  (** 942-951, with 889-892 *)
  Definition all_lines_wf (r : QueryReceipt) : Prop :=
    (∀ i l, rc_lines r !! i = Some l → Paged.is_define (line_result l) ∧ acyclic (line_linked l)) ∧
    (∀ i l, i < length (rc_lines r) - 1 → rc_lines r !! i = Some l →
       valid_buffers (lb_bdv (rc_linked r)) (LNode.buffers (root_node (line_linked l))) ∧
       LNode.key_in_domain (root_node (line_linked l)) (rc_key r)).
  (** 931-938 *)
  Definition child_linked_at (r : QueryReceipt) (i : nat) : Prop :=
    ∀ l l', rc_lines r !! i = Some l → rc_lines r !! S i = Some l' →
      lb_root (line_linked l') = LNode.child_ptr (root_node (line_linked l)) (rc_key r).
  (** 953-959 *)
  Definition result_linked_at (r : QueryReceipt) (i : nat) : Prop :=
    ∀ l l', rc_lines r !! i = Some l → rc_lines r !! S i = Some l' →
      let n := root_node (line_linked l) in
      line_result l = merge (line_result l')
        (bd_query_from (lb_bdv (rc_linked r)) (LNode.buffers n) (rc_key r) (LNode.flushed_ofs n (rc_key r))).
  (** 961-967 *)
  Definition receipt_valid (r : QueryReceipt) : Prop :=
    structure r ∧ all_lines_wf r ∧
    (∀ i, i < length (rc_lines r) - 1 → child_linked_at r i) ∧
    (∀ i, i < length (rc_lines r) - 1 → result_linked_at r i).
  (** 919-929 *)
  Definition receipt_result (r : QueryReceipt) (m : Message) : Prop :=
    ∃ l0, rc_lines r !! 0 = Some l0 ∧ line_result l0 = m.
  (** 969-974 *)
  Definition valid_for (r : QueryReceipt) (l : LB) (k : Key) : Prop :=
    receipt_valid r ∧ rc_linked r = l ∧ rc_key r = k.

  (** ** Paths (979-1054): [Path{linked, key, depth}] spread over the arguments. *)
  (** 995-1003 *)
  Fixpoint path_valid (l : LB) (key : Key) (depth : nat) : Prop :=
    has_root l ∧ acyclic l ∧ LNode.key_in_domain (root_node l) key ∧
    match depth with
    | 0 => True
    | S d => LNode.is_index (root_node l) ∧ path_valid (child_for_key l key) key d
    end.
  (** 1005-1014 *)
  Fixpoint path_target (l : LB) (key : Key) (depth : nat) : LB :=
    match depth with 0 => l | S d => path_target (child_for_key l key) key d end.
  (** 1039-1053; [path_addrs[0]] outside the list is unspecified: [path.depth ==
      path_addrs.len()] is required wherever this is used. *)
  Fixpoint path_substitute (l : LB) (key : Key) (depth : nat) (replacement : LB) (path_addrs : list Address) : LB :=
    match depth, path_addrs with
    | S d, pa :: rest =>
        let node := root_node l in
        let subtree := path_substitute (child_for_key l key) key d replacement rest in
        let new_children := <[route_idx (LNode.pivots node) key := lb_root subtree]> (LNode.children node) in
        let new_node := LNode.mk (LNode.buffers node) (LNode.pivots node) new_children (LNode.flushed node) in
        mkLB (Some pa) (<[pa := new_node]> (lb_dv subtree)) (lb_bdv replacement)
    | _, _ => replacement
    end.
  (** 797-805; [self == path.linked] by construction. *)
  Definition valid_path_replacement (l : LB) (key : Key) (depth : nat) (no_dup : Prop)
      (new_repr : gset Address) (path_addrs : list Address) : Prop :=
    path_valid l key depth ∧ NoDup path_addrs ∧ depth = length path_addrs ∧ no_dup ∧
    new_repr ## list_to_set path_addrs.

  (** ** The state machine LinkedBetreeVars (1063-1203) *)
  Notation State := (BState LB).
  (** LinkedBetree_v.rs 1069-1075 *)
  Notation Label := (BLabel (LinkedBetree (gmap N Message))).
  (** 1077-1082 *)
  Definition query (pre post : State) (l : Label) (receipt : QueryReceipt) : Prop :=
    ∃ end_lsn key value result, l = Query end_lsn key value ∧
      end_lsn = mt_seq_end (memtable pre) ∧ valid_for receipt (root pre) key ∧
      receipt_result receipt result ∧
      Define value = merge result (mt_query (memtable pre) key) ∧ post = pre.
  (** 1084-1089 *)
  Definition put (pre post : State) (l : Label) : Prop :=
    ∃ puts, l = Put puts ∧ mh_wf puts ∧ seq_start puts = mt_seq_end (memtable pre) ∧
      post = mkBS (apply_puts (memtable pre) puts) (root pre).
  (** 1091-1096 *)
  Definition freeze_as (pre post : State) (l : Label) : Prop :=
    mt_is_empty (memtable pre) ∧
    l = FreezeAs (mkStamped (i_bdv (root pre)) (mt_seq_end (memtable pre))) ∧ post = pre.
  (** 1098-1108 *)
  Definition internal_flush_memtable (pre post : State) (l : Label) (sealed : T) (new : LB) (na : TwoAddrs) : Prop :=
    l = Internal ∧ two_no_dup na ∧ buf_i sealed (lb_bdv new) (addr2 na) = mt_buffer (memtable pre) ∧
    valid_view (push_memtable (root pre) sealed na) new ∧
    post = mkBS (mt_drain (memtable pre)) new.
  (** 1110-1113 *)
  Definition internal_grow (pre post : State) (l : Label) (new_root_addr : Address) : Prop :=
    l = Internal ∧ post = mkBS (memtable pre) (grow (root pre) new_root_addr).
  (** 1115-1120 *)
  Definition post_split (l : LB) (key : Key) (depth : nat) (r : SplitRequest) (na : SplitAddrs)
      (pa : list Address) : LB :=
    path_substitute l key depth (split_parent (path_target l key depth) r na) pa.
  (** 1122-1139 *)
  Definition internal_split (pre post : State) (l : Label) (new : LB) (key : Key) (depth : nat)
      (r : SplitRequest) (na : SplitAddrs) (pa : list Address) : Prop :=
    l = Internal ∧ can_split_parent (path_target (root pre) key depth) r ∧
    valid_path_replacement (root pre) key depth (split_no_dup na) (split_repr na) pa ∧
    valid_view (post_split (root pre) key depth r na pa) new ∧
    post = mkBS (memtable pre) new.
  (** 1141-1146 *)
  Definition post_flush (l : LB) (key : Key) (depth : nat) (i buffer_gc : nat) (na : TwoAddrs)
      (pa : list Address) : LB :=
    path_substitute l key depth (flush (path_target l key depth) i buffer_gc na) pa.
  (** 1148-1158 *)
  Definition internal_flush (pre post : State) (l : Label) (new : LB) (key : Key) (depth i buffer_gc : nat)
      (na : TwoAddrs) (pa : list Address) : Prop :=
    l = Internal ∧ can_flush (path_target (root pre) key depth) i buffer_gc ∧
    valid_path_replacement (root pre) key depth (two_no_dup na) (two_repr na) pa ∧
    valid_view (post_flush (root pre) key depth i buffer_gc na pa) new ∧
    post = mkBS (memtable pre) new.
  (** 1160-1165 *)
  Definition post_compact (l : LB) (key : Key) (depth a b : nat) (compacted : T) (na : TwoAddrs)
      (pa : list Address) : LB :=
    path_substitute l key depth (compact (path_target l key depth) a b compacted na) pa.
  (** 1167-1177 *)
  Definition internal_compact (pre post : State) (l : Label) (new : LB) (key : Key) (depth a b : nat)
      (compacted : T) (na : TwoAddrs) (pa : list Address) : Prop :=
    l = Internal ∧ can_compact (path_target (root pre) key depth) a b compacted (lb_bdv new) na ∧
    valid_path_replacement (root pre) key depth (two_no_dup na) (two_repr na) pa ∧
    valid_view (post_compact (root pre) key depth a b compacted na pa) new ∧
    post = mkBS (memtable pre) new.
  (** 1180-1189 *)
  Definition internal_buffer_noop (pre post : State) (l : Label) (new : LB) : Prop :=
    l = Internal ∧ valid_view (root pre) new ∧ reachable_buffers_preserved (root pre) new ∧
    post = mkBS (memtable pre) new.
  (** 1191-1193 *)
  Definition internal_noop (pre post : State) (l : Label) : Prop := l = Internal ∧ post = pre.
  (** 1195-1203 *)
  Definition initialize (s v : State) : Prop :=
    acyclic (root v) ∧ valid_buffer_dv (root v) ∧
    (∀ n, root_is (root v) n → LNode.my_domain n = total_domain) ∧
    mt_is_empty (memtable v) ∧ s = v.
  (** [next], as the state machine macro generates it. *)
  (** [next], which the state_machine! macro generates from the transitions of LinkedBetree_v.rs 1063-1471. *)
  Definition next (pre post : State) (l : Label) : Prop :=
    (∃ receipt, query pre post l receipt) ∨ put pre post l ∨ freeze_as pre post l ∨
    (∃ sealed new na, internal_flush_memtable pre post l sealed new na) ∨
    (∃ a, internal_grow pre post l a) ∨
    (∃ new key depth r na pa, internal_split pre post l new key depth r na pa) ∨
    (∃ new key depth i gc na pa, internal_flush pre post l new key depth i gc na pa) ∨
    (∃ new key depth a b cb na pa, internal_compact pre post l new key depth a b cb na pa) ∨
    (∃ new, internal_buffer_noop pre post l new) ∨
    internal_noop pre post l.
  (** 1209-1240: the steps of [next_by] that also satisfy [strong_step]: the new
      addresses are unused, and no reachable buffer is dropped. All of the code's
      refinement lemmas are about these; the layer above has to provide them. *)
  Definition strong_next (pre post : State) (l : Label) : Prop :=
    (∃ receipt, query pre post l receipt) ∨ put pre post l ∨ freeze_as pre post l ∨
    (∃ sealed new na, internal_flush_memtable pre post l sealed new na ∧
       is_fresh (root pre) (two_repr na) ∧
       reachable_buffers_preserved (push_memtable (root pre) sealed na) new) ∨
    (∃ a, internal_grow pre post l a ∧ is_fresh (root pre) {[ a ]}) ∨
    (∃ new key depth r na pa, internal_split pre post l new key depth r na pa ∧
       is_fresh (root pre) (split_repr na) ∧ is_fresh (root pre) (list_to_set pa) ∧
       reachable_buffers_preserved (post_split (root pre) key depth r na pa) new) ∨
    (∃ new key depth i gc na pa, internal_flush pre post l new key depth i gc na pa ∧
       is_fresh (root pre) (two_repr na) ∧ is_fresh (root pre) (list_to_set pa) ∧
       reachable_buffers_preserved (post_flush (root pre) key depth i gc na pa) new) ∨
    (∃ new key depth a b cb na pa, internal_compact pre post l new key depth a b cb na pa ∧
       is_fresh (root pre) (two_repr na) ∧ is_fresh (root pre) (list_to_set pa) ∧
       reachable_buffers_preserved (post_compact (root pre) key depth a b cb na pa) new) ∨
    (∃ new, internal_buffer_noop pre post l new) ∨
    internal_noop pre post l.
  End Linked.
  (** 1058-1061 *)
  Definition empty_image : Stamped (LinkedBetree (gmap N Message)) := mkStamped (mkLB None ∅ ∅) 0.
End Linked.
