(** Model of Splinter/src/spec/KeyType_t.rs (key order, searches) and of
    Splinter/src/betree/: Buffer_v.rs, Memtable_v.rs, Domain_v.rs,
    PivotTable_v.rs, OffsetMap_v.rs, BufferOffsets_v.rs, BufferSeq_v.rs,
    SplitRequest_v.rs, PagedBetree_v.rs, PivotBetree_v.rs,
    FilteredBetree_v.rs. Definitions only.

    Conventions. [Seq::subrange(a,b)] is [take (b - a) (drop a l)]. A Verus set
    of keys is a boolean predicate on keys, so only decidable sets are
    quantified over. *)
From Verif Require Export Abs_Model.

(** vstd [Seq::subrange], [Seq::insert]. *)
(** A vstd function: no counterpart in /repo. *)
Definition subrange {A} (l : list A) (a b : nat) : list A := take (b - a) (drop a l).
(** A vstd function: no counterpart in /repo. *)
Definition seq_insert {A} (l : list A) (i : nat) (x : A) : list A := take i l ++ x :: drop i l.

(** ** Keys and elements (KeyType_t.rs) *)
(** 71-73 *)
Definition key_lte (a b : Key) : Prop := (a ≤ b)%N.
(** 75-78 *)
Definition key_lt (a b : Key) : Prop := key_lte a b ∧ a ≠ b.
(** Decidable equality, or an order's decision procedure: no counterpart in /repo. *)
Global Instance key_lte_dec a b : Decision (key_lte a b).
Proof. unfold key_lte. apply _. Defined.
(** Decidable equality, or an order's decision procedure: no counterpart in /repo. *)
Global Instance key_lt_dec a b : Decision (key_lt a b).
Proof. unfold key_lt. apply _. Defined.
(** 44-49 *)
Inductive Element := EMax | Elem (e : N).
(** Decidable equality, or an order's decision procedure: no counterpart in /repo. *)
Global Instance Element_eq_dec : EqDecision Element.
Proof. solve_decision. Defined.
(** 62-64 *)
Definition to_element (k : Key) : Element := Elem k.
(** 248-251 *)
Definition elt_lte (a b : Element) : Prop :=
  match b with
  | EMax => True
  | Elem y => match a with Elem x => key_lte x y | EMax => False end
  end.
(** Decidable equality, or an order's decision procedure: no counterpart in /repo. *)
Global Instance elt_lte_dec a b : Decision (elt_lte a b).
Proof. unfold elt_lte. destruct b; [left; exact I|]. destruct a; [right; tauto|apply _]. Defined.
(** 253-256 *)
Definition elt_lt (a b : Element) : Prop := elt_lte a b ∧ a ≠ b.
(** Decidable equality, or an order's decision procedure: no counterpart in /repo. *)
Global Instance elt_lt_dec a b : Decision (elt_lt a b).
Proof. unfold elt_lt. apply _. Defined.
(** 298-301 *)
Definition min_elem : Element := Elem 0.
(** [elem is Elem] *)
(** The Verus test [elem is Elem] on KeyType_t.rs 44-49. *)
Definition is_elem (a : Element) : Prop := a ≠ EMax.

(** 121-123, 80-82 (keys); 303-309 (elements) *)
Definition keys_sorted (run : list Key) : Prop :=
  ∀ i j a b, i ≤ j → run !! i = Some a → run !! j = Some b → key_lte a b.
(** KeyType_t.rs 80-82 *)
Definition keys_strictly_sorted (run : list Key) : Prop :=
  ∀ i j a b, i < j → run !! i = Some a → run !! j = Some b → key_lt a b.
(** KeyType_t.rs 303-305 *)
Definition elts_sorted (run : list Element) : Prop :=
  ∀ i j a b, i ≤ j → run !! i = Some a → run !! j = Some b → elt_lte a b.
(** KeyType_t.rs 307-309 *)
Definition elts_strictly_sorted (run : list Element) : Prop :=
  ∀ i j a b, i < j → run !! i = Some a → run !! j = Some b → elt_lt a b.

(** 91-99 *)
Fixpoint key_largest_lte (run : list Key) (needle : Key) : Z :=
  match run with
  | [] => -1
  | x :: rest => if decide (key_lt needle x) then -1 else 1 + key_largest_lte rest needle
  end%Z.
(** 101-109 *)
Fixpoint key_largest_lt (run : list Key) (needle : Key) : Z :=
  match run with
  | [] => -1
  | x :: rest => if decide (key_lte needle x) then -1 else 1 + key_largest_lt rest needle
  end%Z.
(** 111-119; [union_prefer_right] is std++ union with the arguments swapped. *)
Definition map_pivoted_union {V} (left : gmap Key V) (pivot : Key) (right : gmap Key V) : gmap Key V :=
  filter (λ kv, key_lte pivot kv.1) right ∪ filter (λ kv, key_lt kv.1 pivot) left.
(** 331-339 *)
Fixpoint elt_largest_lte (run : list Element) (needle : Element) : Z :=
  match run with
  | [] => -1
  | x :: rest => if decide (elt_lt needle x) then -1 else 1 + elt_largest_lte rest needle
  end%Z.

(** ** Domain (Domain_v.rs) *)
(** 9-12; the [EmptyDomain] variant is never constructed by the be-tree code
    and is not modelled. *)
Record Domain := mkDomain { dom_start : Element; dom_end : Element }.
(** 16-19 *)
Definition total_domain : Domain := mkDomain min_elem EMax.
(** 30-35 *)
Definition dom_contains (d : Domain) (k : Key) : Prop :=
  elt_lte (dom_start d) (to_element k) ∧ elt_lt (to_element k) (dom_end d).
(** Decidable equality, or an order's decision procedure: no counterpart in /repo. *)
Global Instance dom_contains_dec d k : Decision (dom_contains d k).
Proof. unfold dom_contains. apply _. Defined.
(** 45-48: the key set of a domain. *)
Definition key_set (d : Domain) : Key → bool := λ k, bool_decide (dom_contains d k).

(** ** PivotTable (PivotTable_v.rs): [PivotTable{pivots}] is the list. *)
Notation PivotTable := (list Element) (only parsing).
(** Verus indexing; out of range it is unspecified, here [EMax]. Every use below
    is under a [wf] that puts the index in range. *)
(** The Verus expression [pivots[i]]. *)
Definition pivot_at (p : PivotTable) (i : nat) : Element := nth i p EMax.
(** The Verus expression [pivots.last()]. *)
Definition pivot_last (p : PivotTable) : Element := nth (length p - 1) p EMax.
(** 28-31 *)
Definition domain_to_pivots (d : Domain) : PivotTable := [dom_start d; dom_end d].
(** 35-38; [int] in Rust, only used for non-empty tables. *)
Definition num_ranges (p : PivotTable) : nat := length p - 1.
(** 40-45 *)
Definition pt_wf (p : PivotTable) : Prop :=
  0 < num_ranges p ∧ elts_strictly_sorted p ∧
  ∀ i a, i < num_ranges p → p !! i = Some a → is_elem a.
(** 59-63 *)
Definition pt_update (p : PivotTable) (i : nat) (e : Element) : PivotTable := <[i := e]> p.
(** 65-69 *)
Definition pt_subrange (p : PivotTable) (a b : nat) : PivotTable := subrange p a b.
(** 71-79 *)
Definition pt_can_insert (p : PivotTable) (i : nat) (e : Element) : Prop :=
  pt_wf p ∧ is_elem e ∧ i ≤ length p ∧
  (i = 0 → elt_lt e (pivot_at p 0)) ∧
  (i = length p → elt_lt (pivot_last p) e) ∧
  (0 < i < length p → elt_lt (pivot_at p (i - 1)) e ∧ elt_lt e (pivot_at p i)).
(** 81-85 *)
Definition pt_insert (p : PivotTable) (i : nat) (e : Element) : PivotTable := seq_insert p i e.
(** 105-111 *)
Definition bounded_key (p : PivotTable) (k : Key) : Prop :=
  elt_lte (pivot_at p 0) (to_element k) ∧ elt_lt (to_element k) (pivot_last p).
(** Decidable equality, or an order's decision procedure: no counterpart in /repo. *)
Global Instance bounded_key_dec p k : Decision (bounded_key p k).
Proof. unfold bounded_key. apply _. Defined.
(** 113-119 *)
Definition route (p : PivotTable) (k : Key) : Z := elt_largest_lte p (to_element k).
(** The routing result as a sequence index. *)
(** PivotTable_v.rs 113-119, as an index *)
Definition route_idx (p : PivotTable) (k : Key) : nat := Z.to_nat (route p k).

(** ** SimpleBuffer (Buffer_v.rs): [SimpleBuffer{map}] is the map. Simplification:
    finite maps. *)
Notation SimpleBuffer := (gmap N Message) (only parsing).
(** 48-58 *)
Definition buf_query (b : SimpleBuffer) (k : Key) : Message :=
  default (Update nop_delta) (b !! k).
(** 64-66 *)
Definition buf_filter (accept : Key → bool) (b : SimpleBuffer) : SimpleBuffer :=
  filter (λ kv, accept kv.1 = true) b.
(** 68-79 *)
Definition buf_merge (b new : SimpleBuffer) : SimpleBuffer :=
  union_with (λ old new, Some (merge old new)) b new.
(** 85-87 *)
Definition buf_insert (b : SimpleBuffer) (k : Key) (m : Message) : SimpleBuffer := <[k := m]> b.

(** ** Memtable (Memtable_v.rs) *)
(** 19-22 *)
Record Memtable := mkMT { mt_buffer : SimpleBuffer; mt_seq_end : LSN }.
(** 26-31 *)
Definition empty_memtable (lsn : LSN) : Memtable := mkMT ∅ lsn.
(** 33-35 *)
Definition mt_drain (mt : Memtable) : Memtable := empty_memtable (mt_seq_end mt).
(** 37-40 *)
Definition mt_query (mt : Memtable) (k : Key) : Message := buf_query (mt_buffer mt) k.
(** 47-50 *)
Definition mt_is_empty (mt : Memtable) : Prop := mt_buffer mt = ∅.
(** 52-58 *)
Definition apply_put (mt : Memtable) (km : KeyedMessage) : Memtable :=
  mkMT (buf_insert (mt_buffer mt) (km_key km) (merge (mt_query mt (km_key km)) (km_message km)))
       (mt_seq_end mt + 1).
(** 60-70, with the recursion on the number of messages (as [apply_first]). *)
Fixpoint apply_puts_first (ms : gmap LSN KeyedMessage) (start n : nat) (mt : Memtable) : Memtable :=
  match n with
  | 0 => mt
  | S n' =>
      let sub := apply_puts_first ms start n' mt in
      match ms !! (start + n') with
      | Some km => apply_put sub km
      | None => mkMT (mt_buffer sub) (mt_seq_end sub + 1)
      end
  end.
(** Memtable_v.rs 60-70 *)
Definition apply_puts (mt : Memtable) (puts : MsgHistory) : Memtable :=
  apply_puts_first (msgs puts) (seq_start puts) (seq_end puts - seq_start puts) mt.

(** ** BufferSeq (BufferSeq_v.rs): [BufferSeq{buffers}] is the list, oldest first. *)
Notation BufferSeq := (list (gmap N Message)) (only parsing).
(** 48-62: the merge of all buffers of a list; [query_from(key, start)] applies it
    to the suffix from [start]. *)
Fixpoint bufs_query (bs : BufferSeq) (k : Key) : Message :=
  match bs with
  | [] => Update nop_delta
  | b :: rest => merge (buf_query b k) (bufs_query rest k)
  end.
(** BufferSeq_v.rs 48-59 *)
Definition query_from (bs : BufferSeq) (k : Key) (start : nat) : Message :=
  bufs_query (drop start bs) k.
(** 72-77 *)
Definition update_subrange (bs : BufferSeq) (a b : nat) (new : SimpleBuffer) : BufferSeq :=
  take a bs ++ [new] ++ drop b bs.
(** 95-99, 120-127; an [OffsetMap] (OffsetMap_v.rs) is a function. *)
Definition key_in_buffer_filtered (bs : BufferSeq) (offsets : Key → nat) (from_idx : nat)
    (k : Key) (buffer_idx : nat) : Prop :=
  from_idx ≤ buffer_idx ∧ (∃ b, bs !! buffer_idx = Some b ∧ is_Some (b !! k)) ∧
  offsets k ≤ buffer_idx.
(** OffsetMap_v.rs 37-42; truncated subtraction is the code's case split. *)
Definition offsets_decrement (offsets : Key → nat) (i : nat) : Key → nat := λ k, offsets k - i.

(** ** BufferOffsets (BufferOffsets_v.rs): the list of offsets. *)
Notation BufferOffsets := (list nat) (only parsing).
(** 23-27 *)
Definition ofs_slice (o : BufferOffsets) (a b : nat) : BufferOffsets := subrange o a b.
(** 29-33 *)
Definition ofs_dup (o : BufferOffsets) (i : nat) : BufferOffsets := seq_insert o i (nth i o 0).
(** 35-39 *)
Definition ofs_update (o : BufferOffsets) (i v : nat) : BufferOffsets := <[i := v]> o.
(** 41-49 *)
Definition ofs_all_lte (o : BufferOffsets) (n : nat) : Prop := Forall (λ x, x ≤ n) o.
(** BufferOffsets_v.rs 46-49 *)
Definition ofs_all_gte (o : BufferOffsets) (n : nat) : Prop := Forall (λ x, x ≥ n) o.
(** 51-55 *)
Definition ofs_shift_left (o : BufferOffsets) (n : nat) : BufferOffsets := (λ x, x - n) <$> o.
(** 64-76 *)
Definition ofs_adjust_compact (o : BufferOffsets) (a b : nat) : BufferOffsets :=
  (λ x, if decide (x ≤ a) then x else if decide (x < b) then a else x - (b - a) + 1) <$> o.

(** SplitRequest_v.rs 10-13 *)
Inductive SplitRequest :=
  | SplitLeaf (child_idx : nat) (split_key : Key)
  | SplitIndex (child_idx child_pivot_idx : nat).

(** ** State and labels, the same in PagedBetree_v.rs (328-343),
    PivotBetree_v.rs (487-502) and FilteredBetree_v.rs (612-627), up to the type
    [T] of trees. *)
Record BState (T : Type) := mkBS { memtable : Memtable; root : T }.
Arguments mkBS {T}. Arguments memtable {T}. Arguments root {T}.
(** PagedBetree_v.rs 337-343, PivotBetree_v.rs 496-502, FilteredBetree_v.rs 621-627 *)
Inductive BLabel (T : Type) :=
  | Query (end_lsn : LSN) (key : Key) (value : Value)
  | Put (puts : MsgHistory)
  | FreezeAs (stamped_betree : Stamped T)
  | Internal.
Arguments Query {T}. Arguments Put {T}. Arguments FreezeAs {T}. Arguments Internal {T}.

(** ** PagedBetree (PagedBetree_v.rs) *)
Module Paged.
  (** 38-41, 61-67: [ChildMap] is a total function on keys, so [wf] (48-53, 70-74)
      holds by typing. *)
  Inductive BetreeNode :=
    | Nil
    | Node (buffer : SimpleBuffer) (children : Key → BetreeNode).
  (** 34-36 *)
  Definition empty_image : Stamped BetreeNode := mkStamped Nil 0.
  (** 43-45 *)
  Definition constant_child_map (target : BetreeNode) : Key → BetreeNode := λ _, target.
  (** [self is Node] *)
  (** The Verus test [self is Node] on PagedBetree_v.rs 62-67. *)
  Definition is_node (n : BetreeNode) : Prop := n ≠ Nil.
  (** [self->buffer], [self->children]; unspecified on [Nil]. *)
  (** The Verus projection [self->buffer] of PagedBetree_v.rs 62-67. *)
  Definition buffer_of (n : BetreeNode) : SimpleBuffer := match n with Nil => ∅ | Node b _ => b end.
  (** 76-82 *)
  Definition child (n : BetreeNode) (k : Key) : BetreeNode :=
    match n with Nil => Nil | Node _ ch => ch k end.
  (** 84-89 *)
  Definition empty_root : BetreeNode := Node ∅ (constant_child_map Nil).
  (** 91-97 *)
  Definition promote (n : BetreeNode) : BetreeNode :=
    match n with Nil => empty_root | _ => n end.
  (** 99-104 *)
  Definition merge_buffer (n : BetreeNode) (new : SimpleBuffer) : BetreeNode :=
    Node (buf_merge (buffer_of n) new) (child n).
  (** 106-111 *)
  Definition push_memtable (n : BetreeNode) (mt : Memtable) : Stamped BetreeNode :=
    mkStamped (merge_buffer (promote n) (mt_buffer mt)) (mt_seq_end mt).
  (** 113-125 *)
  Definition filter_buffer_and_children (n : BetreeNode) (f : Key → bool) : BetreeNode :=
    match n with
    | Nil => Nil
    | Node b ch => Node (buf_filter f b) (λ k, if f k then ch k else Nil)
    end.
  (** 127-139 *)
  Definition split (n : BetreeNode) (left_keys right_keys : Key → bool) : BetreeNode :=
    Node (buffer_of n)
      (λ k, if left_keys k then filter_buffer_and_children (child n k) left_keys
            else if right_keys k then filter_buffer_and_children (child n k) right_keys
            else child n k).
  (** 141-152 *)
  Definition flush (n : BetreeNode) (down_keys : Key → bool) : BetreeNode :=
    let kept_buffer := buf_filter (λ k, negb (down_keys k)) (buffer_of n) in
    let moved_buffer := buf_filter down_keys (buffer_of n) in
    Node kept_buffer
      (λ k, if down_keys k then merge_buffer (promote (child n k)) moved_buffer else child n k).

  (** 157-160, 172-176 *)
  Record Line := mkLine { line_node : BetreeNode; line_result : Message }.
  (** PagedBetree_v.rs 172-176 *)
  Record QueryReceipt := mkReceipt { rc_key : Key; rc_root : BetreeNode; rc_lines : list Line }.
  (** [result is Define], as in 163-166 (nodes are well formed by typing) *)
  Definition is_define (m : Message) : Prop := ∃ v, m = Define v.
  (** 179-186 *)
  Definition structure (r : QueryReceipt) : Prop :=
    (∃ l0, rc_lines r !! 0 = Some l0 ∧ line_node l0 = rc_root r) ∧
    (∀ i l, rc_lines r !! i = Some l → (is_node (line_node l) ↔ i < length (rc_lines r) - 1)) ∧
    (∃ ll, rc_lines r !! (length (rc_lines r) - 1) = Some ll ∧ line_result ll = message_empty).
  (** 188-190 *)
  Definition all_lines_wf (r : QueryReceipt) : Prop :=
    Forall (λ l, is_define (line_result l)) (rc_lines r).
  (** 192-208 *)
  Definition child_linked_at (r : QueryReceipt) (i : nat) : Prop :=
    ∀ l l', rc_lines r !! i = Some l → rc_lines r !! S i = Some l' →
      line_node l' = child (line_node l) (rc_key r).
  (** 216-224 *)
  Definition result_linked_at (r : QueryReceipt) (i : nat) : Prop :=
    ∀ l l', rc_lines r !! i = Some l → rc_lines r !! S i = Some l' →
      line_result l = merge (line_result l') (buf_query (buffer_of (line_node l)) (rc_key r)).
  (** 226-231 *)
  Definition receipt_valid (r : QueryReceipt) : Prop :=
    structure r ∧ all_lines_wf r ∧
    (∀ i, i < length (rc_lines r) - 1 → child_linked_at r i) ∧
    (∀ i, i < length (rc_lines r) - 1 → result_linked_at r i).
  (** 210-214, 233-237 *)
  Definition receipt_result (r : QueryReceipt) (m : Message) : Prop :=
    ∃ l0, rc_lines r !! 0 = Some l0 ∧ line_result l0 = m.
  (** 239-243 *)
  Definition valid_for (r : QueryReceipt) (n : BetreeNode) (k : Key) : Prop :=
    receipt_valid r ∧ rc_root r = n ∧ rc_key r = k.

  (** 247-251; [routing] is a list of key sets. *)
  (** 263-281, with [subpath] 254-261 *)
  Fixpoint path_valid (n : BetreeNode) (key : Key) (routing : list (Key → bool)) : Prop :=
    is_node n ∧
    match routing with
    | [] => True
    | r :: rest =>
        path_valid (child n key) key rest ∧
        ∀ k, r k = true → child n k = child n key
    end.
  (** 283-292 *)
  Fixpoint path_target (n : BetreeNode) (key : Key) (routing : list (Key → bool)) : BetreeNode :=
    match routing with
    | [] => n
    | _ :: rest => path_target (child n key) key rest
    end.
  (** 294-323 *)
  Fixpoint path_substitute (n : BetreeNode) (key : Key) (routing : list (Key → bool))
      (replacement : BetreeNode) : BetreeNode :=
    match routing with
    | [] => replacement
    | r :: rest =>
        let replaced_child := path_substitute (child n key) key rest replacement in
        Node (buffer_of n) (λ k, if r k then replaced_child else child n k)
    end.

  (** PagedBetree_v.rs 327-331 *)
  Notation State := (BState BetreeNode) (only parsing).
  (** PagedBetree_v.rs 337-343 *)
  Notation Label := (BLabel BetreeNode) (only parsing).
  (** 345-350 *)
  Definition query (pre post : State) (l : Label) (receipt : QueryReceipt) : Prop :=
    ∃ end_lsn key value result, l = Query end_lsn key value ∧
      end_lsn = mt_seq_end (memtable pre) ∧ valid_for receipt (root pre) key ∧
      receipt_result receipt result ∧
      Define value = merge result (mt_query (memtable pre) key) ∧ post = pre.
  (** 352-357 *)
  Definition put (pre post : State) (l : Label) : Prop :=
    ∃ puts, l = Put puts ∧ mh_wf puts ∧ seq_start puts = mt_seq_end (memtable pre) ∧
      post = mkBS (apply_puts (memtable pre) puts) (root pre).
  (** 359-364 *)
  Definition freeze_as (pre post : State) (l : Label) : Prop :=
    mt_is_empty (memtable pre) ∧
    l = FreezeAs (mkStamped (root pre) (mt_seq_end (memtable pre))) ∧ post = pre.
  (** 366-371 *)
  Definition internal_flush_memtable (pre post : State) (l : Label) : Prop :=
    l = Internal ∧
    post = mkBS (mt_drain (memtable pre)) (st_value (push_memtable (root pre) (memtable pre))).
  (** 373-380 *)
  Definition internal_grow (pre post : State) (l : Label) : Prop :=
    l = Internal ∧ post = mkBS (memtable pre) (Node ∅ (constant_child_map (root pre))).
  (** 382-387; [path.node] is [pre.root]. *)
  Definition internal_split (pre post : State) (l : Label) (key : Key) (routing : list (Key → bool))
      (left_keys right_keys : Key → bool) : Prop :=
    l = Internal ∧ path_valid (root pre) key routing ∧
    post = mkBS (memtable pre) (path_substitute (root pre) key routing
                 (split (path_target (root pre) key routing) left_keys right_keys)).
  (** 389-394 *)
  Definition internal_flush (pre post : State) (l : Label) (key : Key) (routing : list (Key → bool))
      (down_keys : Key → bool) : Prop :=
    l = Internal ∧ path_valid (root pre) key routing ∧
    post = mkBS (memtable pre) (path_substitute (root pre) key routing
                 (flush (path_target (root pre) key routing) down_keys)).
  (** 396-399 *)
  Definition internal_noop (pre post : State) (l : Label) : Prop := l = Internal ∧ post = pre.
  (** 401-405 *)
  Definition initialize (s : State) (img : Stamped BetreeNode) : Prop :=
    s = mkBS (empty_memtable (st_seq_end img)) (st_value img).
  (** [next], which the state_machine! macro generates from the transitions of PagedBetree_v.rs 327-406. *)
  Definition next (pre post : State) (l : Label) : Prop :=
    (∃ receipt, query pre post l receipt) ∨ put pre post l ∨ freeze_as pre post l ∨
    internal_flush_memtable pre post l ∨ internal_grow pre post l ∨
    (∃ key routing lk rk, internal_split pre post l key routing lk rk) ∨
    (∃ key routing dk, internal_flush pre post l key routing dk) ∨
    internal_noop pre post l.
End Paged.

(** ** Trees that route by pivots.

    PivotBetree_v.rs and FilteredBetree_v.rs repeat the same node, receipt and
    path code around different node contents. The shared part is stated once,
    for nodes whose contents have type [D], with
    - [dwf d n]: the part of [local_structure] that concerns the contents of a
      node with [n] children, and
    - [q d i k]: the message the contents hold for key [k] routed to child [i].
    Line numbers are Pivot / Filtered. *)
Module Routed.
  Section Routed.
  Context {D : Type} (dwf : D → nat → Prop) (q : D → nat → Key → Message).
  (** 28-36 / 36-45 *)
  Inductive BetreeNode :=
    | Nil
    | Node (contents : D) (pivots : PivotTable) (children : list BetreeNode).
  (** The Verus test [self is Node] on PivotBetree_v.rs 29-36, FilteredBetree_v.rs 37-45. *)
  Definition is_node (n : BetreeNode) : Prop := n ≠ Nil.
  (** The Verus projection [self->pivots] of PivotBetree_v.rs 29-36, FilteredBetree_v.rs 37-45. *)
  Definition pivots_of (n : BetreeNode) : PivotTable := match n with Nil => [] | Node _ p _ => p end.
  (** The Verus projection [self->children] of PivotBetree_v.rs 29-36, FilteredBetree_v.rs 37-45. *)
  Definition children_of (n : BetreeNode) : list BetreeNode := match n with Nil => [] | Node _ _ c => c end.
  (** [self->children[i]]; unspecified out of range, here [Nil]. *)
  (** The Verus expression [self->children[i]] on PivotBetree_v.rs 29-36. *)
  Definition child_at (n : BetreeNode) (i : nat) : BetreeNode := nth i (children_of n) Nil.
  (** 39-45 / 49-57 *)
  Definition local_structure (n : BetreeNode) : Prop :=
    match n with
    | Nil => True
    | Node d p ch => pt_wf p ∧ length ch = num_ranges p ∧ dwf d (length ch)
    end.
  (** 47-51 / 59-63 *)
  Definition valid_child_index (n : BetreeNode) (i : nat) : Prop :=
    is_node n ∧ i < length (children_of n).
  (** 53-63 / 65-74 *)
  Definition my_domain (n : BetreeNode) : Domain :=
    mkDomain (pivot_at (pivots_of n) 0) (pivot_last (pivots_of n)).
  (** 66-76 / 77-87 *)
  Definition child_domain (n : BetreeNode) (i : nat) : Domain :=
    mkDomain (pivot_at (pivots_of n) i) (pivot_at (pivots_of n) (i + 1)).
  (** 78-90 / 89-101 *)
  Definition linked_children (n : BetreeNode) : Prop :=
    ∀ i c, children_of n !! i = Some c → is_node c → local_structure c →
      my_domain c = child_domain n i.
  (** 92-108 / 103-119 *)
  Fixpoint wf (n : BetreeNode) : Prop :=
    local_structure n ∧
    match n with
    | Nil => True
    | Node _ _ ch =>
        (fix wf_children l := match l with [] => True | c :: rest => wf c ∧ wf_children rest end) ch ∧
        linked_children n
    end.
  (** 301-306 / 406-411 *)
  Definition key_in_domain (n : BetreeNode) (k : Key) : Prop :=
    wf n ∧ is_node n ∧ bounded_key (pivots_of n) k.
  (** 308-316 / 413-422 *)
  Definition child (n : BetreeNode) (k : Key) : BetreeNode := child_at n (route_idx (pivots_of n) k).
  (** The buffered message a query finds in this node: 385 / 506-508. *)
  Definition node_msg (n : BetreeNode) (k : Key) : Message :=
    match n with Nil => Update nop_delta | Node d p _ => q d (route_idx p k) k end.
  (** 133-137 / 169-173 *)
  Definition is_index (n : BetreeNode) : Prop :=
    is_node n ∧ Forall is_node (children_of n).

  (** 319-336 / 438-455 *)
  Record Line := mkLine { line_node : BetreeNode; line_result : Message }.
  (** PivotBetree_v.rs 332-336, FilteredBetree_v.rs 451-455 *)
  Record QueryReceipt := mkReceipt { rc_key : Key; rc_root : BetreeNode; rc_lines : list Line }.
  (** 339-347 / 458-466 *)
  Definition structure (r : QueryReceipt) : Prop :=
    (∃ l0, rc_lines r !! 0 = Some l0 ∧ line_node l0 = rc_root r) ∧
    (∀ i l, rc_lines r !! i = Some l → (is_node (line_node l) ↔ i < length (rc_lines r) - 1)) ∧
    (∃ ll, rc_lines r !! (length (rc_lines r) - 1) = Some ll ∧ line_result ll = message_empty).
  (** 349-353 / 468-474 *)
  Definition all_lines_wf (r : QueryReceipt) : Prop :=
    (∀ i l, rc_lines r !! i = Some l → wf (line_node l) ∧ Paged.is_define (line_result l)) ∧
    (∀ i l, i < length (rc_lines r) - 1 → rc_lines r !! i = Some l → key_in_domain (line_node l) (rc_key r)).
  (** 355-371 / 476-492 *)
  Definition child_linked_at (r : QueryReceipt) (i : nat) : Prop :=
    ∀ l l', rc_lines r !! i = Some l → rc_lines r !! S i = Some l' →
      line_node l' = child (line_node l) (rc_key r).
  (** 379-387 / 500-510 *)
  Definition result_linked_at (r : QueryReceipt) (i : nat) : Prop :=
    ∀ l l', rc_lines r !! i = Some l → rc_lines r !! S i = Some l' →
      line_result l = merge (line_result l') (node_msg (line_node l) (rc_key r)).
  (** 389-395 / 512-518 *)
  Definition receipt_valid (r : QueryReceipt) : Prop :=
    structure r ∧ all_lines_wf r ∧
    (∀ i, i < length (rc_lines r) - 1 → child_linked_at r i) ∧
    (∀ i, i < length (rc_lines r) - 1 → result_linked_at r i).
  (** 397-401 / 520-524 *)
  Definition receipt_result (r : QueryReceipt) (m : Message) : Prop :=
    ∃ l0, rc_lines r !! 0 = Some l0 ∧ line_result l0 = m.
  (** 403-408 / 526-531 *)
  Definition valid_for (r : QueryReceipt) (n : BetreeNode) (k : Key) : Prop :=
    receipt_valid r ∧ rc_root r = n ∧ rc_key r = k.

  (** Paths: 411-483 / 534-608. [Path{node, key, depth}] is spread over the
      arguments; [subpath] is the recursive call. *)
  (** 427-434 / 550-557 *)
  Fixpoint path_valid (n : BetreeNode) (key : Key) (depth : nat) : Prop :=
    wf n ∧ key_in_domain n key ∧
    match depth with
    | 0 => True
    | S d => is_index n ∧ path_valid (child n key) key d
    end.
  (** 436-446 / 559-570 *)
  Fixpoint path_target (n : BetreeNode) (key : Key) (depth : nat) : BetreeNode :=
    match depth with 0 => n | S d => path_target (child n key) key d end.
  (** 457-482 / 581-607 *)
  Fixpoint path_substitute (n : BetreeNode) (key : Key) (depth : nat) (replacement : BetreeNode) : BetreeNode :=
    match depth, n with
    | 0, _ => replacement
    | S d, Node c p ch =>
        Node c p (<[route_idx p key := path_substitute (child n key) key d replacement]> ch)
    | S _, Nil => Nil
    end.
  End Routed.
  Arguments BetreeNode : clear implicits.
  Arguments QueryReceipt : clear implicits.
End Routed.

(** ** PivotBetree (PivotBetree_v.rs): the contents of a node are one buffer. *)
Module Pivot.
  (** PivotBetree_v.rs 29-36 *)
  Notation BetreeNode := (Routed.BetreeNode (gmap N Message)) (only parsing).
  (** PivotBetree_v.rs 31-35 *)
  Notation Node := (@Routed.Node (gmap N Message)) (only parsing).
  (** PivotBetree_v.rs 30 *)
  Notation Nil := (@Routed.Nil (gmap N Message)) (only parsing).
  (** PivotBetree_v.rs 39-45: nothing is asked of the buffer. *)
  Definition dwf (b : SimpleBuffer) (n : nat) : Prop := True.
  (** 385 *)
  Definition q (b : SimpleBuffer) (i : nat) (k : Key) : Message := buf_query b k.
  (** PivotBetree_v.rs 100-108 *)
  Notation wf := (Routed.wf dwf) (only parsing).
  (** 24-26 *)
  Definition empty_image : Stamped BetreeNode := mkStamped Nil 0.
  (** 110-118; at [Nil] (outside [recommends]) nothing changes. *)
  Definition merge_buffer (n : BetreeNode) (new : SimpleBuffer) : BetreeNode :=
    match n with
    | Routed.Nil => Nil
    | Routed.Node b p ch => Node (buf_merge b new) p ch
    end.
  (** 243-251 *)
  Definition empty_root (d : Domain) : BetreeNode := Node ∅ (domain_to_pivots d) [Nil].
  (** 262-273 *)
  Definition promote (n : BetreeNode) (d : Domain) : BetreeNode :=
    match n with Routed.Nil => empty_root d | _ => n end.
  (** 120-124 *)
  Definition push_memtable (n : BetreeNode) (mt : Memtable) : BetreeNode :=
    merge_buffer (promote n total_domain) (mt_buffer mt).
  (** 126-131 *)
  Definition is_leaf (n : BetreeNode) : Prop :=
    Routed.is_node n ∧ Routed.children_of n = [Nil].
  (** 139-145 *)
  Definition can_split_leaf (n : BetreeNode) (split_key : Key) : Prop :=
    wf n ∧ is_leaf n ∧ dom_contains (Routed.my_domain n) split_key ∧
    dom_start (Routed.my_domain n) ≠ to_element split_key.
  (** 147-166 *)
  Definition split_leaf (n : BetreeNode) (split_key : Key) : BetreeNode * BetreeNode :=
    match n with
    | Routed.Nil => (Nil, Nil)
    | Routed.Node b p ch =>
        let left_filter := mkDomain (dom_start (Routed.my_domain n)) (to_element split_key) in
        let right_filter := mkDomain (to_element split_key) (dom_end (Routed.my_domain n)) in
        (Node (buf_filter (key_set left_filter) b) (pt_update p 1 (to_element split_key)) ch,
         Node (buf_filter (key_set right_filter) b) (pt_update p 0 (to_element split_key)) ch)
    end.
  (** 168-173 *)
  Definition can_split_index (n : BetreeNode) (pivot_idx : nat) : Prop :=
    wf n ∧ Routed.is_index n ∧ 0 < pivot_idx < num_ranges (Routed.pivots_of n).
  (** 175-195 *)
  Definition split_index (n : BetreeNode) (pivot_idx : nat) : BetreeNode * BetreeNode :=
    match n with
    | Routed.Nil => (Nil, Nil)
    | Routed.Node b p ch =>
        let split_element := pivot_at p pivot_idx in
        let left_filter := mkDomain (dom_start (Routed.my_domain n)) split_element in
        let right_filter := mkDomain split_element (dom_end (Routed.my_domain n)) in
        (Node (buf_filter (key_set left_filter) b) (pt_subrange p 0 (pivot_idx + 1)) (subrange ch 0 pivot_idx),
         Node (buf_filter (key_set right_filter) b) (pt_subrange p pivot_idx (length p))
              (subrange ch pivot_idx (length ch)))
    end.
  (** 197-211 *)
  Definition can_split_parent (n : BetreeNode) (r : SplitRequest) : Prop :=
    wf n ∧ Routed.is_node n ∧
    match r with
    | SplitLeaf i k => Routed.valid_child_index n i ∧ can_split_leaf (Routed.child_at n i) k
    | SplitIndex i j => Routed.valid_child_index n i ∧ can_split_index (Routed.child_at n i) j
    end.
  (** 213-241 *)
  Definition split_parent (n : BetreeNode) (r : SplitRequest) : BetreeNode :=
    match n with
    | Routed.Nil => Nil
    | Routed.Node b p ch =>
        match r with
        | SplitLeaf i k =>
            let '(new_left, new_right) := split_leaf (Routed.child_at n i) k in
            Node b (pt_insert p (i + 1) (to_element k)) (seq_insert (<[i := new_left]> ch) (i + 1) new_right)
        | SplitIndex i j =>
            let '(new_left, new_right) := split_index (Routed.child_at n i) j in
            let split_element := pivot_at (Routed.pivots_of (Routed.child_at n i)) j in
            Node b (pt_insert p (i + 1) split_element) (seq_insert (<[i := new_left]> ch) (i + 1) new_right)
        end
    end.
  (** 253-260 *)
  Definition grow (n : BetreeNode) : BetreeNode := Node ∅ (domain_to_pivots total_domain) [n].
  (** 275-280 *)
  Definition can_flush (n : BetreeNode) (i : nat) : Prop :=
    wf n ∧ Routed.is_node n ∧ Routed.valid_child_index n i.
  (** 282-299 *)
  Definition flush (n : BetreeNode) (i : nat) : BetreeNode :=
    match n with
    | Routed.Nil => Nil
    | Routed.Node b p ch =>
        let cd := Routed.child_domain n i in
        let kept_buffer := buf_filter (λ k, negb (key_set cd k)) b in
        let moved_buffer := buf_filter (key_set cd) b in
        let new_child := merge_buffer (promote (Routed.child_at n i) cd) moved_buffer in
        Node kept_buffer p (<[i := new_child]> ch)
    end.

  (** PivotBetree_v.rs 486-490 *)
  Notation State := (BState (Routed.BetreeNode (gmap N Message))) (only parsing).
  (** PivotBetree_v.rs 496-502 *)
  Notation Label := (BLabel (Routed.BetreeNode (gmap N Message))) (only parsing).
  (** 504-509 *)
  Definition query (pre post : State) (l : Label) (receipt : Routed.QueryReceipt (gmap N Message)) : Prop :=
    ∃ end_lsn key value result, l = Query end_lsn key value ∧
      end_lsn = mt_seq_end (memtable pre) ∧ Routed.valid_for dwf q receipt (root pre) key ∧
      Routed.receipt_result receipt result ∧
      Define value = merge result (mt_query (memtable pre) key) ∧ post = pre.
  (** 511-516 *)
  Definition put (pre post : State) (l : Label) : Prop :=
    ∃ puts, l = Put puts ∧ mh_wf puts ∧ seq_start puts = mt_seq_end (memtable pre) ∧
      post = mkBS (apply_puts (memtable pre) puts) (root pre).
  (** 518-523 *)
  Definition freeze_as (pre post : State) (l : Label) : Prop :=
    wf (root pre) ∧ mt_is_empty (memtable pre) ∧
    l = FreezeAs (mkStamped (root pre) (mt_seq_end (memtable pre))) ∧ post = pre.
  (** 525-530 *)
  Definition internal_flush_memtable (pre post : State) (l : Label) : Prop :=
    l = Internal ∧ wf (root pre) ∧
    post = mkBS (mt_drain (memtable pre)) (push_memtable (root pre) (memtable pre)).
  (** 532-536 *)
  Definition internal_grow (pre post : State) (l : Label) : Prop :=
    l = Internal ∧ wf (root pre) ∧ post = mkBS (memtable pre) (grow (root pre)).
  (** 538-544 *)
  Definition internal_split (pre post : State) (l : Label) (key : Key) (depth : nat) (r : SplitRequest) : Prop :=
    l = Internal ∧ Routed.path_valid dwf (root pre) key depth ∧
    let target := Routed.path_target (root pre) key depth in
    can_split_parent target r ∧
    post = mkBS (memtable pre) (Routed.path_substitute (root pre) key depth (split_parent target r)).
  (** 546-552 *)
  Definition internal_flush (pre post : State) (l : Label) (key : Key) (depth i : nat) : Prop :=
    l = Internal ∧ Routed.path_valid dwf (root pre) key depth ∧
    let target := Routed.path_target (root pre) key depth in
    can_flush target i ∧
    post = mkBS (memtable pre) (Routed.path_substitute (root pre) key depth (flush target i)).
  (** 554-557 *)
  Definition internal_noop (pre post : State) (l : Label) : Prop :=
    l = Internal ∧ wf (root pre) ∧ post = pre.
  (** 559-563 *)
  Definition initialize (s : State) (img : Stamped BetreeNode) : Prop :=
    wf (st_value img) ∧ s = mkBS (empty_memtable (st_seq_end img)) (st_value img).
  (** [next], which the state_machine! macro generates from the transitions of PivotBetree_v.rs 486-564. *)
  Definition next (pre post : State) (l : Label) : Prop :=
    (∃ receipt, query pre post l receipt) ∨ put pre post l ∨ freeze_as pre post l ∨
    internal_flush_memtable pre post l ∨ internal_grow pre post l ∨
    (∃ key depth r, internal_split pre post l key depth r) ∨
    (∃ key depth i, internal_flush pre post l key depth i) ∨
    internal_noop pre post l.
End Pivot.

(** ** FilteredBetree (FilteredBetree_v.rs): the contents of a node are a stack of
    buffers and, per child, the number of buffers already flushed to it. *)
Module Filtered.
  (** FilteredBetree_v.rs 40, 43 *)
  Record Contents := mkC { buffers : BufferSeq; flushed : BufferOffsets }.
  (** FilteredBetree_v.rs 37-45 *)
  Notation BetreeNode := (Routed.BetreeNode Contents) (only parsing).
  (** FilteredBetree_v.rs 39-44 *)
  Notation Node := (@Routed.Node Contents) (only parsing).
  (** FilteredBetree_v.rs 38 *)
  Notation Nil := (@Routed.Nil Contents) (only parsing).
  (** 54-55 *)
  Definition dwf (c : Contents) (n : nat) : Prop :=
    n = length (flushed c) ∧ ofs_all_lte (flushed c) (length (buffers c)).
  (** 506-508, with [flushed_ofs] 151-158 *)
  Definition q (c : Contents) (i : nat) (k : Key) : Message :=
    query_from (buffers c) k (nth i (flushed c) 0).
  (** FilteredBetree_v.rs 111-120 *)
  Notation wf := (Routed.wf dwf) (only parsing).
  (** 32-34 *)
  Definition empty_image : Stamped BetreeNode := mkStamped Nil 0.
  (** The Verus projections [self->buffers], [self->flushed] of FilteredBetree_v.rs 37-45. *)
  Definition contents_of (n : BetreeNode) : Contents :=
    match n with Routed.Nil => mkC [] [] | Routed.Node c _ _ => c end.
  (** 151-158 *)
  Definition flushed_ofs (n : BetreeNode) (k : Key) : nat :=
    nth (route_idx (Routed.pivots_of n) k) (flushed (contents_of n)) 0.
  (** 129-138; at [Nil] (outside [recommends]) nothing changes. *)
  Definition extend_buffer_seq (n : BetreeNode) (bs : BufferSeq) : BetreeNode :=
    match n with
    | Routed.Nil => Nil
    | Routed.Node c p ch => Node (mkC (buffers c ++ bs) (flushed c)) p ch
    end.
  (** 279-288 *)
  Definition empty_root (d : Domain) : BetreeNode := Node (mkC [] [0]) (domain_to_pivots d) [Nil].
  (** 300-311 *)
  Definition promote (n : BetreeNode) (d : Domain) : BetreeNode :=
    match n with Routed.Nil => empty_root d | _ => n end.
  (** 121-127 *)
  Definition push_memtable (n : BetreeNode) (mt : Memtable) : BetreeNode :=
    extend_buffer_seq (promote n total_domain) [mt_buffer mt].
  (** 160-167 *)
  Definition is_leaf (n : BetreeNode) : Prop :=
    Routed.is_node n ∧ Routed.children_of n = [Nil] ∧ flushed (contents_of n) = [0].
  (** 175-181 *)
  Definition can_split_leaf (n : BetreeNode) (split_key : Key) : Prop :=
    wf n ∧ is_leaf n ∧ dom_contains (Routed.my_domain n) split_key ∧
    dom_start (Routed.my_domain n) ≠ to_element split_key.
  (** 183-201 *)
  Definition split_leaf (n : BetreeNode) (split_key : Key) : BetreeNode * BetreeNode :=
    match n with
    | Routed.Nil => (Nil, Nil)
    | Routed.Node c p ch =>
        (Node c (pt_update p 1 (to_element split_key)) ch,
         Node c (pt_update p 0 (to_element split_key)) ch)
    end.
  (** 203-208 *)
  Definition can_split_index (n : BetreeNode) (pivot_idx : nat) : Prop :=
    wf n ∧ Routed.is_index n ∧ 0 < pivot_idx < num_ranges (Routed.pivots_of n).
  (** 210-229 *)
  Definition split_index (n : BetreeNode) (pivot_idx : nat) : BetreeNode * BetreeNode :=
    match n with
    | Routed.Nil => (Nil, Nil)
    | Routed.Node c p ch =>
        (Node (mkC (buffers c) (ofs_slice (flushed c) 0 pivot_idx))
              (pt_subrange p 0 (pivot_idx + 1)) (subrange ch 0 pivot_idx),
         Node (mkC (buffers c) (ofs_slice (flushed c) pivot_idx (length (flushed c))))
              (pt_subrange p pivot_idx (length p)) (subrange ch pivot_idx (length ch)))
    end.
  (** 231-245 *)
  Definition can_split_parent (n : BetreeNode) (r : SplitRequest) : Prop :=
    wf n ∧ Routed.is_node n ∧
    match r with
    | SplitLeaf i k => Routed.valid_child_index n i ∧ can_split_leaf (Routed.child_at n i) k
    | SplitIndex i j => Routed.valid_child_index n i ∧ can_split_index (Routed.child_at n i) j
    end.
  (** 247-277 *)
  Definition split_parent (n : BetreeNode) (r : SplitRequest) : BetreeNode :=
    match n with
    | Routed.Nil => Nil
    | Routed.Node c p ch =>
        match r with
        | SplitLeaf i k =>
            let '(new_left, new_right) := split_leaf (Routed.child_at n i) k in
            Node (mkC (buffers c) (ofs_dup (flushed c) i)) (pt_insert p (i + 1) (to_element k))
                 (seq_insert (<[i := new_left]> ch) (i + 1) new_right)
        | SplitIndex i j =>
            let '(new_left, new_right) := split_index (Routed.child_at n i) j in
            let split_element := pivot_at (Routed.pivots_of (Routed.child_at n i)) j in
            Node (mkC (buffers c) (ofs_dup (flushed c) i)) (pt_insert p (i + 1) split_element)
                 (seq_insert (<[i := new_left]> ch) (i + 1) new_right)
        end
    end.
  (** 290-298 *)
  Definition grow (n : BetreeNode) : BetreeNode := Node (mkC [] [0]) (domain_to_pivots total_domain) [n].
  (** 313-320 *)
  Definition can_flush (n : BetreeNode) (i buffer_gc : nat) : Prop :=
    wf n ∧ Routed.is_node n ∧ Routed.valid_child_index n i ∧
    ofs_all_gte (ofs_update (flushed (contents_of n)) i (length (buffers (contents_of n)))) buffer_gc.
  (** 322-357 *)
  Definition flush (n : BetreeNode) (i buffer_gc : nat) : BetreeNode :=
    match n with
    | Routed.Nil => Nil
    | Routed.Node c p ch =>
        let flush_upto := length (buffers c) in
        let flushed_ofs := nth i (flushed c) 0 in
        let buffers_to_child := subrange (buffers c) flushed_ofs flush_upto in
        let new_child :=
          extend_buffer_seq (promote (Routed.child_at n i) (Routed.child_domain n i)) buffers_to_child in
        let gc_buffers := subrange (buffers c) buffer_gc flush_upto in
        let gc_flushed := ofs_shift_left (ofs_update (flushed c) i flush_upto) buffer_gc in
        Node (mkC gc_buffers gc_flushed) p (<[i := new_child]> ch)
    end.
  (** 426-435; [key_in_domain] includes [wf], which is assumed where this is used. *)
  Definition make_offset_map (n : BetreeNode) : Key → nat := λ k,
    if decide (bounded_key (Routed.pivots_of n) k) then flushed_ofs n k
    else length (buffers (contents_of n)).
  (** 360-367 *)
  Definition valid_compact_key_domain (n : BetreeNode) (a b : nat) (k : Key) : Prop :=
    Routed.key_in_domain dwf n k ∧ flushed_ofs n k ≤ b ∧
    ∃ buffer_idx, key_in_buffer_filtered (subrange (buffers (contents_of n)) a b)
      (offsets_decrement (make_offset_map n) a) 0 k buffer_idx.
  (** 369-379; truncated subtraction is the code's case split on [from]. *)
  Definition can_compact (n : BetreeNode) (a b : nat) (compacted : SimpleBuffer) : Prop :=
    wf n ∧ Routed.is_node n ∧ a < b ≤ length (buffers (contents_of n)) ∧
    (∀ k, is_Some (compacted !! k) ↔ valid_compact_key_domain n a b k) ∧
    (∀ k, is_Some (compacted !! k) →
       buf_query compacted k =
       query_from (subrange (buffers (contents_of n)) a b) k (flushed_ofs n k - a)).
  (** 381-404 *)
  Definition compact (n : BetreeNode) (a b : nat) (compacted : SimpleBuffer) : BetreeNode :=
    match n with
    | Routed.Nil => Nil
    | Routed.Node c p ch =>
        Node (mkC (update_subrange (buffers c) a b compacted) (ofs_adjust_compact (flushed c) a b)) p ch
    end.

  (** FilteredBetree_v.rs 611-615 *)
  Notation State := (BState (Routed.BetreeNode Contents)) (only parsing).
  (** FilteredBetree_v.rs 621-627 *)
  Notation Label := (BLabel (Routed.BetreeNode Contents)) (only parsing).
  (** 629-634 *)
  Definition query (pre post : State) (l : Label) (receipt : Routed.QueryReceipt Contents) : Prop :=
    ∃ end_lsn key value result, l = Query end_lsn key value ∧
      end_lsn = mt_seq_end (memtable pre) ∧ Routed.valid_for dwf q receipt (root pre) key ∧
      Routed.receipt_result receipt result ∧
      Define value = merge result (mt_query (memtable pre) key) ∧ post = pre.
  (** 636-641 *)
  Definition put (pre post : State) (l : Label) : Prop :=
    ∃ puts, l = Put puts ∧ mh_wf puts ∧ seq_start puts = mt_seq_end (memtable pre) ∧
      post = mkBS (apply_puts (memtable pre) puts) (root pre).
  (** 643-648 *)
  Definition freeze_as (pre post : State) (l : Label) : Prop :=
    wf (root pre) ∧ mt_is_empty (memtable pre) ∧
    l = FreezeAs (mkStamped (root pre) (mt_seq_end (memtable pre))) ∧ post = pre.
  (** 650-655 *)
  Definition internal_flush_memtable (pre post : State) (l : Label) : Prop :=
    l = Internal ∧ wf (root pre) ∧
    post = mkBS (mt_drain (memtable pre)) (push_memtable (root pre) (memtable pre)).
  (** 657-661 *)
  Definition internal_grow (pre post : State) (l : Label) : Prop :=
    l = Internal ∧ wf (root pre) ∧ post = mkBS (memtable pre) (grow (root pre)).
  (** 663-669 *)
  Definition internal_split (pre post : State) (l : Label) (key : Key) (depth : nat) (r : SplitRequest) : Prop :=
    l = Internal ∧ Routed.path_valid dwf (root pre) key depth ∧
    let target := Routed.path_target (root pre) key depth in
    can_split_parent target r ∧
    post = mkBS (memtable pre) (Routed.path_substitute (root pre) key depth (split_parent target r)).
  (** 671-677 *)
  Definition internal_flush (pre post : State) (l : Label) (key : Key) (depth i buffer_gc : nat) : Prop :=
    l = Internal ∧ Routed.path_valid dwf (root pre) key depth ∧
    let target := Routed.path_target (root pre) key depth in
    can_flush target i buffer_gc ∧
    post = mkBS (memtable pre) (Routed.path_substitute (root pre) key depth (flush target i buffer_gc)).
  (** 679-685 *)
  Definition internal_compact (pre post : State) (l : Label) (key : Key) (depth a b : nat)
      (compacted : SimpleBuffer) : Prop :=
    l = Internal ∧ Routed.path_valid dwf (root pre) key depth ∧
    let target := Routed.path_target (root pre) key depth in
    can_compact target a b compacted ∧
    post = mkBS (memtable pre) (Routed.path_substitute (root pre) key depth (compact target a b compacted)).
  (** 687-690 *)
  Definition internal_noop (pre post : State) (l : Label) : Prop :=
    l = Internal ∧ wf (root pre) ∧ post = pre.
  (** 692-696 *)
  Definition initialize (s : State) (img : Stamped BetreeNode) : Prop :=
    wf (st_value img) ∧ s = mkBS (empty_memtable (st_seq_end img)) (st_value img).
  (** [next], which the state_machine! macro generates from the transitions of FilteredBetree_v.rs 611-697. *)
  Definition next (pre post : State) (l : Label) : Prop :=
    (∃ receipt, query pre post l receipt) ∨ put pre post l ∨ freeze_as pre post l ∨
    internal_flush_memtable pre post l ∨ internal_grow pre post l ∨
    (∃ key depth r, internal_split pre post l key depth r) ∨
    (∃ key depth i gc, internal_flush pre post l key depth i gc) ∨
    (∃ key depth a b cb, internal_compact pre post l key depth a b cb) ∨
    internal_noop pre post l.
End Filtered.
