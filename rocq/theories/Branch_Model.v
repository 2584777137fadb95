(** Model of the branches (b+-trees) of Splinter/src/betree/: PivotBranch_v.rs,
    the in-memory tree, and LinkedBranch_v.rs, the same tree with one node per
    disk address; and of the branch builder of
    Splinter/src/allocation_layer/AllocationBranch_v.rs. Definitions only.

    Conventions. Every [Path{node, key, depth}] of the code is used with
    [path.node == self] (respectively [path.branch == self]), so a path is the pair
    of its key and its depth. The [recommends] of a function that is a transition
    are its guard. Where a sequence is indexed out of range the code's value is
    unspecified; the default used here is named at each place, and the guards put
    every index in range. *)
From Verif Require Export Abs_Model Betree_Model Disk_Model AllocJournal_Model.

(** ** PivotBranch_v.rs *)
(** 29-32; LinkedBranch_v.rs 201-204 is the same type. [pivot_index] is an [int]
    that the guard makes non-negative. *)
Inductive SplitArg := SplitAtIndex (pivot : Key) (pivot_index : nat) | SplitAtKey (pivot : Key).
(** 52-59; LinkedBranch_v.rs 226-233 *)
Definition get_pivot (s : SplitArg) : Key :=
  match s with SplitAtIndex p _ => p | SplitAtKey p => p end.

Module PBranch.
  (** 85-88 *)
  Inductive Node :=
    | Index (pivots : list Key) (children : list Node)
    | Leaf (keys : list Key) (msgs : list Message).
  (** 428-430 *)
  Definition invalid_node : Node := Leaf [] [].
  (** 200-204 *)
  Definition keys_or_pivots (n : Node) : list Key :=
    match n with Leaf keys _ => keys | Index pivots _ => pivots end.
  (** 112-131 *)
  Fixpoint all_keys (n : Node) : gset Key :=
    match n with
    | Leaf keys _ => list_to_set keys
    | Index pivots children => list_to_set pivots ∪ ⋃ (map all_keys children)
    end.
  (** 133-142 *)
  Definition all_keys_below_bound (pivots : list Key) (children : list Node) (i : nat) : Prop :=
    ∀ c p key, children !! i = Some c → pivots !! i = Some p → key ∈ all_keys c → key_lt key p.
  (** 144-153 *)
  Definition all_keys_above_bound (pivots : list Key) (children : list Node) (i : nat) : Prop :=
    ∀ c p key, children !! i = Some c → pivots !! (i - 1) = Some p → key ∈ all_keys c → key_lte p key.
  (** 156-180 *)
  Fixpoint wf (n : Node) : Prop :=
    match n with
    | Leaf keys msgs => 0 < length keys ∧ length keys = length msgs ∧ keys_strictly_sorted keys
    | Index pivots children =>
        length children = S (length pivots) ∧ keys_strictly_sorted pivots ∧
        foldr (λ c rest, wf c ∧ rest) True children ∧
        (∀ i, i < length children - 1 → all_keys_below_bound pivots children i) ∧
        (∀ i, 0 < i < length children → all_keys_above_bound pivots children i)
    end.
  (** 189-198 *)
  Definition route (n : Node) (k : Key) : Z := key_largest_lte (keys_or_pivots n) k.
  (** [self.route(key) + 1], the index of the child (or the insertion point). *)
  Definition slot (n : Node) (k : Key) : nat := Z.to_nat (route n k + 1).
  (** [self->children[i]]; out of range [invalid_node]. *)
  (** The Verus expression [self->children[i]] on PivotBranch_v.rs 85-88. *)
  Definition child (n : Node) (i : nat) : Node :=
    match n with Index _ children => nth i children invalid_node | Leaf _ _ => invalid_node end.
  (** 223-238; all children are asked and the routed answer is kept. *)
  Fixpoint query (n : Node) (k : Key) : Message :=
    match n with
    | Leaf keys msgs =>
        let r := key_largest_lte keys k in
        if decide (0 ≤ r ∧ keys !! Z.to_nat r = Some k)%Z
        then nth (Z.to_nat r) msgs (Update nop_delta) else Update nop_delta
    | Index pivots children =>
        nth (Z.to_nat (key_largest_lte pivots k + 1)) (map (λ c, query c k) children) (Update nop_delta)
    end.
  (** 242-260; only used on leaves. *)
  Definition insert_leaf (n : Node) (k : Key) (m : Message) : Node :=
    match n with
    | Leaf keys msgs =>
        let r := route n k in
        if decide (0 ≤ r ∧ keys !! Z.to_nat r = Some k)%Z
        then Leaf keys (<[Z.to_nat r := m]> msgs)
        else Leaf (seq_insert keys (Z.to_nat (r + 1)) k) (seq_insert msgs (Z.to_nat (r + 1)) m)
    | Index _ _ => n
    end.
  (** 301-311; only used on leaves. *)
  Definition append_leaf (n : Node) (new_keys : list Key) (new_msgs : list Message) : Node :=
    match n with
    | Leaf keys msgs => Leaf (keys ++ new_keys) (msgs ++ new_msgs)
    | Index _ _ => n
    end.
  (** 35-50 *)
  Definition split_wf (s : SplitArg) (n : Node) : Prop :=
    match s, n with
    | SplitAtKey pivot, Leaf keys msgs =>
        length keys = length msgs ∧
        (0 < key_largest_lt keys pivot + 1 < Z.of_nat (length keys))%Z
    | SplitAtIndex pivot pivot_index, Index pivots _ =>
        wf n ∧ pivots !! pivot_index = Some pivot
    | _, _ => False
    end.
  (** 316-332 *)
  Definition split_leaf (keys : list Key) (msgs : list Message) (pivot : Key) : Node * Node :=
    let split_index := Z.to_nat (key_largest_lt keys pivot + 1) in
    (Leaf (take split_index keys) (take split_index msgs),
     Leaf (drop split_index keys) (drop split_index msgs)).
  (** 336-343 *)
  Definition sub_index (pivots : list Key) (children : list Node) (from to : nat) : Node :=
    Index (subrange pivots from (to - 1)) (subrange children from to).
  (** 358-370 *)
  Definition split_index (pivots : list Key) (children : list Node) (pivot_index : nat) : Node * Node :=
    (sub_index pivots children 0 (pivot_index + 1),
     sub_index pivots children (pivot_index + 1) (length children)).
  (** 373-381; a mismatched argument, excluded by [split_wf], splits nothing. *)
  Definition split_node (n : Node) (s : SplitArg) : Node * Node :=
    match n, s with
    | Leaf keys msgs, SplitAtKey pivot => split_leaf keys msgs pivot
    | Index pivots children, SplitAtIndex _ pivot_index => split_index pivots children pivot_index
    | _, _ => (n, n)
    end.
  (** 385-394 *)
  Definition can_split_child_of_index (n : Node) (s : SplitArg) : Prop :=
    wf n ∧ match n with
           | Index _ _ => split_wf s (child n (slot n (get_pivot s)))
           | Leaf _ _ => False
           end.
  (** 400-413 *)
  Definition split_child_of_index (n : Node) (s : SplitArg) : Node :=
    match n with
    | Index pivots children =>
        let pivot := get_pivot s in
        let child_idx := slot n pivot in
        let (left, right) := split_node (child n child_idx) s in
        Index (seq_insert pivots child_idx pivot)
              (seq_insert (<[child_idx := left]> children) (child_idx + 1) right)
    | Leaf _ _ => n
    end.

  (** *** Paths *)
  (** 446-467 *)
  Fixpoint valid (n : Node) (k : Key) (depth : nat) : Prop :=
    wf n ∧
    match depth with
    | O => True
    | S d => match n with
             | Index _ _ => valid (child n (slot n k)) k d
             | Leaf _ _ => False
             end
    end.
  (** 470-479 *)
  Fixpoint target (n : Node) (k : Key) (depth : nat) : Node :=
    match depth with O => n | S d => target (child n (slot n k)) k d end.
  (** 482-503; below a leaf, excluded by [valid], nothing is replaced. *)
  Fixpoint substitute (n : Node) (k : Key) (depth : nat) (replacement : Node) : Node :=
    match depth with
    | O => replacement
    | S d =>
        match n with
        | Index pivots children =>
            Index pivots (<[slot n k := substitute (child n (slot n k)) k d replacement]> children)
        | Leaf _ _ => n
        end
    end.
  (** 506-512 *)
  Fixpoint path_equiv (n : Node) (k other : Key) (depth : nat) : Prop :=
    route n k = route n other ∧
    match depth with O => True | S d => path_equiv (child n (slot n k)) k other d end.

  (** *** Transitions *)
  (** 264-274 *)
  Definition can_insert (n : Node) (k : Key) (depth : nat) : Prop :=
    wf n ∧ valid n k depth ∧ match target n k depth with Leaf _ _ => True | Index _ _ => False end.
  (** PivotBranch_v.rs 264-274 *)
  Definition insert (n : Node) (k : Key) (m : Message) (depth : nat) : Node :=
    substitute n k depth (insert_leaf (target n k depth) k m).
  (** 277-281 *)
  Definition grow (n : Node) : Node := Index [] [n].
  (** 285-299; the path's key is the first appended key. *)
  Definition can_append (n : Node) (keys : list Key) (msgs : list Message) (depth : nat) : Prop :=
    match keys, stdpp.list.last keys with
    | first :: _, Some final =>
        valid n first depth ∧ length keys = length msgs ∧ keys_strictly_sorted keys ∧
        match target n first depth with
        | Leaf old _ => ∃ top, stdpp.list.last old = Some top ∧ key_lt top first
        | Index _ _ => False
        end ∧
        path_equiv n first final depth
    | _, _ => False
    end.
  (** PivotBranch_v.rs 285-299 *)
  Definition append (n : Node) (keys : list Key) (msgs : list Message) (depth : nat) : Node :=
    match keys with
    | first :: _ => substitute n first depth (append_leaf (target n first depth) keys msgs)
    | [] => n
    end.
  (** 416-425 *)
  Definition can_split (n : Node) (s : SplitArg) (depth : nat) : Prop :=
    wf n ∧ valid n (get_pivot s) depth ∧ can_split_child_of_index (target n (get_pivot s) depth) s.
  (** PivotBranch_v.rs 416-425 *)
  Definition split (n : Node) (s : SplitArg) (depth : nat) : Node :=
    substitute n (get_pivot s) depth (split_child_of_index (target n (get_pivot s) depth) s).

  (** The calls a client makes, with what they return (the labels of
      PivotBranchRefinement_v.rs and the two internal reorganisations). *)
  Inductive Call :=
    | Query (k : Key) (m : Message)
    | Insert (k : Key) (m : Message) (depth : nat)
    | Append (keys : list Key) (msgs : list Message) (depth : nat)
    | Grow
    | Split (s : SplitArg) (depth : nat).
  (** 223-425: one call on a tree. *)
  Definition next (pre post : Node) (l : Call) : Prop :=
    match l with
    | Query k m => wf pre ∧ m = query pre k ∧ post = pre
    | Insert k m d => can_insert pre k d ∧ post = insert pre k m d
    | Append ks ms d => can_append pre ks ms d ∧ post = append pre ks ms d
    | Grow => wf pre ∧ post = grow pre
    | Split s d => can_split pre s d ∧ post = split pre s d
    end.
End PBranch.

(** ** LinkedBranch_v.rs *)
Module LBranch.
  (** 24-28 *)
  Inductive Node (T : Type) :=
    | Leaf (keys : list Key) (msgs : list Message)
    | Index (pivots : list Key) (children : list Address) (aux_ptr : Pointer)
    | Auxiliary (x : T).
  Global Arguments Leaf {T}. Global Arguments Index {T}. Global Arguments Auxiliary {T}.
  (** 71-74, 236-241: [DiskView{entries}] is the map. *)
  Record t (T : Type) := mk { root : Address; disk : gmap Address (Node T) }.
  Global Arguments mk {T}. Global Arguments root {T}. Global Arguments disk {T}.
  Section LBranch.
  Context {T : Type}.
  Implicit Types (dv : gmap Address (Node T)) (b : t T).

  (** [node is Auxiliary] *)
  (** The Verus test [node is Auxiliary] on LinkedBranch_v.rs 22-26. *)
  Definition is_aux (n : Node T) : Prop := match n with Auxiliary _ => True | _ => False end.
  (** 45-48; 50-53 *)
  Definition keys_or_pivots (n : Node T) : list Key :=
    match n with Leaf keys _ => keys | Index pivots _ _ => pivots | Auxiliary _ => [] end.
  (** [node->children]; none for the other nodes *)
  (** The Verus projection [node->children] of LinkedBranch_v.rs 22-26. *)
  Definition children (n : Node T) : list Address :=
    match n with Index _ cs _ => cs | _ => [] end.
  (** 31-43 *)
  Definition node_wf (n : Node T) : Prop :=
    match n with
    | Leaf keys msgs => 0 < length keys ∧ length keys = length msgs
    | Index pivots cs _ => length cs = S (length pivots)
    | Auxiliary _ => True
    end.
  (** 61-66 *)
  Definition route (n : Node T) (k : Key) : Z := key_largest_lte (keys_or_pivots n) k.
  (** LinkedBranch_v.rs 61-66: the index [route(key) + 1] that every caller takes. *)
  Definition slot (n : Node T) (k : Key) : nat := Z.to_nat (route n k + 1).

  (** 79-108 *)
  Definition disk_wf dv : Prop :=
    (∀ a n, dv !! a = Some n → node_wf n) ∧
    (∀ a n i c, dv !! a = Some n → children n !! i = Some c → ∃ m, dv !! c = Some m ∧ ¬ is_aux m).
  (** 142-162 *)
  Definition disk_valid_ranking dv (r : Ranking) : Prop :=
    ∀ a n ra, r !! a = Some ra → dv !! a = Some n →
      ∀ i c, children n !! i = Some c → ∃ rc, r !! c = Some rc ∧ rc < ra.
  (** 164-167, for one address *)
  Definition is_fresh dv (a : Address) : Prop := dv !! a = None.
  (** 169-172: [union_prefer_right] *)
  Definition merge_disk dv (other : gmap Address (Node T)) : gmap Address (Node T) := other ∪ dv.
  (** 179-182 *)
  Definition modify_disk dv (a : Address) (n : Node T) : gmap Address (Node T) := <[a := n]> dv.

  (** 346-350: the root node; unspecified without one, here an empty leaf. *)
  Definition root_node b : Node T := default (Leaf [] []) (disk b !! root b).
  (** 340-344 *)
  Definition has_root b : Prop := ∃ n, disk b !! root b = Some n ∧ ¬ is_aux n.
  (** 334-338 *)
  Definition wf b : Prop := disk_wf (disk b) ∧ has_root b.
  (** 372-377 *)
  Definition valid_ranking b (r : Ranking) : Prop :=
    disk_valid_ranking (disk b) r ∧ is_Some (r !! root b).
  (** 387-391 *)
  Definition acyclic b : Prop := wf b ∧ ∃ r, valid_ranking b r.
  (** 502-508; out of range the address is unspecified, here that of the root. *)
  Definition child_at_idx b (i : nat) : t T :=
    mk (nth i (children (root_node b)) (root b)) (disk b).
  (** 510-556: the addresses under an address. The code computes the set by
      recursion on a ranking; this is the same set as a least fixed point. *)
  Inductive reachable dv : Address → Address → Prop :=
    | reach_here a n : dv !! a = Some n → ¬ is_aux n → reachable dv a a
    | reach_child a n i c d :
        dv !! a = Some n → children n !! i = Some c → reachable dv c d → reachable dv a d.
  (** 427-476: the keys and pivots under an address, likewise. *)
  Definition in_all_keys dv (a : Address) (k : Key) : Prop :=
    ∃ d n, reachable dv a d ∧ dv !! d = Some n ∧ k ∈ keys_or_pivots n.
  (** 393-405: the recursion visits the root and every node under it. *)
  Definition keys_strictly_sorted_internal b : Prop :=
    ∀ a n, reachable (disk b) (root b) a → disk b !! a = Some n → keys_strictly_sorted (keys_or_pivots n).
  (** 407-425, 478-500: likewise *)
  Definition all_keys_in_range_internal b : Prop :=
    ∀ a pivots cs aux, reachable (disk b) (root b) a → disk b !! a = Some (Index pivots cs aux) →
      (∀ i c p k, i < length cs - 1 → cs !! i = Some c → pivots !! i = Some p →
         in_all_keys (disk b) c k → key_lt k p) ∧
      (∀ i c p k, 0 < i < length cs → cs !! i = Some c → pivots !! (i - 1) = Some p →
         in_all_keys (disk b) c k → key_lte p k).
  (** 352-364 *)
  Definition inv b : Prop :=
    acyclic b ∧ keys_strictly_sorted_internal b ∧ all_keys_in_range_internal b.
  (** 558-561 *)
  Definition tight_disk_view b : Prop :=
    acyclic b → ∀ a, reachable (disk b) (root b) a ↔ is_Some (disk b !! a).
  (** 366-370, 563-591: the recursion decreases the rank of the root, so the rank
      is the fuel; out of fuel or at an auxiliary node the value is unspecified. *)
  Fixpoint query_internal (fuel : nat) dv (a : Address) (k : Key) : Message :=
    match fuel with
    | O => Update nop_delta
    | S f =>
        match dv !! a with
        | Some (Leaf keys msgs) =>
            let r := key_largest_lte keys k in
            if decide (0 ≤ r ∧ keys !! Z.to_nat r = Some k)%Z
            then nth (Z.to_nat r) msgs (Update nop_delta) else Update nop_delta
        | Some (Index pivots cs _) =>
            query_internal f dv (nth (Z.to_nat (key_largest_lte pivots k + 1)) cs a) k
        | _ => Update nop_delta
        end
    end.
  (** 256-264, 379-384: the ranking is any valid one, so this is a relation. *)
  Definition query b (k : Key) (m : Message) : Prop :=
    (∃ r x, acyclic b ∧ valid_ranking b r ∧ r !! root b = Some x ∧
            m = query_internal (S x) (disk b) (root b) k) ∨
    (¬ acyclic b ∧ m = Update nop_delta).

  (** 593-608 *)
  Definition insert_leaf b (k : Key) (m : Message) : t T :=
    let keys := keys_or_pivots (root_node b) in
    let msgs := match root_node b with Leaf _ ms => ms | _ => [] end in
    let llte := key_largest_lte keys k in
    let new_node :=
      if decide (0 ≤ llte ∧ keys !! Z.to_nat llte = Some k)%Z
      then Leaf keys (<[Z.to_nat llte := m]> msgs)
      else Leaf (seq_insert keys (Z.to_nat (llte + 1)) k) (seq_insert msgs (Z.to_nat (llte + 1)) m) in
    mk (root b) (modify_disk (disk b) (root b) new_node).
  (** 610-622 *)
  Definition append_leaf b (new_keys : list Key) (new_msgs : list Message) : t T :=
    let keys := keys_or_pivots (root_node b) in
    let msgs := match root_node b with Leaf _ ms => ms | _ => [] end in
    mk (root b) (modify_disk (disk b) (root b) (Leaf (keys ++ new_keys) (msgs ++ new_msgs))).
  (** 207-224 *)
  Definition split_wf (s : SplitArg) b : Prop :=
    match s, root_node b with
    | SplitAtKey pivot, Leaf keys msgs =>
        length keys = length msgs ∧
        (0 < key_largest_lt keys pivot + 1 < Z.of_nat (length keys))%Z
    | SplitAtIndex pivot pivot_index, Index pivots cs _ =>
        length cs = S (length pivots) ∧ pivots !! pivot_index = Some pivot
    | _, _ => False
    end.
  (** 624-646: the disk after the split; both halves share it. *)
  Definition split_leaf b (keys : list Key) (msgs : list Message) (pivot : Key) (right_addr : Address) :
      gmap Address (Node T) :=
    let split_index := Z.to_nat (key_largest_lt keys pivot + 1) in
    modify_disk (modify_disk (disk b) (root b) (Leaf (take split_index keys) (take split_index msgs)))
      right_addr (Leaf (drop split_index keys) (drop split_index msgs)).
  (** 648-660 *)
  Definition sub_index (pivots : list Key) (cs : list Address) (from to : nat) : Node T :=
    Index (subrange pivots from (to - 1)) (subrange cs from to) None.
  (** 662-678, likewise *)
  Definition split_index b (pivots : list Key) (cs : list Address) (pivot_index : nat) (right_addr : Address) :
      gmap Address (Node T) :=
    modify_disk (modify_disk (disk b) (root b) (sub_index pivots cs 0 (pivot_index + 1)))
      right_addr (sub_index pivots cs (pivot_index + 1) (length cs)).
  (** 680-691 *)
  Definition split_node b (s : SplitArg) (right_addr : Address) : gmap Address (Node T) :=
    match root_node b, s with
    | Leaf keys msgs, SplitAtKey pivot => split_leaf b keys msgs pivot right_addr
    | Index pivots cs _, SplitAtIndex _ pivot_index => split_index b pivots cs pivot_index right_addr
    | _, _ => disk b
    end.
  (** 693-705 *)
  Definition can_split_child_of_index b (s : SplitArg) (new_addr : Address) : Prop :=
    has_root b ∧ node_wf (root_node b) ∧
    match root_node b with
    | Index pivots cs _ =>
        let c := child_at_idx b (slot (root_node b) (get_pivot s)) in
        has_root c ∧ split_wf s c ∧ is_fresh (disk c) new_addr
    | _ => False
    end.
  (** 707-723 *)
  Definition split_child_of_index b (s : SplitArg) (new_addr : Address) : t T :=
    let pivot := get_pivot s in
    let child_idx := slot (root_node b) pivot in
    let left_disk := split_node (child_at_idx b child_idx) s new_addr in
    let new_root :=
      Index (seq_insert (keys_or_pivots (root_node b)) child_idx pivot)
            (seq_insert (children (root_node b)) (child_idx + 1) new_addr) None in
    mk (root b) (modify_disk (merge_disk (disk b) left_disk) (root b) new_root).

  (** *** Paths *)
  (** 734-751 *)
  Fixpoint valid b (k : Key) (depth : nat) : Prop :=
    wf b ∧
    match depth with
    | O => True
    | S d => match root_node b with
             | Index _ _ _ => valid (child_at_idx b (slot (root_node b) k)) k d
             | _ => False
             end
    end.
  (** 753-762 *)
  Fixpoint target b (k : Key) (depth : nat) : t T :=
    match depth with
    | O => b
    | S d => target (child_at_idx b (slot (root_node b) k)) k d
    end.
  (** 764-768 *)
  Definition substitute b (replacement : t T) : t T := mk (root b) (disk replacement).
  (** 770-776 *)
  Fixpoint path_equiv b (k other : Key) (depth : nat) : Prop :=
    route (root_node b) k = route (root_node b) other ∧
    match depth with
    | O => True
    | S d => path_equiv (child_at_idx b (slot (root_node b) k)) k other d
    end.

  (** *** Transitions *)
  (** 266-279 *)
  Definition can_insert b (k : Key) (depth : nat) : Prop :=
    valid b k depth ∧ match root_node (target b k depth) with Leaf _ _ => True | _ => False end.
  (** LinkedBranch_v.rs 274-279 *)
  Definition insert b (k : Key) (m : Message) (depth : nat) : t T :=
    substitute b (insert_leaf (target b k depth) k m).
  (** 281-293 *)
  Definition can_grow b (a : Address) : Prop := wf b ∧ is_fresh (disk b) a.
  (** LinkedBranch_v.rs 287-293 *)
  Definition grow b (a : Address) : t T :=
    mk a (modify_disk (disk b) a (Index [] [root b] None)).
  (** 295-313 *)
  Definition can_append b (keys : list Key) (msgs : list Message) (depth : nat) : Prop :=
    match keys, stdpp.list.last keys with
    | first :: _, Some final =>
        valid b first depth ∧ length keys = length msgs ∧ keys_strictly_sorted keys ∧
        match root_node (target b first depth) with
        | Leaf old _ => ∃ top, stdpp.list.last old = Some top ∧ key_lt top first
        | _ => False
        end ∧
        path_equiv b first final depth
    | _, _ => False
    end.
  (** LinkedBranch_v.rs 308-313 *)
  Definition append b (keys : list Key) (msgs : list Message) (depth : nat) : t T :=
    match keys with
    | first :: _ => substitute b (append_leaf (target b first depth) keys msgs)
    | [] => b
    end.
  (** 315-328 *)
  Definition can_split b (s : SplitArg) (a : Address) (depth : nat) : Prop :=
    valid b (get_pivot s) depth ∧ can_split_child_of_index (target b (get_pivot s) depth) s a.
  (** LinkedBranch_v.rs 324-328 *)
  Definition split b (s : SplitArg) (a : Address) (depth : nat) : t T :=
    substitute b (split_child_of_index (target b (get_pivot s) depth) s a).

  (** The calls a client makes, with the address of the new page and what is
      returned (Refinement_v.rs 207-527). *)
  Inductive Call :=
    | Query (k : Key) (m : Message)
    | Insert (k : Key) (m : Message) (depth : nat)
    | Append (keys : list Key) (msgs : list Message) (depth : nat)
    | Grow (a : Address)
    | Split (s : SplitArg) (a : Address) (depth : nat).
  (** 256-328: one call on a tree of pages. *)
  Definition next (pre post : t T) (l : Call) : Prop :=
    match l with
    | Query k m => query pre k m ∧ post = pre
    | Insert k m d => can_insert pre k d ∧ post = insert pre k m d
    | Append ks ms d => can_append pre ks ms d ∧ post = append pre ks ms d
    | Grow a => can_grow pre a ∧ post = grow pre a
    | Split s a d => can_split pre s a d ∧ post = split pre s a d
    end.
  End LBranch.
End LBranch.

(** ** MiniAllocator_v.rs, the rest *)
Section MiniAllocatorSets.
  Context `{Geometry}.
  (** 224-227 *)
  Definition reserved_aus (m : MiniAllocator) : gset AU :=
    dom (filter (λ kv, reserved kv.2 ≠ ∅) (allocs m)).
  (** 229-232 *)
  Definition removable_aus (m : MiniAllocator) : gset AU :=
    dom (filter (λ kv, reserved kv.2 = ∅) (allocs m)).
  (** 234-237 *)
  Definition all_aus (m : MiniAllocator) : gset AU := dom (allocs m).
End MiniAllocatorSets.

(** ** AllocationBranch_v.rs *)
Module ABranch.
  Section ABranch.
  Context `{Geometry}.
  (** 25-26: the summary of a branch is a set of allocation units. *)
  Definition Branch := LBranch.t (gset AU).
  (** 54-58 *)
  Record t := mk { sealed : bool; branch : option Branch; mini_allocator : MiniAllocator }.
  (** 45-52. The paths are given by their depth, as above. [Grow] is not an event
      of the code: it stands for the operation LinkedBranch_v.rs 281-293, which the
      builder does not offer (see [build_next]). *)
  Inductive BuildEvent :=
    | Initialize (a : Address) (keys : list Key) (msgs : list Message)
    | Append (keys : list Key) (msgs : list Message) (depth : nat)
    | Split (a : Address) (depth : nat) (s : SplitArg)
    | AllocFill
    | Seal (aux_ptr : Pointer)
    | Grow (a : Address).
  (** 61-67 *)
  Definition new (free_aus : gset AU) : t := mk false None (add_aus ma_empty free_aus).
  (** 69-78 *)
  Definition can_initialize (s : t) (a : Address) (keys : list Key) (msgs : list Message) : Prop :=
    sealed s = false ∧ reserved_aus (mini_allocator s) = ∅ ∧ can_allocate (mini_allocator s) a ∧
    0 < length keys ∧ length keys = length msgs ∧ keys_strictly_sorted keys.
  (** 80-93 *)
  Definition branch_initialize (s : t) (a : Address) (keys : list Key) (msgs : list Message) : t :=
    mk (sealed s) (Some (LBranch.mk a {[a := LBranch.Leaf keys msgs]})) (allocate (mini_allocator s) a).
  (** 101-106 *)
  Definition can_append (s : t) (keys : list Key) (msgs : list Message) (depth : nat) : Prop :=
    sealed s = false ∧ ∃ b, branch s = Some b ∧ LBranch.can_append b keys msgs depth.
  (** 108-115 *)
  Definition branch_append (s : t) (keys : list Key) (msgs : list Message) (depth : nat) : t :=
    mk (sealed s) ((λ b, LBranch.append b keys msgs depth) <$> branch s) (mini_allocator s).
  (** 117-123 *)
  Definition can_split (s : t) (a : Address) (depth : nat) (arg : SplitArg) : Prop :=
    sealed s = false ∧ ∃ b, branch s = Some b ∧ can_allocate (mini_allocator s) a ∧ LBranch.can_split b arg a depth.
  (** 125-133 *)
  Definition branch_split (s : t) (a : Address) (depth : nat) (arg : SplitArg) : t :=
    mk (sealed s) ((λ b, LBranch.split b arg a depth) <$> branch s) (allocate (mini_allocator s) a).
  (** 135-139 *)
  Definition can_fill (s : t) (aus : gset AU) : Prop :=
    sealed s = false ∧ dom (allocs (mini_allocator s)) ## aus.
  (** 141-148 *)
  Definition mini_allocator_fill (s : t) (aus : gset AU) : t :=
    mk (sealed s) (branch s) (add_aus (mini_allocator s) aus).
  (** [root() is Index] *)
  (** The Verus test [root() is Index], AllocationBranch_v.rs 150-161. *)
  Definition is_index (n : LBranch.Node (gset AU)) : Prop :=
    match n with LBranch.Index _ _ _ => True | _ => False end.
  (** 150-161 *)
  Definition can_seal (s : t) (ptr : Pointer) (dealloc_aus : gset AU) : Prop :=
    sealed s = false ∧ ∃ b, branch s = Some b ∧
    (is_Some ptr ↔ is_index (LBranch.root_node b)) ∧
    (∀ a, ptr = Some a → can_allocate (mini_allocator s) a ∧ au a ∉ dealloc_aus) ∧
    removable_aus (mini_allocator s) = dealloc_aus.
  (** 370-383 *)
  Definition seal (b : Branch) (a : Address) (summary : gset AU) : Branch :=
    match LBranch.root_node b with
    | LBranch.Index pivots children _ =>
        LBranch.mk (LBranch.root b)
          (LBranch.modify_disk (LBranch.modify_disk (LBranch.disk b) a (LBranch.Auxiliary summary))
             (LBranch.root b) (LBranch.Index pivots children (Some a)))
    | _ => b
    end.
  (** 163-183 *)
  Definition branch_seal (s : t) (ptr : Pointer) (dealloc_aus : gset AU) : t :=
    match ptr with
    | Some a =>
        mk true ((λ b, seal b a (reserved_aus (mini_allocator s))) <$> branch s)
           (prune (allocate (mini_allocator s) a) dealloc_aus)
    | None => mk true (branch s) (prune (mini_allocator s) dealloc_aus)
    end.
  (** 185-218: an event with the units taken and given back. *)
  Definition Label := (BuildEvent * gset AU * gset AU)%type.
  (** AllocationBranch_v.rs 185-218 *)
  Definition build_next (pre post : t) (l : Label) : Prop :=
    let '(e, alls, deallocs) := l in
    match e with
    | Initialize a keys msgs =>
        alls = ∅ ∧ deallocs = ∅ ∧ can_initialize pre a keys msgs ∧ post = branch_initialize pre a keys msgs
    | Append keys msgs depth =>
        alls = ∅ ∧ deallocs = ∅ ∧ can_append pre keys msgs depth ∧ post = branch_append pre keys msgs depth
    | Split a depth s =>
        alls = ∅ ∧ deallocs = ∅ ∧ can_split pre a depth s ∧ post = branch_split pre a depth s
    | AllocFill => deallocs = ∅ ∧ can_fill pre alls ∧ post = mini_allocator_fill pre alls
    | Seal ptr => alls = ∅ ∧ can_seal pre ptr deallocs ∧ post = branch_seal pre ptr deallocs
    | Grow _ => False
    end.
  (** The builder with the missing event added in the manner of 117-133. *)
  Definition can_grow (s : t) (a : Address) : Prop :=
    sealed s = false ∧ ∃ b, branch s = Some b ∧ can_allocate (mini_allocator s) a ∧ LBranch.can_grow b a.
  (** In the manner of AllocationBranch_v.rs 117-133. *)
  Definition branch_grow (s : t) (a : Address) : t :=
    mk (sealed s) ((λ b, LBranch.grow b a) <$> branch s) (allocate (mini_allocator s) a).
  (** In the manner of AllocationBranch_v.rs 185-218. *)
  Definition build_next_grow (pre post : t) (l : Label) : Prop :=
    build_next pre post l ∨
    ∃ a, l = (Grow a, ∅, ∅) ∧ can_grow pre a ∧ post = branch_grow pre a.
  (** 360-368; unspecified when the summary page is missing, here empty. *)
  Definition get_summary (b : Branch) : gset AU :=
    match LBranch.root_node b with
    | LBranch.Index _ _ aux =>
        match aux ≫= (λ a, LBranch.disk b !! a) with Some (LBranch.Auxiliary s) => s | _ => ∅ end
    | _ => {[au (LBranch.root b)]}
    end.
  (** 95-99, 34-37 *)
  Definition linked_query (b : Branch) (k : Key) (m : Message) : Prop := LBranch.query b k m.
  (** 28-32: whether a branch holds a message for a key, as written. *)
  Definition linked_contains (b : Branch) (k : Key) : Prop := linked_query b k (Update nop_delta).
  (** The same with the comparison the right way round. *)
  (** AllocationBranch_v.rs 29-32, repaired *)
  Definition linked_contains' (b : Branch) (k : Key) : Prop := ¬ linked_query b k (Update nop_delta).
  End ABranch.
End ABranch.
