(** Model of Splinter/src/allocation_layer/AllocationBranchBetree_v.rs: the
    be-tree whose buffers are branches (b+-trees of pages), with the allocation
    units of its nodes, of its branches and of the branches being built; and of
    the [Buffer] implementation for branch pages in AllocationBranch_v.rs.
    Definitions only. Line numbers without a file name refer to
    AllocationBranchBetree_v.rs.

    Conventions. A [Path{linked, key, depth}] is used with [path.linked ==
    pre.betree.linked], so it is the pair of its key and depth (as in
    LinkedBetree_Model.v). *)
From Verif Require Export Branch_Model.
From Verif Require Export LinkedBetree_Model LikesBetree_Model.

(** AllocationBranch_v.rs 25-26 *)
Notation BranchNode := (LBranch.Node (gset nat)).
(** AllocationBranch_v.rs 26, on BufferDisk_v.rs 18-20 *)
Notation BranchDisk := (gmap Address (LBranch.Node (gset nat))).
(** LinkedBetree_v.rs 434-438 over branches *)
Notation BLB := (LinkedBetree (LBranch.Node (gset nat))).

(** ** A branch as a buffer *)
(** The number of levels under an address, when [fuel] levels suffice and no
    page is missing. It decides whether a ranking exists: LinkedBranch_v.rs
    387-391 asks for one, and no path without a cycle is longer than the disk. *)
Fixpoint levels_below (fuel : nat) (dv : BranchDisk) (a : Address) : option nat :=
  match fuel with
  | O => None
  | S f => match dv !! a with
           | Some n => match mapM (levels_below f dv) (LBranch.children n) with
                       | Some l => Some (S (max_list l))
                       | None => None
                       end
           | None => None
           end
  end.
(** LinkedBranch_v.rs 31-43, as a test *)
Definition node_wfb (n : BranchNode) : bool :=
  match n with
  | LBranch.Leaf keys msgs => (0 <? length keys) && (length keys =? length msgs)
  | LBranch.Index pivots cs _ => length cs =? S (length pivots)
  | LBranch.Auxiliary _ => true
  end.
(** A tree page is at the address (LinkedBranch_v.rs 79-108, for one pointer). *)
Definition tree_pageb (dv : BranchDisk) (c : Address) : bool :=
  match dv !! c with Some (LBranch.Auxiliary _) => false | Some _ => true | None => false end.
(** LinkedBranch_v.rs 79-108, as a test *)
Definition disk_wfb (dv : BranchDisk) : bool :=
  forallb (λ an, node_wfb an.2 && forallb (tree_pageb dv) (LBranch.children an.2)) (map_to_list dv).
(** LinkedBranch_v.rs 387-391, as a test (BranchBuffer_Proof.v shows that it
    decides [LBranch.acyclic]) *)
Definition acyclicb (dv : BranchDisk) (a : Address) : bool :=
  disk_wfb dv && tree_pageb dv a && bool_decide (is_Some (levels_below (S (size dv)) dv a)).
(** AllocationBranch_v.rs 34-37: [LinkedBranch{root: addr, disk_view}.query(key)]
    (LinkedBranch_v.rs 256-264, 563-591). The page itself is not used. The rank
    of the root, which bounds the recursion, is at most the size of the disk
    (BranchBuffer_Proof.v shows that this is a value of [LBranch.query]). *)
Definition branch_query (dv : BranchDisk) (a : Address) (k : Key) : Message :=
  if acyclicb dv a then LBranch.query_internal (S (size dv)) dv a k else Update nop_delta.
(** LinkedBranch_v/Refinement_v.rs 18-60: the tree the pages spell out. *)
Fixpoint branch_tree_upto (fuel : nat) (dv : BranchDisk) (a : Address) : PBranch.Node :=
  match fuel with
  | O => PBranch.invalid_node
  | S f => match dv !! a with
           | Some (LBranch.Leaf keys msgs) => PBranch.Leaf keys msgs
           | Some (LBranch.Index pivots cs _) => PBranch.Index pivots (map (branch_tree_upto f dv) cs)
           | _ => PBranch.invalid_node
           end
  end.
(** LinkedBranch_v/Refinement_v.rs 18-60, for the whole branch *)
Definition branch_tree (dv : BranchDisk) (a : Address) : PBranch.Node :=
  if acyclicb dv a then branch_tree_upto (S (size dv)) dv a else PBranch.invalid_node.
(** PivotBranchRefinement_v.rs 18-39: [Map::new(domain, value)], where the domain
    is searched among the keys of all the children. *)
Fixpoint node_buffer (n : PBranch.Node) : gmap N Message :=
  match n with
  | PBranch.Leaf keys msgs =>
      list_to_map (map (λ k, (k, nth (Z.to_nat (key_largest_lte keys k)) msgs (Update nop_delta))) keys)
  | PBranch.Index pivots children =>
      let maps := map node_buffer children in
      map_imap (λ k _, nth (Z.to_nat (key_largest_lte pivots k + 1)) maps ∅ !! k) (foldr (∪) ∅ maps)
  end.
(** AllocationBranch_v.rs 28-43. [fixed = false] is the code as written, where a
    branch contains a key when its query is the message that changes nothing
    (30-33); [fixed = true] has the comparison the right way round. *)
Definition branch_buffer (fixed : bool) : Buffer BranchNode := {|
  linked_contains _ dv a k :=
    if fixed then branch_query dv a k ≠ Update nop_delta else branch_query dv a k = Update nop_delta;
  linked_query _ dv a k := branch_query dv a k;
  buf_i _ dv a := node_buffer (branch_tree dv a) |}.

(** AllocationBranch_v.rs 385-393 *)
Definition sealed_root (b : ABranch.Branch) : Prop :=
  LBranch.has_root b ∧
  ∀ pivots cs aux, LBranch.root_node b = LBranch.Index pivots cs aux →
    ∃ p s, aux = Some p ∧ LBranch.disk b !! p = Some (LBranch.Auxiliary s).
(** AllocationBranch_v.rs 395-402 *)
Definition full_repr (b : ABranch.Branch) (a : Address) : Prop :=
  LBranch.reachable (LBranch.disk b) (LBranch.root b) a ∨
  ∃ pivots cs, LBranch.root_node b = LBranch.Index pivots cs (Some a).
(** AllocationBranch_v.rs 409-416 *)
Definition valid_sealed_branch `{Geometry} (b : ABranch.Branch) : Prop :=
  LBranch.inv b ∧ sealed_root b ∧
  (∀ a, full_repr b a → au a ∈ ABranch.get_summary b) ∧
  (∀ a, a ∈ restrict_domain_au (LBranch.disk b) (ABranch.get_summary b) ↔ full_repr b a).
(** 50-54 *)
Definition sealed_branch_roots `{Geometry} (bd : BranchDisk) (roots : gset Address) : Prop :=
  ∀ r, r ∈ roots → valid_sealed_branch (LBranch.mk r bd).
(** 56-61: from the unit of each root to the summary. The code picks a root for
    each unit; one is there only once wherever this is used. *)
Definition build_branch_summary `{Geometry} (bd : BranchDisk) (roots : gset Address) : gmap AU (gset AU) :=
  list_to_map ((λ r, (au r, ABranch.get_summary (LBranch.mk r bd))) <$> elements roots).
(** 64-71 *)
Definition split_disjoint_aus (na : SplitAddrs) : Prop :=
  au (sa_left na) ≠ au (sa_right na) ∧ au (sa_left na) ≠ au (sa_parent na) ∧ au (sa_right na) ≠ au (sa_parent na).
(** 79-82 *)
Definition two_disjoint_aus (na : TwoAddrs) : Prop := au (addr1 na) ≠ au (addr2 na).
(** 85-90 *)
Definition map_with_disjoint_values (m : gmap AU (gset AU)) : Prop :=
  ∀ u v U V, m !! u = Some U → m !! v = Some V → u ≠ v → U ## V.
(** 97-100 *)
Definition summary_aus (m : gmap AU (gset AU)) : gset AU := ⋃ (map_to_list m).*2.
(** 103-106 *)
Record CompactorInput := mkInput { input_buffers : list Address; offset_map : Key → nat }.
(** 109-113 *)
Definition input_roots (cs : list CompactorInput) : gset Address :=
  ⋃ ((λ c, list_to_set (input_buffers c)) <$> cs).
(** 141-144 *)
Definition read_ref_aus (cs : list CompactorInput) : gset AU := to_aus (input_roots cs).
(** 146-149 *)
Definition seq_addrs_to_aus (l : list Address) : gset AU := to_aus (list_to_set l).
(** GenericDisk_v.rs 87-91 *)
Definition set_addrs_disjoint_aus (s : gset Address) : Prop :=
  ∀ a b, a ∈ s → b ∈ s → a ≠ b → au a ≠ au b.
(** GenericDisk_v.rs 93-97 *)
Definition seq_addrs_disjoint_aus (l : list Address) : Prop :=
  ∀ i j a b, l !! i = Some a → l !! j = Some b → i ≠ j → au a ≠ au b.
(** GenericDisk_v.rs 76-79 *)
Definition addrs_closed (s : gset Address) (aus : gset AU) : Prop := ∀ a, a ∈ s → au a ∈ aus.
(** [Map::restrict] and [Map::remove_keys] *)
(** A vstd function: no counterpart in /repo. *)
Definition restrict_keys {V} (m : gmap AU V) (s : gset AU) : gmap AU V := filter (λ kv, kv.1 ∈ s) m.
(** A vstd function: no counterpart in /repo. *)
Definition remove_keys {V} (m : gmap AU V) (s : gset AU) : gmap AU V := filter (λ kv, kv.1 ∉ s) m.
(** [Map::restrict] on a disk *)
(** A vstd function: no counterpart in /repo. *)
Definition restrict_disk (bd : BranchDisk) (s : gset Address) : BranchDisk := filter (λ kv, kv.1 ∈ s) bd.

(** ** The state machine AllocationBranchBetree *)
Module ABB.
  Section ABB.
  Context `{Geometry} (fixed grow : bool).
  (** AllocationBranch_v.rs 28-43: the instance chosen. *)
  Local Instance bb : Buffer BranchNode := branch_buffer fixed.

  (** 152-161 *)
  Record State := mkState {
    betree : BState BLB;
    betree_aus : AULikes;
    branch_aus : AULikes;
    branch_summary : gmap AU (gset AU);
    compactors : list CompactorInput;
    wip_branches : list ABranch.t }.
  (** 163-167 *)
  Inductive Label := Lbl (l : BLabel SLB) | Int (alls deallocs : gset AU).
  (** AllocationBranch_v.rs 227-231 *)
  Definition alloc_aus (ws : list ABranch.t) : gset AU := ⋃ ((λ w, all_aus (ABranch.mini_allocator w)) <$> ws).
  (** 176-179 *)
  Definition branch_allocator_aus (s : State) : gset AU := alloc_aus (wip_branches s).
  (** 169-174 *)
  Definition is_fresh (s : State) (aus : gset AU) : Prop :=
    mdom (betree_aus s) ## aus ∧ summary_aus (branch_summary s) ## aus ∧ branch_allocator_aus s ## aus.
  (** The tree of the state (notation). *)
  (** The expression [pre.betree.linked] of AllocationBranchBetree_v.rs 151-1139. *)
  Definition linked (s : State) : BLB := root (betree s).
  (** AllocationBranch_v.rs 185-218. [grow = false] is the code as written;
      [grow = true] adds the event it lacks (see Branch_Model.v). *)
  Definition builds : ABranch.t → ABranch.t → ABranch.Label → Prop :=
    if grow then ABranch.build_next_grow else ABranch.build_next.

  (** 181-206 *)
  Definition initialize (s : State) (b : BState BLB) : Prop :=
    Linked.initialize b b ∧
    let bdv := lb_bdv (root b) in
    ∃ tl bl, transitive_likes (root b) tl bl ∧
      sealed_branch_roots bdv (mdom bl) ∧
      let summary := build_branch_summary bdv (mdom bl) in
      set_addrs_disjoint_aus (mdom bl) ∧ map_with_disjoint_values summary ∧
      addrs_closed (dom (lb_dv (root b))) (mdom (to_au_likes tl)) ∧
      addrs_closed (dom bdv) (summary_aus summary) ∧
      mdom (to_au_likes tl) ## summary_aus summary ∧
      s = mkState b (to_au_likes tl) (to_au_likes bl) summary [] [].
  (** 208-213 *)
  Definition au_likes_noop (pre post : State) (l : Label) (new : BState BLB) : Prop :=
    ∃ ll, l = Lbl ll ∧ likes_free ll ∧ Linked.next (betree pre) new ll ∧
      post = mkState new (betree_aus pre) (branch_aus pre) (branch_summary pre) (compactors pre) (wip_branches pre).
  (** 215-222 *)
  Definition branch_begin (pre post : State) (l : Label) : Prop :=
    ∃ alls, l = Int alls ∅ ∧ is_fresh pre alls ∧
      post = mkState (betree pre) (betree_aus pre) (branch_aus pre) (branch_summary pre) (compactors pre)
               (wip_branches pre ++ [ABranch.new alls]).
  (** 225-232 *)
  Definition branch_build (pre post : State) (l : Label) (idx : nat) (w : ABranch.t) (e : ABranch.BuildEvent) : Prop :=
    ∃ alls deallocs w0, l = Int alls deallocs ∧ is_fresh pre alls ∧
      wip_branches pre !! idx = Some w0 ∧ builds w0 w (e, alls, deallocs) ∧
      post = mkState (betree pre) (betree_aus pre) (branch_aus pre) (branch_summary pre) (compactors pre)
               (<[idx := w]> (wip_branches pre)).
  (** 235-241 *)
  Definition branch_abort (pre post : State) (l : Label) (idx : nat) : Prop :=
    ∃ w, wip_branches pre !! idx = Some w ∧ l = Int ∅ (all_aus (ABranch.mini_allocator w)) ∧
      post = mkState (betree pre) (betree_aus pre) (branch_aus pre) (branch_summary pre) (compactors pre)
               (delete idx (wip_branches pre)).
  (** 243-273 *)
  Definition internal_flush_memtable (pre post : State) (l : Label) (new : BState BLB) (branch_idx : nat)
      (new_root_addr : Address) : Prop :=
    ∃ alls deallocs w b, l = Int alls deallocs ∧ is_fresh pre alls ∧
      wip_branches pre !! branch_idx = Some w ∧ ABranch.sealed w = true ∧ ABranch.branch w = Some b ∧
      let na := mkTwo new_root_addr (LBranch.root b) in
      Linked.internal_flush_memtable (betree pre) new Internal (LBranch.root_node b) (root new) na ∧
      let pushed := Linked.push_memtable (linked pre) (LBranch.root_node b) na in
      let aus := flush_memtable_au_likes (linked pre) (root new) na (betree_aus pre) (branch_aus pre) in
      let summary := <[au (LBranch.root b) := ABranch.get_summary b]> (branch_summary pre) in
      alls = {[au new_root_addr]} ∧ deallocs = mdom (betree_aus pre) ∖ mdom aus.1 ∧
      dom (lb_dv (root new)) = restrict_domain_au (lb_dv pushed) (mdom aus.1) ∧
      lb_bdv (root new) = LBranch.merge_disk (lb_bdv (linked pre)) (LBranch.disk b) ∧
      post = mkState new aus.1 aus.2 summary (compactors pre) (delete branch_idx (wip_branches pre)).
  (** 275-285 *)
  Definition internal_grow (pre post : State) (l : Label) (new : BState BLB) (new_root_addr : Address) : Prop :=
    l = Int {[au new_root_addr]} ∅ ∧ is_fresh pre {[au new_root_addr]} ∧
    Linked.internal_grow (betree pre) new Internal new_root_addr ∧
    post = mkState new (betree_aus pre ⊎ {[+ au new_root_addr +]}) (branch_aus pre) (branch_summary pre)
             (compactors pre) (wip_branches pre).
  (** 287-311 *)
  Definition internal_split (pre post : State) (l : Label) (new : BState BLB) (key : Key) (depth : nat)
      (r : SplitRequest) (na : SplitAddrs) (pa : list Address) : Prop :=
    ∃ alls deallocs, l = Int alls deallocs ∧ is_fresh pre alls ∧
      split_disjoint_aus na ∧ to_aus (split_repr na) ## seq_addrs_to_aus pa ∧ seq_addrs_disjoint_aus pa ∧
      Linked.internal_split (betree pre) new Internal (root new) key depth r na pa ∧
      let splitted := Linked.post_split (linked pre) key depth r na pa in
      let aus := internal_split_au_likes (linked pre) key depth r na pa (betree_aus pre) (branch_aus pre) in
      alls = to_aus (split_repr na) ∪ seq_addrs_to_aus pa ∧ deallocs = mdom (betree_aus pre) ∖ mdom aus.1 ∧
      restrict_domain_au (lb_dv splitted) (mdom aus.1) = dom (lb_dv (root new)) ∧
      lb_bdv (linked pre) = lb_bdv (root new) ∧
      post = mkState new aus.1 aus.2 (branch_summary pre) (compactors pre) (wip_branches pre).
  (** 313-346 *)
  Definition internal_flush (pre post : State) (l : Label) (new : BState BLB) (key : Key) (depth child_idx buffer_gc : nat)
      (na : TwoAddrs) (pa : list Address) : Prop :=
    ∃ alls deallocs, l = Int alls deallocs ∧ is_fresh pre alls ∧
      two_disjoint_aus na ∧ to_aus (two_repr na) ## seq_addrs_to_aus pa ∧ seq_addrs_disjoint_aus pa ∧
      Linked.internal_flush (betree pre) new Internal (root new) key depth child_idx buffer_gc na pa ∧
      let flushed := Linked.post_flush (linked pre) key depth child_idx buffer_gc na pa in
      let aus := internal_flush_au_likes (linked pre) key depth child_idx buffer_gc na pa (betree_aus pre) (branch_aus pre) in
      let tree_deallocs := mdom (betree_aus pre) ∖ mdom aus.1 in
      let branch_deallocs := (mdom (branch_aus pre) ∖ mdom aus.2) ∖ read_ref_aus (compactors pre) in
      let summary := remove_keys (branch_summary pre) branch_deallocs in
      alls = to_aus (two_repr na) ∪ seq_addrs_to_aus pa ∧
      deallocs = tree_deallocs ∪ summary_aus (restrict_keys (branch_summary pre) branch_deallocs) ∧
      restrict_domain_au (lb_dv flushed) (mdom aus.1) = dom (lb_dv (root new)) ∧
      restrict_domain_au (lb_bdv (linked pre)) (summary_aus summary) = dom (lb_bdv (root new)) ∧
      post = mkState new aus.1 aus.2 summary (compactors pre) (wip_branches pre).
  (** 348-362; the offset maps are compared at every key. *)
  Definition valid_compactor_input (l : BLB) (key : Key) (depth start end_ : nat) (input : CompactorInput) : Prop :=
    Linked.path_valid l key depth ∧ Linked.has_root (Linked.path_target l key depth) ∧
    let node := Linked.root_node (Linked.path_target l key depth) in
    start < end_ ≤ length (LNode.buffers node) ∧
    input_buffers input = subrange (LNode.buffers node) start end_ ∧
    ∀ k, offset_map input k = offsets_decrement (LNode.make_offset_map node) start k.
  (** 364-372 *)
  Definition internal_compact_begin (pre post : State) (l : Label) (key : Key) (depth start end_ : nat)
      (input : CompactorInput) : Prop :=
    l = Int ∅ ∅ ∧ valid_compactor_input (linked pre) key depth start end_ input ∧
    post = mkState (betree pre) (betree_aus pre) (branch_aus pre) (branch_summary pre)
             (compactors pre ++ [input]) (wip_branches pre).
  (** 374-405 *)
  Definition internal_compact_abort (pre post : State) (l : Label) (input_idx : nat) : Prop :=
    input_idx < length (compactors pre) ∧
    let new_compactors := delete input_idx (compactors pre) in
    let released := read_ref_aus (compactors pre) ∖ read_ref_aus new_compactors in
    let deallocs := released ∖ mdom (branch_aus pre) in
    let summary := remove_keys (branch_summary pre) deallocs in
    let pre_bdv := lb_bdv (linked pre) in
    let new_bdv := restrict_disk pre_bdv (restrict_domain_au pre_bdv (summary_aus summary)) in
    l = Int ∅ (summary_aus (restrict_keys (branch_summary pre) deallocs)) ∧
    post = mkState (mkBS (memtable (betree pre)) (mkLB (lb_root (linked pre)) (lb_dv (linked pre)) new_bdv))
             (betree_aus pre) (branch_aus pre) summary new_compactors (wip_branches pre).
  (** 408-458 *)
  Definition internal_compact_complete (pre post : State) (l : Label) (new : BState BLB) (key : Key)
      (depth start end_ input_idx branch_idx : nat) (new_node_addr : Address) (pa : list Address) : Prop :=
    ∃ alls deallocs input w b, l = Int alls deallocs ∧ is_fresh pre alls ∧
      au new_node_addr ∉ seq_addrs_to_aus pa ∧ seq_addrs_disjoint_aus pa ∧
      compactors pre !! input_idx = Some input ∧
      valid_compactor_input (linked pre) key depth start end_ input ∧
      wip_branches pre !! branch_idx = Some w ∧ ABranch.sealed w = true ∧ ABranch.branch w = Some b ∧
      let na := mkTwo new_node_addr (LBranch.root b) in
      Linked.internal_compact (betree pre) new Internal (root new) key depth start end_ (LBranch.root_node b) na pa ∧
      let new_compactors := delete input_idx (compactors pre) in
      let compacted := Linked.post_compact (linked pre) key depth start end_ (LBranch.root_node b) na pa in
      let aus := internal_compact_complete_au_likes (linked pre) key depth start end_ na pa (betree_aus pre) (branch_aus pre) in
      let tree_deallocs := mdom (betree_aus pre) ∖ mdom aus.1 in
      let branch_deallocs := (dom (branch_summary pre) ∖ mdom aus.2) ∖ read_ref_aus new_compactors in
      let summary := remove_keys (<[au (LBranch.root b) := ABranch.get_summary b]> (branch_summary pre)) branch_deallocs in
      alls = seq_addrs_to_aus pa ∪ {[au new_node_addr]} ∧
      deallocs = tree_deallocs ∪ summary_aus (restrict_keys (branch_summary pre) branch_deallocs) ∧
      let full_bdv := LBranch.merge_disk (lb_bdv (linked pre)) (LBranch.disk b) in
      restrict_domain_au (lb_dv compacted) (mdom aus.1) = dom (lb_dv (root new)) ∧
      lb_bdv (root new) = restrict_disk full_bdv (restrict_domain_au full_bdv (summary_aus summary)) ∧
      post = mkState new aus.1 aus.2 summary new_compactors (delete branch_idx (wip_branches pre)).
  (** [next], as the state machine macro generates it. *)
  (** [next], which the state_machine! macro generates from the transitions of AllocationBranchBetree_v.rs 151-1139. *)
  Definition next (pre post : State) (l : Label) : Prop :=
    (∃ new, au_likes_noop pre post l new) ∨
    branch_begin pre post l ∨
    (∃ idx w e, branch_build pre post l idx w e) ∨
    (∃ idx, branch_abort pre post l idx) ∨
    (∃ new idx a, internal_flush_memtable pre post l new idx a) ∨
    (∃ new a, internal_grow pre post l new a) ∨
    (∃ new key depth r na pa, internal_split pre post l new key depth r na pa) ∨
    (∃ new key depth i gc na pa, internal_flush pre post l new key depth i gc na pa) ∨
    (∃ key depth a b input, internal_compact_begin pre post l key depth a b input) ∨
    (∃ i, internal_compact_abort pre post l i) ∨
    (∃ new key depth a b i j na pa, internal_compact_complete pre post l new key depth a b i j na pa).
  End ABB.
End ABB.
