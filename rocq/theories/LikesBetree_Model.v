(** Model of Splinter/src/allocation_layer/: Likes_v.rs, LikesBetree_v.rs and
    AllocationBetree_v.rs: the be-tree linked on disk with a count of the
    references to each page (then to each allocation unit). Definitions only.
    Line numbers without a file name refer to LikesBetree_v.rs. *)
From Verif Require Export LinkedBetree_Model.
From stdpp Require Export gmultiset.

(** ** Likes (Likes_v.rs) *)
(** Likes_v.rs 11, 13: multisets of addresses and of allocation units. *)
Notation Likes := (gmultiset Address) (only parsing).
(** Likes_v.rs 13 *)
Notation AULikes := (gmultiset nat) (only parsing).
(** [Seq::to_multiset] *)
(** A vstd function: no counterpart in /repo. *)
Definition to_likes (l : list Address) : Likes := list_to_set_disj l.
(** [Multiset::dom] *)
(** A vstd function: no counterpart in /repo. *)
Definition mdom {A} `{Countable A} (m : gmultiset A) : gset A := list_to_set (elements m).
(** Likes_v.rs 25-34. The code takes the elements out one by one in an
    unspecified order; here in the order of [elements]. *)
Definition to_au_likes (likes : Likes) : AULikes := list_to_set_disj (au <$> elements likes).
(** Likes_v.rs 121-124 *)
Definition restrict_domain_au {V} (m : gmap Address V) (aus : gset nat) : gset Address :=
  filter (λ a, au a ∈ aus) (dom m).

(** 53-62 *)
Definition split_likes (na : SplitAddrs) : Likes := {[+ sa_parent na +]} ⊎ ({[+ sa_left na +]} ⊎ {[+ sa_right na +]}).
(** 64-71 *)
Definition two_likes (na : TwoAddrs) : Likes := {[+ addr1 na +]} ⊎ {[+ addr2 na +]}.

(** ** The references of a linked tree *)
Section LinkedLikes.
  Context {T : Type} `{!Buffer T}.
  (** LinkedBetree_v.rs 434-438 *)
  Notation LB := (LinkedBetree T).
  (** 74-81; [has_root] (LinkedBetree_v.rs 447-450) asks that the page exists. *)
  Definition root_likes (l : LB) : Likes :=
    match lb_root l with
    | Some a => match lb_dv l !! a with Some _ => {[+ a +]} | None => ∅ end
    | None => ∅
    end.
  (** LinkedBetree_v.rs 511-517: [get_rank] *)
  Definition get_rank (l : LB) (r : Ranking) : nat :=
    match lb_root l with
    | Some a => match lb_dv l !! a, r !! a with Some _, Some x => x + 1 | _, _ => 0 end
    | None => 0
    end.
  (** 83-114: [children_likes] and [tree_likes]; the recursion on the rank is
      recursion on a number, to be called with the rank of the tree. *)
  Fixpoint tree_likes_upto (fuel : nat) (l : LB) : Likes :=
    match fuel with
    | 0 => ∅
    | S f =>
        match lb_root l with
        | Some a => match lb_dv l !! a with
                    | Some n => {[+ a +]} ⊎
                        foldr (λ p acc, tree_likes_upto f (Linked.with_root l p) ⊎ acc) ∅ (LNode.children n)
                    | None => ∅
                    end
        | None => ∅
        end
    end.
  (** 105-114 *)
  Definition tree_likes (l : LB) (r : Ranking) : Likes := tree_likes_upto (get_rank l r) l.
  (** 116-126: the code picks the elements in an unspecified order; here in the
      order of [elements]. A page that is not there contributes nothing. *)
  Definition buffer_likes (l : LB) (betree_likes : Likes) : Likes :=
    foldr (λ a acc, match lb_dv l !! a with Some n => to_likes (LNode.buffers n) | None => ∅ end ⊎ acc) ∅
      (elements betree_likes).
  (** 128-135: some valid ranking is chosen. *)
  Definition transitive_likes (l : LB) (tl bl : Likes) : Prop :=
    ∃ r, Linked.valid_ranking l r ∧ tl = tree_likes l r ∧ bl = buffer_likes l tl.

  (** LinkedBetree_v.rs 1016-1025 *)
  Fixpoint addrs_on_path (l : LB) (key : Key) (depth : nat) : list Address :=
    match depth with
    | 0 => []
    | S d => match lb_root l with
             | Some a => a :: addrs_on_path (Linked.child_for_key l key) key d
             | None => []
             end
    end.
  (** 972-975, for the two kinds of new addresses *)
  Definition add_betree_likes (new_likes : Likes) (pa : list Address) : Likes := new_likes ⊎ to_likes pa.
  (** 977-981 *)
  Definition split_discard_betree (l : LB) (key : Key) (depth : nat) (r : SplitRequest) : Likes :=
    let target := Linked.path_target l key depth in
    let old_child := Linked.child_at_idx target (request_child r) in
    to_likes (addrs_on_path l key depth) ⊎ root_likes target ⊎ root_likes old_child.
  (** 983-987 *)
  Definition split_add_buffers (l : LB) (key : Key) (depth : nat) (r : SplitRequest) : Likes :=
    let old_child := Linked.child_at_idx (Linked.path_target l key depth) (request_child r) in
    buffer_likes old_child (root_likes old_child).
  (** 989-994 *)
  Definition flush_discard_betree (l : LB) (key : Key) (depth child_idx : nat) : Likes :=
    let old_parent := Linked.path_target l key depth in
    let old_child := Linked.child_at_idx old_parent child_idx in
    to_likes (addrs_on_path l key depth) ⊎ root_likes old_parent ⊎ root_likes old_child.
  (** 996-1000 *)
  Definition flush_discard_buffers (l : LB) (key : Key) (depth buffer_gc : nat) : Likes :=
    to_likes (subrange (LNode.buffers (Linked.root_node (Linked.path_target l key depth))) 0 buffer_gc).
  (** 1002-1006 *)
  Definition flush_add_buffers (l : LB) (key : Key) (depth child_idx : nat) : Likes :=
    to_likes (Linked.flush_buffers (Linked.path_target l key depth) child_idx).
  (** 1008-1011 *)
  Definition compact_discard_betree (l : LB) (key : Key) (depth : nat) : Likes :=
    to_likes (addrs_on_path l key depth) ⊎ root_likes (Linked.path_target l key depth).
  (** 1013-1016 *)
  Definition compact_add_betree (na : TwoAddrs) (pa : list Address) : Likes := to_likes pa ⊎ {[+ addr1 na +]}.
  (** 1018-1021 *)
  Definition compact_discard_buffers (l : LB) (key : Key) (depth start end_ : nat) : Likes :=
    to_likes (subrange (LNode.buffers (Linked.root_node (Linked.path_target l key depth))) start end_).
  (** 1023-1026 *)
  Definition compact_add_buffers (na : TwoAddrs) : Likes := {[+ addr2 na +]}.

  (** AllocationBetree_v.rs 65-75 *)
  Definition flush_memtable_au_likes (l new : LB) (na : TwoAddrs) (betree_aus buffer_aus : AULikes) : AULikes * AULikes :=
    (betree_aus ∖ to_au_likes (root_likes l) ⊎ to_au_likes (root_likes new), buffer_aus ⊎ {[+ au (addr2 na) +]}).
  (** AllocationBetree_v.rs 104-115 *)
  Definition internal_split_au_likes (l : LB) (key : Key) (depth : nat) (r : SplitRequest) (na : SplitAddrs)
      (pa : list Address) (betree_aus buffer_aus : AULikes) : AULikes * AULikes :=
    (betree_aus ∖ to_au_likes (split_discard_betree l key depth r) ⊎ to_au_likes (add_betree_likes (split_likes na) pa),
     buffer_aus ⊎ to_au_likes (split_add_buffers l key depth r)).
  (** AllocationBetree_v.rs 133-145 *)
  Definition internal_flush_au_likes (l : LB) (key : Key) (depth i gc : nat) (na : TwoAddrs) (pa : list Address)
      (betree_aus buffer_aus : AULikes) : AULikes * AULikes :=
    (betree_aus ∖ to_au_likes (flush_discard_betree l key depth i) ⊎ to_au_likes (add_betree_likes (two_likes na) pa),
     buffer_aus ∖ to_au_likes (flush_discard_buffers l key depth gc) ⊎ to_au_likes (flush_add_buffers l key depth i)).
  (** AllocationBetree_v.rs 165-177 *)
  Definition internal_compact_complete_au_likes (l : LB) (key : Key) (depth a b : nat) (na : TwoAddrs)
      (pa : list Address) (betree_aus buffer_aus : AULikes) : AULikes * AULikes :=
    (betree_aus ∖ to_au_likes (compact_discard_betree l key depth) ⊎ to_au_likes (compact_add_betree na pa),
     buffer_aus ∖ to_au_likes (compact_discard_buffers l key depth a b) ⊎ to_au_likes (compact_add_buffers na)).
End LinkedLikes.

(** Buffer_v.rs 28-30 *)
Notation SB := (gmap N Message).
(** LinkedBetree_v.rs 434-438 over [SimpleBuffer] *)
Notation SLB := (LinkedBetree (gmap N Message)).
(** A label that is a query, a put or a freeze (LikesBetree_v.rs 1069,
    AllocationBetree_v.rs 60). *)
Definition likes_free (l : BLabel SLB) : Prop :=
  match l with Query _ _ _ | Put _ | FreezeAs _ => True | Internal => False end.

(** ** LikesBetree: a count for every page *)
Module LikesBetree.
  (** 1028-1037 *)
  Record State := mkState { betree : BState SLB; betree_likes : Likes; buf_likes : Likes }.
  (** 1056-1059: the label is the one of the linked tree. *)
  Notation Label := (BLabel SLB).
  (** 1062-1065 *)
  Definition is_fresh (s : State) (addrs : gset Address) : Prop := Linked.is_fresh (root (betree s)) addrs.
  (** 1068-1072 *)
  Definition likes_noop (pre post : State) (l : Label) (new : BState SLB) : Prop :=
    likes_free l ∧ Linked.next (betree pre) new l ∧
    post = mkState new (betree_likes pre) (buf_likes pre).
  (** 1074-1092 *)
  Definition internal_flush_memtable (pre post : State) (l : Label) (new : BState SLB) (na : TwoAddrs) : Prop :=
    Linked.internal_flush_memtable (betree pre) new l (mt_buffer (memtable (betree pre))) (root new) na ∧
    is_fresh pre (two_repr na) ∧
    let tl := betree_likes pre ∖ root_likes (root (betree pre)) ⊎ root_likes (root new) in
    let bl := buf_likes pre ⊎ {[+ addr2 na +]} in
    mdom tl ⊆ dom (lb_dv (root new)) ∧ mdom bl ⊆ dom (lb_bdv (root new)) ∧
    post = mkState new tl bl.
  (** 1094-1100 *)
  Definition internal_grow (pre post : State) (l : Label) (new : BState SLB) (a : Address) : Prop :=
    Linked.internal_grow (betree pre) new l a ∧ is_fresh pre {[ a ]} ∧
    post = mkState new (betree_likes pre ⊎ {[+ a +]}) (buf_likes pre).
  (** 1102-1118. The code's second disk requirement is about the counts before
      the step; the new ones have the same domain. *)
  Definition internal_split (pre post : State) (l : Label) (new : BState SLB) (key : Key) (depth : nat)
      (r : SplitRequest) (na : SplitAddrs) (pa : list Address) : Prop :=
    Linked.internal_split (betree pre) new l (root new) key depth r na pa ∧
    is_fresh pre (split_repr na ∪ list_to_set pa) ∧
    let old := root (betree pre) in
    let tl := betree_likes pre ∖ split_discard_betree old key depth r ⊎ add_betree_likes (split_likes na) pa in
    let bl := buf_likes pre ⊎ split_add_buffers old key depth r in
    mdom tl ⊆ dom (lb_dv (root new)) ∧ mdom (buf_likes pre) ⊆ dom (lb_bdv (root new)) ∧
    post = mkState new tl bl.
  (** 1120-1136 *)
  Definition internal_flush (pre post : State) (l : Label) (new : BState SLB) (key : Key) (depth i gc : nat)
      (na : TwoAddrs) (pa : list Address) : Prop :=
    Linked.internal_flush (betree pre) new l (root new) key depth i gc na pa ∧
    is_fresh pre (two_repr na ∪ list_to_set pa) ∧
    let old := root (betree pre) in
    let tl := betree_likes pre ∖ flush_discard_betree old key depth i ⊎ add_betree_likes (two_likes na) pa in
    let bl := buf_likes pre ∖ flush_discard_buffers old key depth gc ⊎ flush_add_buffers old key depth i in
    mdom tl ⊆ dom (lb_dv (root new)) ∧ mdom bl ⊆ dom (lb_bdv (root new)) ∧
    post = mkState new tl bl.
  (** 1138-1154 *)
  Definition internal_compact (pre post : State) (l : Label) (new : BState SLB) (key : Key) (depth a b : nat)
      (cb : SB) (na : TwoAddrs) (pa : list Address) : Prop :=
    Linked.internal_compact (betree pre) new l (root new) key depth a b cb na pa ∧
    is_fresh pre (two_repr na ∪ list_to_set pa) ∧
    let old := root (betree pre) in
    let tl := betree_likes pre ∖ compact_discard_betree old key depth ⊎ compact_add_betree na pa in
    let bl := buf_likes pre ∖ compact_discard_buffers old key depth a b ⊎ compact_add_buffers na in
    mdom tl ⊆ dom (lb_dv (root new)) ∧ mdom bl ⊆ dom (lb_bdv (root new)) ∧
    post = mkState new tl bl.
  (** 1156-1159 *)
  Definition internal_buffer_noop (pre post : State) (l : Label) (new : BState SLB) : Prop :=
    Linked.internal_buffer_noop (betree pre) new l (root new) ∧
    post = mkState new (betree_likes pre) (buf_likes pre).
  (** 1161-1163 *)
  Definition internal_noop (pre post : State) (l : Label) : Prop :=
    Linked.internal_noop (betree pre) (betree pre) l ∧ post = pre.
  (** 1165-1173 *)
  Definition initialize (s : State) (b : BState SLB) : Prop :=
    Linked.initialize b b ∧ ∃ tl bl, transitive_likes (root b) tl bl ∧ s = mkState b tl bl.
  (** [next], as the state machine macro generates it. *)
  (** [next], which the state_machine! macro generates from the transitions of LikesBetree_v.rs 1028-1770. *)
  Definition next (pre post : State) (l : Label) : Prop :=
    (∃ new, likes_noop pre post l new) ∨
    (∃ new na, internal_flush_memtable pre post l new na) ∨
    (∃ new a, internal_grow pre post l new a) ∨
    (∃ new key depth r na pa, internal_split pre post l new key depth r na pa) ∨
    (∃ new key depth i gc na pa, internal_flush pre post l new key depth i gc na pa) ∨
    (∃ new key depth a b cb na pa, internal_compact pre post l new key depth a b cb na pa) ∨
    (∃ new, internal_buffer_noop pre post l new) ∨
    internal_noop pre post l.
End LikesBetree.

(** ** AllocationBetree: a count for every allocation unit. Line numbers here
    refer to AllocationBetree_v.rs. *)
Module AllocBetree.
  (** 35-39 *)
  Record State := mkState { betree : BState SLB; betree_aus : AULikes; buffer_aus : AULikes }.
  (** 41-44: the label is the one of the linked tree. *)
  Notation Label := (BLabel SLB).
  (** 47-50 *)
  Definition is_fresh (s : State) (addrs : gset Address) : Prop := Linked.is_fresh (root (betree s)) addrs.
  (** The two disk requirements every step repeats (e.g. 87-88): of the pages
      written, those in units still counted are there. *)
  Definition keeps_counted (written new : SLB) (aus : AULikes * AULikes) : Prop :=
    restrict_domain_au (lb_dv written) (mdom aus.1) ⊆ dom (lb_dv new) ∧
    restrict_domain_au (lb_bdv written) (mdom aus.2) ⊆ dom (lb_bdv new).
  (** 51-57 *)
  Definition initialize (s : State) (b : BState SLB) : Prop :=
    Linked.initialize b b ∧ ∃ tl bl, transitive_likes (root b) tl bl ∧
      s = mkState b (to_au_likes tl) (to_au_likes bl).
  (** 59-63 *)
  Definition au_likes_noop (pre post : State) (l : Label) (new : BState SLB) : Prop :=
    likes_free l ∧ Linked.next (betree pre) new l ∧
    post = mkState new (betree_aus pre) (buffer_aus pre).
  (** 77-94 *)
  Definition internal_flush_memtable (pre post : State) (l : Label) (new : BState SLB) (na : TwoAddrs) : Prop :=
    let buffer := mt_buffer (memtable (betree pre)) in
    Linked.internal_flush_memtable (betree pre) new l buffer (root new) na ∧
    is_fresh pre (two_repr na) ∧
    let aus := flush_memtable_au_likes (root (betree pre)) (root new) na (betree_aus pre) (buffer_aus pre) in
    keeps_counted (Linked.push_memtable (root (betree pre)) buffer na) (root new) aus ∧
    post = mkState new aus.1 aus.2.
  (** 96-102 *)
  Definition internal_grow (pre post : State) (l : Label) (new : BState SLB) (a : Address) : Prop :=
    Linked.internal_grow (betree pre) new l a ∧ is_fresh pre {[ a ]} ∧
    post = mkState new (betree_aus pre ⊎ {[+ au a +]}) (buffer_aus pre).
  (** 117-131 *)
  Definition internal_split (pre post : State) (l : Label) (new : BState SLB) (key : Key) (depth : nat)
      (r : SplitRequest) (na : SplitAddrs) (pa : list Address) : Prop :=
    Linked.internal_split (betree pre) new l (root new) key depth r na pa ∧
    is_fresh pre (split_repr na ∪ list_to_set pa) ∧
    let old := root (betree pre) in
    let aus := internal_split_au_likes old key depth r na pa (betree_aus pre) (buffer_aus pre) in
    keeps_counted (Linked.post_split old key depth r na pa) (root new) aus ∧
    post = mkState new aus.1 aus.2.
  (** 147-163 *)
  Definition internal_flush (pre post : State) (l : Label) (new : BState SLB) (key : Key) (depth i gc : nat)
      (na : TwoAddrs) (pa : list Address) : Prop :=
    Linked.internal_flush (betree pre) new l (root new) key depth i gc na pa ∧
    is_fresh pre (two_repr na ∪ list_to_set pa) ∧
    let old := root (betree pre) in
    let aus := internal_flush_au_likes old key depth i gc na pa (betree_aus pre) (buffer_aus pre) in
    keeps_counted (Linked.post_flush old key depth i gc na pa) (root new) aus ∧
    post = mkState new aus.1 aus.2.
  (** 179-195 *)
  Definition internal_compact_complete (pre post : State) (l : Label) (new : BState SLB) (key : Key) (depth a b : nat)
      (cb : SB) (na : TwoAddrs) (pa : list Address) : Prop :=
    Linked.internal_compact (betree pre) new l (root new) key depth a b cb na pa ∧
    is_fresh pre (two_repr na ∪ list_to_set pa) ∧
    let old := root (betree pre) in
    let aus := internal_compact_complete_au_likes old key depth a b na pa (betree_aus pre) (buffer_aus pre) in
    keeps_counted (Linked.post_compact old key depth a b cb na pa) (root new) aus ∧
    post = mkState new aus.1 aus.2.
  (** 197-200 *)
  Definition internal_buffer_noop (pre post : State) (l : Label) (new : BState SLB) : Prop :=
    Linked.internal_buffer_noop (betree pre) new l (root new) ∧
    post = mkState new (betree_aus pre) (buffer_aus pre).
  (** 202-204 *)
  Definition internal_noop (pre post : State) (l : Label) : Prop :=
    Linked.internal_noop (betree pre) (betree pre) l ∧ post = pre.
  (** [next], as the state machine macro generates it. *)
  (** [next], which the state_machine! macro generates from the transitions of AllocationBetree_v.rs 34-207. *)
  Definition next (pre post : State) (l : Label) : Prop :=
    (∃ new, au_likes_noop pre post l new) ∨
    (∃ new na, internal_flush_memtable pre post l new na) ∨
    (∃ new a, internal_grow pre post l new a) ∨
    (∃ new key depth r na pa, internal_split pre post l new key depth r na pa) ∨
    (∃ new key depth i gc na pa, internal_flush pre post l new key depth i gc na pa) ∨
    (∃ new key depth a b cb na pa, internal_compact_complete pre post l new key depth a b cb na pa) ∨
    (∃ new, internal_buffer_noop pre post l new) ∨
    internal_noop pre post l.
End AllocBetree.
