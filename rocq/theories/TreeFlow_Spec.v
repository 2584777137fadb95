(** Vocabulary of C56: free pages, the shape of a tree, and where its messages are. *)
From Verif Require Import Abs_Model LinkedBetree_Model LikesBetree_Model LikesBetree_Spec.

(** The addresses are different, and neither a node nor a buffer is at them. *)
Definition free_pages (l : SLB) (addrs : list Address) : Prop :=
  base.NoDup addrs ∧ ∀ a, a ∈ addrs → lb_dv l !! a = None ∧ lb_bdv l !! a = None.
(** Every node is a leaf, whose only child is missing and which has passed
    nothing on, or has all its children. *)
Definition leaves_and_full_nodes {T} (l : LinkedBetree T) : Prop :=
  ∀ a n, node_live l a → lb_dv l !! a = Some n →
    LNode.children n = [None] ∧ LNode.flushed n = [0] ∨ ∀ p, p ∈ LNode.children n → p ≠ None.
(** All messages are in the leaves, each of which has one buffer at most. *)
Definition settled {T} (l : LinkedBetree T) : Prop :=
  ∀ a n, node_live l a → lb_dv l !! a = Some n →
    LNode.buffers n = [] ∨ LNode.children n = [None] ∧ length (LNode.buffers n) ≤ 1.
(** All messages are in the leaves. *)
Definition drained {T} (l : LinkedBetree T) : Prop :=
  ∀ a n, node_live l a → lb_dv l !! a = Some n → LNode.buffers n = [] ∨ LNode.children n = [None].
(** Nothing but background work happened on the way from one state to the other. *)
Definition background {S L} (next : S → S → BLabel L → Prop) (s s' : S) : Prop :=
  ∃ k, run next s (replicate k Internal) s'.
(** In the state the machine can take each background operation of the tree, with
    any free pages for what it writes: write out the memtable, put a new root on
    top, split a child, flush to a child, and compact some of a node's buffers. *)
Definition can_work {S} (next : S → S → BLabel SLB → Prop) (tree : S → BState SLB) (s : S) : Prop :=
  let mt := memtable (tree s) in
  let l := root (tree s) in
  let can b := ∃ s', next s s' Internal ∧ tree s' = b in
  (∀ a c, free_pages l [a; c] → can (mkBS (mt_drain mt) (Linked.push_memtable l (mt_buffer mt) (mkTwo a c)))) ∧
  (∀ a, free_pages l [a] → can (mkBS mt (Linked.grow l a))) ∧
  (∀ key d r a c e pa, Linked.path_valid l key d → length pa = d → free_pages l (a :: c :: e :: pa) →
     Linked.can_split_parent (Linked.path_target l key d) r →
     can (mkBS mt (Linked.post_split l key d r (mkSplit a c e) pa))) ∧
  (∀ key d i gc a c pa, Linked.path_valid l key d → length pa = d → free_pages l (a :: c :: pa) →
     Linked.can_flush (Linked.path_target l key d) i gc →
     can (mkBS mt (Linked.post_flush l key d i gc (mkTwo a c) pa))) ∧
  (∀ key d i j a c pa, Linked.path_valid l key d → length pa = d → free_pages l (a :: c :: pa) →
     i < j ≤ length (LNode.buffers (Linked.root_node (Linked.path_target l key d))) →
     ∃ buffer, can (mkBS mt (Linked.post_compact l key d i j buffer (mkTwo a c) pa))).
