(** Small independent specification for the be-tree whose buffers are branches
    (C42, C43). *)
From Verif Require Import Abs_Model Disk_Model Betree_Model Betree_Spec Branch_Model Branch_Spec.
From Verif Require Import LinkedBetree_Model LinkedBetree_Spec LikesBetree_Model LikesBetree_Spec BranchBetree_Model.
Implicit Types (bdv : gmap Address (LBranch.Node (gset nat))) (s : ABB.State).

(** ** Branches on the disk *)
(** The pages of the branch whose root page is [r]: those its pages name as
    children, starting with the root, and the page with its list of units. *)
Definition branch_page bdv (r a : Address) : Prop :=
  rtc (names bdv) r a ∨ summary_page (LBranch.mk r bdv) a.
(** The allocation units of the branch, as recorded on the disk: a branch of one
    page takes up the unit of that page, any other lists its units on the page its
    root names. *)
Definition branch_units bdv (r : Address) (U : gset AU) : Prop :=
  (∃ keys msgs, bdv !! r = Some (LBranch.Leaf keys msgs) ∧ U = {[ au r ]}) ∨
  (∃ pivots children p, bdv !! r = Some (LBranch.Index pivots children (Some p)) ∧
     bdv !! p = Some (LBranch.Auxiliary U)).

(** ** What is in use *)
(** A branch is in use while the tree refers to it or an unfinished compaction
    reads it. *)
Definition being_read s (r : Address) : Prop := ∃ c, c ∈ ABB.compactors s ∧ r ∈ input_buffers c.
Definition in_use s (r : Address) : Prop := buffer_live (root (ABB.betree s)) r ∨ being_read s r.
(** Who needs an allocation unit: the node pages in use, the branch whose root
    page is [r], or the [i]-th of the branches being built. *)
Inductive Owner := TheNodes | TheBranch (r : Address) | TheBuilder (i : nat).
Definition owns s (o : Owner) (u : AU) : Prop :=
  match o with
  | TheNodes => ∃ a, node_live (root (ABB.betree s)) a ∧ au a = u
  | TheBranch r => in_use s r ∧ ∃ U, branch_units (lb_bdv (root (ABB.betree s))) r U ∧ u ∈ U
  | TheBuilder i => ∃ w, ABB.wip_branches s !! i = Some w ∧ u ∈ all_aus (ABranch.mini_allocator w)
  end.
Definition needed s (u : AU) : Prop := ∃ o, owns s o u.

(** ** The allocation units a run holds *)
Definition unit_allocs (l : ABB.Label) : gset AU := match l with ABB.Lbl _ => ∅ | ABB.Int alls _ => alls end.
Definition unit_frees (l : ABB.Label) : gset AU := match l with ABB.Lbl _ => ∅ | ABB.Int _ deallocs => deallocs end.
(** Starting with [H0], every step takes some units and returns some. *)
Fixpoint units_held (H0 : gset AU) (ls : list ABB.Label) : gset AU :=
  match ls with
  | [] => H0
  | l :: rest => units_held ((H0 ∪ unit_allocs l) ∖ unit_frees l) rest
  end.

(** ** What the disk stores under a key *)
(** As for the linked tree (LinkedBetree_Spec.v), but what a buffer stores is
    what the pages of its branch spell out. *)
Inductive disk_branch_answers (dv : gmap Address LNode.t) bdv : option Address → Key → Message → Prop :=
  | branch_answers_null k : disk_branch_answers dv bdv None k message_empty
  | branch_answers_node a n k i lo hi p ofs ts m :
      dv !! a = Some n →
      LNode.pivots n !! i = Some lo → LNode.pivots n !! S i = Some hi →
      elt_lte lo (Elem k) → elt_lt (Elem k) hi →
      LNode.children n !! i = Some p → LNode.flushed n !! i = Some ofs →
      Forall2 (stores bdv) (drop ofs (LNode.buffers n)) ts →
      disk_branch_answers dv bdv p k m →
      disk_branch_answers dv bdv (Some a) k
        (merge_all m (omap (λ t, (list_to_map (contents t) : gmap N Message) !! k) ts)).
Definition branch_answers (l : LinkedBetree (LBranch.Node (gset nat))) : Key → Message → Prop :=
  disk_branch_answers (lb_dv l) (lb_bdv l) (lb_root l).
(** The client sees queries, puts and freezes; the images frozen are trees with
    simple buffers. *)
Definition branch_event (l : ABB.Label) (a : AbstractMap.Label) : Prop :=
  match l with
  | ABB.Lbl l => betree_event linked_answers l a
  | ABB.Int _ _ => a = AbstractMap.InternalLabel
  end.
Definition branches_act_as_map (m0 : StampedMap) (ls : list ABB.Label) s : Prop :=
  ∃ a0 als a, AbstractMap.initialize a0 m0 ∧ run AbstractMap.next a0 als a ∧
    Forall2 branch_event ls als ∧
    state_holds branch_answers (ABB.betree s) (st_value (AbstractMap.stamped_map a)) ∧
    st_seq_end (AbstractMap.stamped_map a) = mt_seq_end (memtable (ABB.betree s)).
(** The query the tree of branches can answer in a state. *)
Definition branch_can_answer `{Geometry} (fixed grow : bool) s (k : Key) (v : Value) : Prop :=
  ABB.next fixed grow s s (ABB.Lbl (Query (mt_seq_end (memtable (ABB.betree s))) k v)).

(** ** Pages *)
(** No node page present before and after has changed, and no branch page. *)
Definition branch_pages_kept (l l' : LinkedBetree (LBranch.Node (gset nat))) : Prop :=
  (∀ a n n', lb_dv l !! a = Some n → lb_dv l' !! a = Some n' → n' = n) ∧
  (∀ a b b', lb_bdv l !! a = Some b → lb_bdv l' !! a = Some b' → b' = b).
