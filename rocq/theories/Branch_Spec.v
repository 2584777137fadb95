(** Small independent specification of the branches (C33, C34). *)
From Verif Require Import Betree_Model Branch_Model.
From Coq Require Import Sorting.Sorted.

(** ** What a client knows: the messages it wrote, oldest first *)
(** The last message written under a key; the message that changes nothing when
    there is none. *)
Fixpoint last_written (ws : list (Key * Message)) (k : Key) : Message :=
  match ws with
  | [] => Update nop_delta
  | (j, m) :: rest =>
      if decide (k ∈ rest.*1) then last_written rest k
      else if decide (k = j) then m else Update nop_delta
  end.
Definition writes_of (l : PBranch.Call) : list (Key * Message) :=
  match l with
  | PBranch.Insert k m _ => [(k, m)]
  | PBranch.Append ks ms _ => zip ks ms
  | _ => []
  end.
Definition writes (ls : list PBranch.Call) : list (Key * Message) := concat (map writes_of ls).
(** Every query among the calls returned the last message written before it. *)
Definition answers_last (ws : list (Key * Message)) (ls : list PBranch.Call) : Prop :=
  ∀ before k m after, ls = before ++ PBranch.Query k m :: after →
    m = last_written (ws ++ writes before) k.

(** ** What a tree holds *)
(** Its pairs from left to right. *)
Fixpoint contents (n : PBranch.Node) : list (Key * Message) :=
  match n with
  | PBranch.Leaf keys msgs => zip keys msgs
  | PBranch.Index _ children => concat (map contents children)
  end.
(** A key between two bounds: the lower is included, the upper is not; no bound
    is [None]. *)
Definition within (lo hi : option Key) (k : Key) : Prop :=
  (∀ l, lo = Some l → (l ≤ k)%N) ∧ (∀ h, hi = Some h → (k < h)%N).
(** The bounds the pivots give to the child in position [i]. *)
Definition lower (lo : option Key) (pivots : list Key) (i : nat) : option Key :=
  match i with O => lo | S j => pivots !! j end.
Definition upper (hi : option Key) (pivots : list Key) (i : nat) : option Key :=
  match pivots !! i with Some p => Some p | None => hi end.
(** A search tree whose keys and pivots lie between two bounds. No node is empty. *)
Inductive search_tree : option Key → option Key → PBranch.Node → Prop :=
  | search_leaf lo hi keys msgs :
      keys ≠ [] → length keys = length msgs → StronglySorted N.lt keys →
      (∀ k, k ∈ keys → within lo hi k) →
      search_tree lo hi (PBranch.Leaf keys msgs)
  | search_index lo hi pivots children :
      length children = S (length pivots) → StronglySorted N.lt pivots →
      (∀ k, k ∈ pivots → within lo hi k) →
      (∀ i c, children !! i = Some c → search_tree (lower lo pivots i) (upper hi pivots i) c) →
      search_tree lo hi (PBranch.Index pivots children).
(** Every leaf is exactly [d] levels down. *)
Inductive leaves_at : nat → PBranch.Node → Prop :=
  | leaves_here keys msgs : leaves_at 0 (PBranch.Leaf keys msgs)
  | leaves_down d pivots children :
      (∀ i c, children !! i = Some c → leaves_at d c) → leaves_at (S d) (PBranch.Index pivots children).
(** A leaf a branch can start as. *)
Definition first_leaf (keys : list Key) (msgs : list Message) : Prop :=
  keys ≠ [] ∧ length keys = length msgs ∧ StronglySorted N.lt keys.
Definition is_grow (l : PBranch.Call) : bool := match l with PBranch.Grow => true | _ => false end.
(** How often the tree grew a level. *)
Definition levels (ls : list PBranch.Call) : nat := length (List.filter is_grow ls).
(** The calls that only rearrange the tree. *)
Definition rearranges (l : PBranch.Call) : Prop :=
  match l with PBranch.Grow | PBranch.Split _ _ => True | _ => False end.

(** ** The tree of pages *)
Section pages.
  Context {T : Type}.
  Implicit Types (dv : gmap Address (LBranch.Node T)).
  (** The page at an address, and the pages it names, spell out a tree. *)
  Inductive stores dv : Address → PBranch.Node → Prop :=
    | stores_leaf a keys msgs :
        dv !! a = Some (LBranch.Leaf keys msgs) → stores dv a (PBranch.Leaf keys msgs)
    | stores_index a pivots addrs aux children :
        dv !! a = Some (LBranch.Index pivots addrs aux) →
        length addrs = length children →
        (∀ i c n, addrs !! i = Some c → children !! i = Some n → stores dv c n) →
        stores dv a (PBranch.Index pivots children).
  (** One page names another as a child. *)
  Definition names dv (a c : Address) : Prop :=
    ∃ pivots addrs aux, dv !! a = Some (LBranch.Index pivots addrs aux) ∧ c ∈ addrs.
  (** No page under the root is its own descendant. *)
  Definition no_cycle (b : LBranch.t T) : Prop :=
    ∀ a, rtc (names (LBranch.disk b)) (LBranch.root b) a → ¬ tc (names (LBranch.disk b)) a a.
  (** The pages on the disk are those under the root, and no others. *)
  Definition tight (b : LBranch.t T) : Prop :=
    ∀ a, is_Some (LBranch.disk b !! a) ↔ rtc (names (LBranch.disk b)) (LBranch.root b) a.
  (** The page an in-memory call corresponds to is forgotten. *)
  Definition erase (l : LBranch.Call) : PBranch.Call :=
    match l with
    | LBranch.Query k m => PBranch.Query k m
    | LBranch.Insert k m d => PBranch.Insert k m d
    | LBranch.Append ks ms d => PBranch.Append ks ms d
    | LBranch.Grow _ => PBranch.Grow
    | LBranch.Split s _ d => PBranch.Split s d
    end.
  (** The address a call takes for a new page. *)
  Definition takes (l : LBranch.Call) : option Address :=
    match l with LBranch.Grow a => Some a | LBranch.Split _ a _ => Some a | _ => None end.
End pages.

(** ** The branch builder *)
(** The pairs an event writes. *)
Definition built_by (l : ABranch.Label) : list (Key * Message) :=
  match l.1.1 with
  | ABranch.Initialize _ keys msgs => zip keys msgs
  | ABranch.Append keys msgs _ => zip keys msgs
  | _ => []
  end.
(** All the pairs written, oldest first. *)
Definition built (ls : list ABranch.Label) : list (Key * Message) := concat (map built_by ls).
(** The allocation units taken from and given back to the allocator. *)
Definition units_taken (ls : list ABranch.Label) : gset AU := ⋃ (map (λ l, l.1.2) ls).
Definition units_returned (ls : list ABranch.Label) : gset AU := ⋃ (map (λ l, l.2) ls).
(** The allocation units with a page of the branch. *)
Definition units_with_pages (b : ABranch.Branch) (u : AU) : Prop :=
  ∃ a, is_Some (LBranch.disk b !! a) ∧ au a = u.
(** The page holding the summary, named by the root. *)
Definition summary_page (b : ABranch.Branch) (a : Address) : Prop :=
  ∃ pivots children summary,
    LBranch.disk b !! LBranch.root b = Some (LBranch.Index pivots children (Some a)) ∧
    LBranch.disk b !! a = Some (LBranch.Auxiliary summary).
