(** Small independent specifications for the be-tree layers (C15-C20). *)
From Verif Require Import Abs_Model Betree_Model.

(** The message an ordered list of further messages turns [base] into. *)
Definition merge_all (base : Message) (ms : list Message) : Message := foldl merge base ms.

(** ** What a tree stores under a key: walk from the root along the children the
    key belongs to, then apply the messages met on the way back, oldest (deepest)
    first. Below the tree every key is empty. *)
Inductive paged_answers : Paged.BetreeNode → Key → Message → Prop :=
  | paged_answers_nil k : paged_answers Paged.Nil k message_empty
  | paged_answers_node b ch k m :
      paged_answers (ch k) k m →
      paged_answers (Paged.Node b ch) k (merge_all m (option_list (b !! k))).

(** For trees that route by pivots: the child is the one between whose pivots
    the key lies. [held c i k] lists, oldest first, the messages the node
    contents [c] hold for key [k] on behalf of child [i]. *)
Inductive routed_answers {D} (held : D → nat → Key → list Message) :
    Routed.BetreeNode D → Key → Message → Prop :=
  | routed_answers_nil k : routed_answers held Routed.Nil k message_empty
  | routed_answers_node d p ch k i lo hi c m :
      p !! i = Some lo → p !! S i = Some hi → elt_lte lo (Elem k) → elt_lt (Elem k) hi →
      ch !! i = Some c → routed_answers held c k m →
      routed_answers held (Routed.Node d p ch) k (merge_all m (held d i k)).

(** A pivot node holds at most one message per key. *)
Definition pivot_held (b : gmap N Message) (i : nat) (k : Key) : list Message := option_list (b !! k).
Definition pivot_answers := routed_answers pivot_held.
(** A filtered node holds for child [i] the messages of those buffers that were
    not yet flushed to child [i]. *)
Definition filtered_held (c : Filtered.Contents) (i : nat) (k : Key) : list Message :=
  match Filtered.flushed c !! i with
  | Some ofs => omap (λ b : gmap N Message, b !! k) (drop ofs (Filtered.buffers c))
  | None => []
  end.
Definition filtered_answers := routed_answers filtered_held.

(** The tree stores exactly the map [m]: every key has exactly one answer, [m k]. *)
Definition holds {T} (answers : T → Key → Message → Prop) (t : T) (m : TotalKMMap) : Prop :=
  ∀ k v, answers t k v ↔ m k = v.

(** The whole state: the tree with the memtable on top. *)
Definition state_holds {T} (answers : T → Key → Message → Prop) (s : BState T) (m : TotalKMMap) : Prop :=
  ∃ base, holds answers (root s) base ∧
    ∀ k, m k = merge_all (base k) (option_list (mt_buffer (memtable s) !! k)).

(** The same client-visible event at a tree layer and at the abstract map:
    frozen images are matched by content, everything else is equal. *)
Definition betree_event {T} (answers : T → Key → Message → Prop)
    (l : BLabel T) (a : AbstractMap.Label) : Prop :=
  match l with
  | Query e k v => a = AbstractMap.QueryLabel e k v
  | Put puts => a = AbstractMap.PutLabel puts
  | FreezeAs img => ∃ m, holds answers (st_value img) m ∧
                         a = AbstractMap.FreezeAsLabel (mkStamped m (st_seq_end img))
  | Internal => a = AbstractMap.InternalLabel
  end.

(** A layer behaves like the abstract map from an image that stores [m0]: the
    run has a matching run of the abstract map, which ends with the map the tree
    and the memtable store. *)
Definition acts_as_map {T} (answers : T → Key → Message → Prop) (m0 : StampedMap)
    (ls : list (BLabel T)) (s : BState T) : Prop :=
  ∃ a0 als a, AbstractMap.initialize a0 m0 ∧ run AbstractMap.next a0 als a ∧
    Forall2 (betree_event answers) ls als ∧
    state_holds answers s (st_value (AbstractMap.stamped_map a)) ∧
    st_seq_end (AbstractMap.stamped_map a) = mt_seq_end (memtable s).

(** The query a layer can answer in a state. *)
Definition can_answer {T} (next : BState T → BState T → BLabel T → Prop) (s : BState T)
    (k : Key) (v : Value) : Prop :=
  next s s (Query (mt_seq_end (memtable s)) k v).

(** The pivots of every node grow strictly from the lower to the upper bound of
    the node, and the children tile that range one after the other. *)
Inductive tiles {D} : Routed.BetreeNode D → Element → Element → Prop :=
  | tiles_nil lo hi : tiles Routed.Nil lo hi
  | tiles_node d p ch lo hi :
      p !! 0 = Some lo → p !! length ch = Some hi → length p = S (length ch) → ch ≠ [] →
      (∀ i a b c, p !! i = Some a → p !! S i = Some b → ch !! i = Some c →
                  elt_lt a b ∧ tiles c a b) →
      tiles (Routed.Node d p ch) lo hi.

(** The root of an image is responsible for every key. *)
Definition covers_all_keys {D} (t : Routed.BetreeNode D) : Prop :=
  match t with
  | Routed.Nil => True
  | Routed.Node _ p _ => p !! 0 = Some (Elem 0) ∧ p !! (length p - 1) = Some EMax
  end.

(** Range [i] of the pivots is the one that covers key [k]. *)
Definition covers_key (p : list Element) (i : nat) (k : Key) : Prop :=
  ∃ lo hi, p !! i = Some lo ∧ p !! S i = Some hi ∧ elt_lte lo (Elem k) ∧ elt_lt (Elem k) hi.
(** The node is responsible for key [k] (the empty tree answers every key). *)
Definition responsible {D} (t : Routed.BetreeNode D) (k : Key) : Prop :=
  match t with
  | Routed.Nil => True
  | Routed.Node _ p _ => ∃ lo hi, p !! 0 = Some lo ∧ p !! (length p - 1) = Some hi ∧
                          elt_lte lo (Elem k) ∧ elt_lt (Elem k) hi
  end.
(** A query receipt for key [k] of tree [t] that validates and reports [m]. *)
Definition paged_receipt (t : Paged.BetreeNode) (k : Key) (m : Message) : Prop :=
  ∃ r, Paged.valid_for r t k ∧ Paged.receipt_result r m.
Definition routed_receipt {D} dwf q (t : Routed.BetreeNode D) (k : Key) (m : Message) : Prop :=
  ∃ r, Routed.valid_for dwf q r t k ∧ Routed.receipt_result r m.
