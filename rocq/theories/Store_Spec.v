(** Small independent specifications for the assembled store (C48). *)
From Verif Require Import Abs_Model Abs_Spec Betree_Model Betree_Spec LinkedBetree_Model LinkedBetree_Spec
  Journal_Model Journal_Spec CrashJournal_Model CrashJournal_Spec Store_Model.

(** What an image of each kind of tree stores under a key. *)
Definition tree_answers (t : Tree) : ml_image (tree_layer t) → Key → Message → Prop :=
  match t with
  | PagedTree => paged_answers
  | PivotTree => pivot_answers
  | FilteredTree => filtered_answers
  | LinkedTree => linked_answers
  | CountedTree => linked_answers
  | UnitsTree => linked_answers
  end.

(** The pages of the persistent image of the journal store the history [h]. *)
Definition journal_on_disk `{Geometry} (p : Pages) : jl_state (journal_layer p) → MsgHistory → Prop :=
  match p with
  | OwnPages => λ s h, linked_holds (img_tj (AllocCrash.persistent s)) h
  | SharedPages => λ s h, image_holds (Unified.dv s) (Unified.persistent s) h
  end.

(** What a machine that boots from the disk of state [s] finds: the persistent
    tree holds [base], and the pages of the persistent journal hold, from the
    number of the tree on, the log [l]. Here for any layer [M] whose images store
    what [ans] says. *)
Definition layer_on_disk `{Geometry} (p : Pages) (M : MapLayer) (ans : ml_image M → Key → Message → Prop)
    (s : Store.State (journal_layer p) M) (base : TotalKMMap) (l : list KeyedMessage) : Prop :=
  Betree_Spec.holds ans (st_value (TreeMap.persistent (Store.mapadt s))) base ∧
  ∃ h, journal_on_disk p (Store.journal s) h ∧ is_log h l ∧
    seq_start h = st_seq_end (TreeMap.persistent (Store.mapadt s)).
Definition on_disk `{Geometry} (p : Pages) (t : Tree) (s : Store.State (journal_layer p) (tree_layer t))
    (base : TotalKMMap) (l : list KeyedMessage) : Prop :=
  layer_on_disk p (tree_layer t) (tree_answers t) s base l.

(** The recovery actions: load the persistent images, replay a journal page. *)
Definition layer_boot_step {J M} (pre post : Store.State J M) (l : CTAM.Label) : Prop :=
  Store.load_ephemeral_from_persistent _ _ pre post l ∨ Store.recover _ _ pre post l.
Definition boot_step `{Geometry} (p : Pages) (t : Tree)
    (pre post : Store.State (journal_layer p) (tree_layer t)) (l : CTAM.Label) : Prop :=
  layer_boot_step pre post l.

(** The store answers a query for [k] with [v] right now: it has a request for
    [k] and can execute it with that answer. *)
Definition layer_can_reply {J M} (s : Store.State J M) (k : Key) (v : Value) : Prop :=
  ∃ id s' s'', let req := mkReq (QueryInput k) id in
    Store.next s s' (CTAM.OperateOp (AsyncMap.RequestOp req)) ∧
    Store.next s' s'' (CTAM.OperateOp (AsyncMap.ExecuteOp req (mkReply (QueryOutput v) id))).
Definition can_reply `{Geometry} (p : Pages) (t : Tree)
    (s : Store.State (journal_layer p) (tree_layer t)) (k : Key) (v : Value) : Prop := layer_can_reply s k v.
