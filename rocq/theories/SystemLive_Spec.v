(** What it means for the whole program and for the executable server not to get
    stuck (C57), over the events a client observes. *)
From Verif Require Import Spec_Model Disk_Model System_Model Exec_Model.

(** A step of the program or of the disk: no client takes part and nothing fails. *)
Definition own_step (l : SystemModel.Label) : Prop :=
  match l with
  | SystemModel.ProgramUIOp _ | SystemModel.ProgramDiskOp _ | SystemModel.ProgramInternal | SystemModel.DiskInternal => True
  | _ => False
  end.
(** An event [opens] happened, and none that [closes] since. *)
Definition open_since {L} (ls : list L) (opens closes : L → Prop) : Prop :=
  ∃ i l, ls !! i = Some l ∧ opens l ∧ ∀ m l', i < m → ls !! m = Some l' → ¬ closes l'.
(** The client made the request; it got no reply with that id since, and nothing
    crashed. *)
Definition waiting_request (ls : list SystemModel.Label) (req : Request) : Prop :=
  open_since ls (λ l, l = SystemModel.AcceptRequest req)
    (λ l, l = SystemModel.Crash ∨ ∃ reply, l = SystemModel.DeliverReply reply ∧ reply_id reply = req_id req).
Definition waiting_sync (ls : list SystemModel.Label) (id : SyncReqId) : Prop :=
  open_since ls (λ l, l = SystemModel.AcceptSyncRequest id)
    (λ l, l = SystemModel.Crash ∨ l = SystemModel.DeliverSyncReply id).

(** The puts the program executed, in order, also before crashes. *)
Definition executed_puts (ls : list SystemModel.Label) : list (Key * Value) :=
  omap (λ l, match l with
             | SystemModel.ProgramUIOp (Execute (mkReq (PutInput k v) _) _) => Some (k, v)
             | _ => None end) ls.
(** The store that has seen these puts and nothing else. *)
Definition store_after (puts : list (Key * Value)) : PersistentState :=
  fold_left (λ st kv, MapSpec.mkState (kmmap_insert (MapSpec.kmmap st) kv.1 (Define kv.2))) puts MapSpec.my_init.
(** There is a superblock page for every store that some of the puts of this
    history lead to, with any version number. *)
Definition format_fits `{Decoder} (ls : list SystemModel.Label) : Prop :=
  ∀ h v, h `sublist_of` executed_puts ls → ∃ data, unmarshall data = mkSB (store_after h) v.

(** A step of a server that starts up, or of its disk. *)
Definition startup (l : Exec.Label) : Prop :=
  match l with Exec.Boot | Exec.DiskInternal | Exec.Recovered => True | _ => False end.
