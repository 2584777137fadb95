(** Small independent specifications for message logs (C07-C09). *)
From Verif Require Import Abs_Model.

(** [is_log h l]: the history [h] stores exactly the messages [l], in order, at
    consecutive sequence numbers from its start. *)
Definition is_log (h : MsgHistory) (l : list KeyedMessage) : Prop :=
  seq_end h = seq_start h + length l ∧
  ∀ lsn km, msgs h !! lsn = Some km ↔ seq_start h ≤ lsn ∧ l !! (lsn - seq_start h) = Some km.

(** The message held for key [k] after applying the messages [l], oldest first,
    to a store that held [m] for [k]. *)
Definition after (l : list KeyedMessage) (k : Key) (m : Message) : Message :=
  fold_left (λ acc km, if decide (km_key km = k) then merge acc (km_message km) else acc) l m.

(** A list of consecutive log pieces starting at [start]. *)
Fixpoint consecutive (start : LSN) (hs : list MsgHistory) : Prop :=
  match hs with
  | [] => True
  | h :: hs => mh_wf h ∧ seq_start h = start ∧ consecutive (seq_end h) hs
  end.

(** The store in memory is complete when the in-memory journal holds nothing
    the in-memory map has not absorbed. *)
Definition recovered (s : CoordSys.State) (m : TotalKMMap) : Prop :=
  ∃ e j v, CoordSys.ephemeral s = Some e ∧
    CTJournal.ephemeral (CoordSys.journal s) = Some j ∧
    CTMap.ephemeral (CoordSys.mapadt s) = Some v ∧
    CoordSys.map_lsn e = seq_end (AbstractJournal.journal j) ∧
    m = st_value (AbstractMap.stamped_map v).

(** The recovery actions: load the durable images, replay some journal records. *)
Definition recovery_step (pre post : CoordSys.State) (l : CTAM.Label) : Prop :=
  (∃ nj nm lsn, CoordSys.load_ephemeral_from_persistent pre post l nj nm lsn) ∨
  (∃ nj nm r, CoordSys.recover pre post l nj nm r).

(** Background activity: nothing a client does or sees. *)
Definition background (l : CTAM.Label) : Prop := l = CTAM.Noop ∨ l = CTAM.SyncOp.

(** The event executes a put. *)
Definition executes_put (l : CTAM.Label) : Prop :=
  ∃ req rep k v, l = CTAM.OperateOp (AsyncMap.ExecuteOp req rep) ∧ req_input req = PutInput k v.

(** Non-vacuity trace for the coordination system: start up, put, sync to
    completion, a second put that is not synced, crash, recover, query. *)
Definition coord_example_trace : list CTAM.Label :=
  [CTAM.Noop; (* load *)
   CTAM.OperateOp (AsyncMap.RequestOp (mkReq (PutInput 1 7) 0));
   CTAM.OperateOp (AsyncMap.ExecuteOp (mkReq (PutInput 1 7) 0) (mkReply PutOutput 0));
   CTAM.ReqSyncOp 5;
   CTAM.Noop; (* freeze the map *)
   CTAM.Noop; (* start the commit *)
   CTAM.SyncOp; (* the superblock lands *)
   CTAM.Noop; (* commit complete *)
   CTAM.ReplySyncOp 5;
   CTAM.OperateOp (AsyncMap.RequestOp (mkReq (PutInput 1 9) 1));
   CTAM.OperateOp (AsyncMap.ExecuteOp (mkReq (PutInput 1 9) 1) (mkReply PutOutput 1));
   CTAM.CrashOp;
   CTAM.Noop; (* load *)
   CTAM.Noop; (* replay *)
   CTAM.OperateOp (AsyncMap.RequestOp (mkReq (QueryInput 1) 2));
   CTAM.OperateOp (AsyncMap.ExecuteOp (mkReq (QueryInput 1) 2) (mkReply (QueryOutput 7) 2))]%N.
