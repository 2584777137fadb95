(** Small specifications, independent of the state machines, in terms of which
    the client-visible properties C01-C04 are stated. *)
From Verif Require Import Spec_Model.

(** The value a client expects to read for [k] after the operations [ops]: the
    value of the last put to [k], or the default value 0. *)
Definition last_write (k : Key) (ops : list Input) : Value :=
  fold_left (λ acc op, match op with
                       | PutInput k' v => if decide (k' = k) then v else acc
                       | _ => acc end) ops 0%N.

(** The output a client expects for operation [op] issued after [ops]. *)
Definition expected_output (ops : list Input) (op : Input) : Output :=
  match op with
  | QueryInput k => QueryOutput (last_write k ops)
  | PutInput _ _ => PutOutput
  | NoopInput => NoopOutput
  end.

(** [shows s ops]: the store [s] answers every key with the value written last
    by [ops]. *)
Definition shows (s : MapSpec.State) (ops : list Input) : Prop :=
  ∀ k, MapSpec.kmmap s k = Define (last_write k ops).

(** A sequential history (input, output) is legal when each output is the one
    expected after the operations before it. *)
Definition legal (h : list (Input * Output)) : Prop :=
  ∀ n i o, h !! n = Some (i, o) → o = expected_output (take n h.*1) i.

(** The operations that took effect in an asynchronous trace, in order. *)
Definition executed (tr : list AsyncMap.Label) : list (Input * Output) :=
  omap (λ l, match l with
             | AsyncMap.ExecuteOp req rep => Some (req_input req, reply_output rep)
             | _ => None end) tr.

(** [linearized tr m e]: [m] maps the position of every reply delivered to a
    client to the earlier position where the operation took effect, [e] maps
    the position of every effect to the earlier position where a client issued
    the request; ids agree and no effect answers two requests or is answered
    twice. *)
Definition linearized (tr : list AsyncMap.Label) (m e : nat → nat) : Prop :=
  (∀ k rep, tr !! k = Some (AsyncMap.ReplyOp rep) →
     m k < k ∧ ∃ req, tr !! m k = Some (AsyncMap.ExecuteOp req rep)) ∧
  (∀ j req rep, tr !! j = Some (AsyncMap.ExecuteOp req rep) →
     e j < j ∧ tr !! e j = Some (AsyncMap.RequestOp req) ∧ req_id req = reply_id rep) ∧
  (∀ k k' rep rep', tr !! k = Some (AsyncMap.ReplyOp rep) →
     tr !! k' = Some (AsyncMap.ReplyOp rep') → m k = m k' → k = k') ∧
  (∀ j j' req rep req' rep', tr !! j = Some (AsyncMap.ExecuteOp req rep) →
     tr !! j' = Some (AsyncMap.ExecuteOp req' rep') → e j = e j' → j = j').

(** How one event of the crash-tolerant store may change the log of operations
    whose effects are visible: an executed operation is appended and must have
    been answered correctly; a crash may only cut the log to a prefix of
    itself; nothing else changes it. *)
Definition log_step (l : CTAM.Label) (log log' : list Input) : Prop :=
  match l with
  | CTAM.OperateOp (AsyncMap.ExecuteOp req rep) =>
      reply_id rep = req_id req ∧
      reply_output rep = expected_output log (req_input req) ∧
      log' = log ++ [req_input req]
  | CTAM.CrashOp => log' `prefix_of` log
  | _ => log' = log
  end.

(** [logs] assigns to each point of the trace [ls] (before the first event,
    after each event) the log of visible operations. *)
Definition explained (ls : list CTAM.Label) (logs : list (list Input)) : Prop :=
  length logs = S (length ls) ∧
  logs !! 0 = Some [] ∧
  ∀ i l, ls !! i = Some l →
    ∃ a b, logs !! i = Some a ∧ logs !! (S i) = Some b ∧ log_step l a b.

(** Event [j] acknowledges the sync requested by event [i]: [i] is the latest
    request with that id before [j] and no crash lies between. *)
Definition acknowledges (ls : list CTAM.Label) (i j : nat) (id : SyncReqId) : Prop :=
  i < j ∧
  ls !! i = Some (CTAM.ReqSyncOp id) ∧
  ls !! j = Some (CTAM.ReplySyncOp id) ∧
  ∀ m, i < m < j →
    ls !! m ≠ Some CTAM.CrashOp ∧
    ls !! m ≠ Some (CTAM.ReqSyncOp id) ∧
    ls !! m ≠ Some (CTAM.ReplySyncOp id).

(** Every acknowledged sync is durable: the operations visible when it was
    requested are still visible, as a prefix, at every later point. *)
Definition syncs_durable (ls : list CTAM.Label) (logs : list (list Input)) : Prop :=
  ∀ j id, ls !! j = Some (CTAM.ReplySyncOp id) →
    ∃ i, acknowledges ls i j id ∧
      ∃ a, logs !! i = Some a ∧
        ∀ k b, j < k → logs !! k = Some b → a `prefix_of` b.

(** The trace of the non-vacuity example for C03 and C04. *)
Definition ctam_example_trace : list CTAM.Label :=
  [CTAM.OperateOp (AsyncMap.RequestOp (mkReq (PutInput 1 7) 0));
   CTAM.OperateOp (AsyncMap.ExecuteOp (mkReq (PutInput 1 7) 0) (mkReply PutOutput 0));
   CTAM.OperateOp (AsyncMap.ReplyOp (mkReply PutOutput 0));
   CTAM.ReqSyncOp 5;
   CTAM.SyncOp;
   CTAM.ReplySyncOp 5;
   CTAM.OperateOp (AsyncMap.RequestOp (mkReq (PutInput 1 9) 1));
   CTAM.OperateOp (AsyncMap.ExecuteOp (mkReq (PutInput 1 9) 1) (mkReply PutOutput 1));
   CTAM.CrashOp;
   CTAM.OperateOp (AsyncMap.RequestOp (mkReq (QueryInput 1) 2));
   CTAM.OperateOp (AsyncMap.ExecuteOp (mkReq (QueryInput 1) 2) (mkReply (QueryOutput 7) 2))]%N.
