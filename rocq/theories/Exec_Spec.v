(** Small specifications for the executable server (C24, C25), over the events a
    client observes: requests received, replies sent, machine failures. *)
From Verif Require Import Spec_Model Spec_Spec Exec_Model.

(** The map operation a request stands for; a sync is not one. *)
Definition op_of (i : XInput) : option Input :=
  match i with
  | XQuery k => Some (QueryInput k)
  | XPut k v => Some (PutInput k v)
  | XNoop => Some NoopInput
  | XSync => None
  end.
(** The wire form of an output. *)
Definition wire (o : Output) : XOutput :=
  match o with
  | QueryOutput v => XQueryOutput v
  | PutOutput => XPutOutput
  | NoopOutput => XNoopOutput
  end.

(** The replies a client expects while its request is handled, when [log] is
    the list of operations executed so far: an operation gets exactly one reply,
    carrying its id and the expected output; a sync gets none yet. *)
Definition expected_replies (log : list Input) (req : XRequest) : list XReply :=
  match op_of (xreq_input req) with
  | Some op => [mkXReply (wire (expected_output log op)) (xreq_id req)]
  | None => []
  end.
(** [log] extended by the operation the request stands for, if any. *)
Definition log_after (log : list Input) (req : XRequest) : list Input :=
  match op_of (xreq_input req) with Some op => log ++ [op] | None => log end.

(** The machine failed during this event. *)
Definition fails (e : Exec.Label) : Prop :=
  match e with
  | Exec.RecvCut _ _ | Exec.DoneCut _ | Exec.Crash => True
  | _ => False
  end.
(** The replies a client receives during an event. *)
Definition replies (e : Exec.Label) : list XReply :=
  match e with
  | Exec.Recv _ outs | Exec.RecvCut _ outs | Exec.Done outs | Exec.DoneCut outs => outs
  | _ => []
  end.
(** The event acknowledges sync request [id]. *)
Definition acks (e : Exec.Label) (id : ID) : Prop := mkXReply XSyncOutput id ∈ replies e.

(** How one event may change the log of operations a client can rely on having
    been executed, and which replies it may carry. A failure may only cut the
    log to a prefix. *)
Definition exec_log_step (e : Exec.Label) (log log' : list Input) : Prop :=
  match e with
  | Exec.Recv req outs => outs = expected_replies log req ∧ log' = log_after log req
  | Exec.RecvCut req outs => outs `prefix_of` expected_replies log req ∧ log' `prefix_of` log
  | Exec.Done outs => (∀ r, r ∈ outs → xreply_output r = XSyncOutput) ∧ log' = log
  | Exec.DoneCut outs => (∀ r, r ∈ outs → xreply_output r = XSyncOutput) ∧ log' `prefix_of` log
  | Exec.Crash => log' `prefix_of` log
  | Exec.Panic => False
  | _ => log' = log
  end.
(** [logs] gives the log before the first event and after each event. *)
Definition served (ls : list Exec.Label) (logs : list (list Input)) : Prop :=
  length logs = S (length ls) ∧ logs !! 0 = Some [] ∧
  ∀ i e, ls !! i = Some e →
    ∃ a b, logs !! i = Some a ∧ logs !! S i = Some b ∧ exec_log_step e a b.

(** Every acknowledged sync was requested earlier in the same incarnation of the
    server, is acknowledged only once, and everything executed when it was
    requested is part of the log at every later point, whatever fails. *)
Definition exec_syncs_durable (ls : list Exec.Label) (logs : list (list Input)) : Prop :=
  ∀ j e id, ls !! j = Some e → acks e id →
    ∃ i a, i < j ∧ ls !! i = Some (Exec.Recv (mkXReq XSync id) []) ∧
      (∀ m e', i < m < j → ls !! m = Some e' → ¬ fails e' ∧ ¬ acks e' id) ∧
      NoDup (xreply_id <$> replies e) ∧
      logs !! i = Some a ∧
      ∀ k b, j < k → logs !! k = Some b → a `prefix_of` b.

(** The operations received since the last machine failure. *)
Definition session_ops (ls : list Exec.Label) : list Input :=
  fold_left (λ acc e, match e with
                      | Exec.Recv req _ => log_after acc req
                      | Exec.RecvCut _ _ | Exec.DoneCut _ | Exec.Crash => []
                      | _ => acc end) ls [].

(** The map the server holds in memory. *)
Definition volatile_map (s : Impl) : MapSpec.State :=
  MapSpec.mkState (st_value (to_stamped_map (journal s))).

(** A sync requested at position [i] of the trace that has neither been
    acknowledged nor been cut off by a machine failure since. *)
Definition pending_at (ls : list Exec.Label) (i : nat) (id : ID) : Prop :=
  ls !! i = Some (Exec.Recv (mkXReq XSync id) []) ∧
  ∀ m e, i < m → ls !! m = Some e → ¬ fails e ∧ ¬ acks e id.
(** Steps the machine takes by itself, with no client and no failure. *)
Definition autonomous (e : Exec.Label) : Prop :=
  match e with Exec.DiskInternal | Exec.Done _ => True | _ => False end.
(** The puts the server took, in order, those of earlier incarnations included. *)
Definition puts_taken (ls : list Exec.Label) : list KeyedMessage :=
  omap (λ e, match e with
             | Exec.Recv (mkXReq (XPut k v) _) _ => Some (mkKM k (Define v))
             | _ => None end) ls.
(** Decoding undoes encoding for every journal this history can lead to: one made
    of some of its puts, in order. An encoding in pages of a fixed size cannot do
    this for all journals, but it can for those that fit. *)
Definition codec_fits `{Codec} (ls : list Exec.Label) : Prop :=
  ∀ h, h `sublist_of` puts_taken ls → unmarshall_journal (marshall (mkJournal h 0)) = Some (mkJournal h 0).
