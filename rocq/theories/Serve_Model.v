(** What Splinter/src/implementation/Implementation_v.rs says, in its ghost code,
    about the server and its model token: the invariant it carries from one
    handler to the next, and what it concludes from the tokens it holds.
    Definitions only. *)
From Verif Require Export Token_Model.

(** Implementation_v.rs 152-157, with AbstractCrashAwareSystemRefinement_v.rs
    215-248: the versions the journal stands for, from its start on. *)
Definition view_as_floating_versions (im : Impl) : FloatingSeq Version :=
  let h := journal_view (journal im) in
  fs_new (j_start (journal im)) (seq_end h + 1)
    (λ n, MapSpec.mkState (st_value (map_plus_history stamped_empty (discard_recent h n)))).
(** Implementation_v.rs 188-191 *)
Definition version (im : Impl) : nat := j_start (journal im) + length (j_history (journal im)).
(** Implementation_v.rs 597-609. The value of [sync_req_map[id]] for an id outside
    the map is unspecified there; here the comparison then holds. *)
Definition sync_reqs_in_version (p : AtomicState.State) (reqs : list XRequest) (n : nat) : Prop :=
  (∀ r, r ∈ reqs → xreq_input r = XSync ∧
     ∀ v, AtomicState.sync_req_map p !! xreq_id r = Some v → v ≤ n) ∧
  NoDup (xreq_id <$> reqs).
(** Implementation_v.rs 611-614 *)
Definition mutually_unique (a b : list XRequest) : Prop :=
  ∀ r r', r ∈ a → r' ∈ b → xreq_id r ≠ xreq_id r'.

(** Implementation_v.rs 193-220, for a server [im] whose model token is [p]; the
    history is the parameter [hist]. *)
Definition inv_with (hist : FloatingSeq Version) (im : Impl) (p : AtomicState.State) : Prop :=
  AtomicState.recovery_state p = AtomicState.RecoveryComplete ∧
  AtomicState.history p = hist ∧
  (is_Some (AtomicState.in_flight p) ↔ satisfied_reqs im ≠ []) ∧
  (∀ r, r ∈ satisfied_reqs im ++ deferred_reqs im → xreq_input r = XSync) ∧
  version im + 1 = fs_len (AtomicState.history p) ∧
  j_start (journal im) = 0 ∧
  (∀ info, AtomicState.in_flight p = Some info →
     fs_is_active (AtomicState.history p) (AtomicState.if_version info) ∧
     sync_reqs_in_version p (satisfied_reqs im) (AtomicState.if_version info)) ∧
  sync_reqs_in_version p (deferred_reqs im) (version im) ∧
  mutually_unique (satisfied_reqs im) (deferred_reqs im).
(** Implementation_v.rs 193-220 as it is (201: the history is that of the whole
    journal). *)
Definition stated_inv (im : Impl) (p : AtomicState.State) : Prop :=
  inv_with (view_as_floating_versions im) im p.
(** Implementation_v.rs 193-220 with 201 corrected: the history goes back to the
    version on the disk only, as [execute_sync_end] and [complete_recovery] of
    AtomicState_v.rs 139-190 leave it. *)
Definition kept_inv (im : Impl) (p : AtomicState.State) : Prop :=
  inv_with (fs_get_suffix (view_as_floating_versions im) (AtomicState.persistent_version p)) im p.

(** AtomicState_v.rs 70-81. Dropped: that every version satisfies the map
    specification's own invariant, which says its store is total, as all are here. *)
Definition state_wf (p : AtomicState.State) : Prop :=
  AtomicState.client_ready p →
  let h := AtomicState.history p in
  fs_is_active h (fs_len h - 1) ∧
  (∀ info, AtomicState.in_flight p = Some info → fs_is_active h (AtomicState.if_version info)) ∧
  fs_first_active_index h = AtomicState.persistent_version p.
