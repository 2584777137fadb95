(** Small independent specifications for the crash-aware journals (C41). *)
From Verif Require Import Abs_Model Journal_Model Journal_Spec AllocJournal_Model CrashJournal_Model.

(** The client-visible event of a step: allocation units are not visible. *)
Definition crash_event (l : AllocCrash.Label) : CTJournal.Label :=
  match l with
  | AllocCrash.LoadEphemeralFromPersistent => CTJournal.LoadEphemeralFromPersistentLabel
  | AllocCrash.ReadForRecovery m => CTJournal.ReadForRecoveryLabel m
  | AllocCrash.QueryEndLsn n => CTJournal.QueryEndLsnLabel n
  | AllocCrash.Put m => CTJournal.PutLabel m
  | AllocCrash.Internal _ _ => CTJournal.InternalLabel
  | AllocCrash.QueryLsnPersistence n => CTJournal.QueryLsnPersistenceLabel n
  | AllocCrash.CommitStart b m => CTJournal.CommitStartLabel b m
  | AllocCrash.CommitComplete e _ => CTJournal.CommitCompleteLabel e
  | AllocCrash.Crash k => CTJournal.CrashLabel k
  end.

(** Matching of optional parts. *)
Definition opt_is {A B} (R : A → B → Prop) (x : option A) (y : option B) : Prop :=
  match x, y with Some a, Some b => R a b | None, None => True | _, _ => False end.

(** The pages the image reaches on the shared disk store exactly the history [h]. *)
Definition image_holds (disk : gmap Address JournalRecord) (i : ImageState) (h : MsgHistory) : Prop :=
  linked_holds (mkTJ (is_freshest i) (mkDV (is_boundary i) disk)) h.

(** The journal in memory (pages, then unwritten tail) is the history [h]. *)
Definition memory_holds (disk : gmap Address JournalRecord) (e : EphemeralState) (h : MsgHistory) : Prop :=
  ∃ p, image_holds disk (es_image e) p ∧ h = mh_concat p (es_tail e).

(** A state of the crash-aware journal with separate images, seen as histories. *)
Definition alloc_crash_is (s : AllocCrash.State) (c : CTJournal.State) : Prop :=
  linked_holds (img_tj (AllocCrash.persistent s)) (CTJournal.persistent c) ∧
  opt_is (λ v a, linked_journal_is (AllocJournal.journal v) (AbstractJournal.journal a))
    (AllocCrash.ephemeral s) (CTJournal.ephemeral c) ∧
  opt_is (λ f h, linked_holds (img_tj f) h) (AllocCrash.inflight s) (CTJournal.in_flight c).

(** A state of the crash-aware journal on one shared disk, seen as histories. *)
Definition unified_is (s : Unified.State) (c : CTJournal.State) : Prop :=
  image_holds (Unified.dv s) (Unified.persistent s) (CTJournal.persistent c) ∧
  opt_is (λ e a, memory_holds (Unified.dv s) e (AbstractJournal.journal a))
    (Unified.ephemeral s) (CTJournal.ephemeral c) ∧
  opt_is (image_holds (Unified.dv s)) (Unified.inflight s) (CTJournal.in_flight c).

(** Allocation units taken and given back in a step. *)
Definition crash_taken (l : AllocCrash.Label) : gset AU :=
  match l with AllocCrash.Internal x _ => x | _ => ∅ end.
Definition crash_given_back (l : AllocCrash.Label) : gset AU :=
  match l with AllocCrash.Internal _ y => y | AllocCrash.CommitComplete _ y => y | _ => ∅ end.

(** The images a crash may leave as the persistent one. *)
Definition durable_image (s : Unified.State) (i : ImageState) : Prop :=
  i = Unified.persistent s ∨ Unified.inflight s = Some i.

(** With separate images: a page of the persistent image, of the one in flight or of
    the running journal. *)
Definition alloc_page (s : AllocCrash.State) (a : Address) (r : JournalRecord) : Prop :=
  entries (disk_view (img_tj (AllocCrash.persistent s))) !! a = Some r ∨
  (∃ f, AllocCrash.inflight s = Some f ∧ entries (disk_view (img_tj f)) !! a = Some r) ∨
  (∃ v, AllocCrash.ephemeral s = Some v ∧ entries (disk_view (AllocJournal.tj v)) !! a = Some r).

(** [h'] is a later persistent journal than [h]: nothing of [h] is lost or
    changed, except that a prefix may have been truncated. *)
Definition extends (h h' : MsgHistory) : Prop :=
  seq_start h ≤ seq_start h' ∧ seq_end h ≤ seq_end h' ∧
  ∀ lsn, seq_start h' ≤ lsn → lsn < seq_end h → msgs h' !! lsn = msgs h !! lsn.
