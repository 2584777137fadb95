(** Vocabulary of C55: the space the journal holds. *)
From Verif Require Import Abs_Model Journal_Model Journal_Spec AllocJournal_Model CrashJournal_Model.
From Verif Require Export AllocJournal_Spec CrashJournal_Spec.
Open Scope nat_scope.

(** The books of whoever hands out allocation units: the journal has what it had,
    and what it took, except what it gave back. *)
Definition ledger (held : gset AU) (ls : list AllocCrash.Label) : gset AU :=
  fold_left (λ us l, (us ∪ crash_taken l) ∖ crash_given_back l) ls held.
Definition journal_ledger (held : gset AU) (ls : list AllocJournal.Label) : gset AU :=
  fold_left (λ us l, (us ∪ taken l) ∖ given_back l) ls held.

(** [us] are the units of the pages that can be reached from the newest one. *)
Definition chain_units (dv : DiskView) (newest : Pointer) (us : gset AU) : Prop :=
  ∀ u, u ∈ us ↔ ∃ a, au a = u ∧ reaches dv newest a.
Definition image_units (disk : gmap Address JournalRecord) (i : ImageState) : gset AU → Prop :=
  chain_units (mkDV (is_boundary i) disk) (is_freshest i).

(** The unit has a page of the journal with a record that is not truncated. *)
Definition unit_needed (dv : DiskView) (newest : Pointer) (u : AU) : Prop :=
  ∃ a r lsn, au a = u ∧ reaches dv newest a ∧ entries dv !! a = Some r ∧
    mh_contains (message_seq r) lsn ∧ boundary_lsn dv ≤ lsn.
