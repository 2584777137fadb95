(** Small independent specifications for the journal with allocation units (C14). *)
From Verif Require Import Abs_Model Journal_Model Journal_Spec AllocJournal_Model.

(** Allocation units handed to, and given back by, the journal in a step. *)
Definition taken (l : AllocJournal.Label) : gset AU :=
  match l with AllocJournal.InternalAllocations x _ => x | _ => ∅ end.
Definition given_back (l : AllocJournal.Label) : gset AU :=
  match l with
  | AllocJournal.InternalAllocations _ y => y
  | AllocJournal.DiscardOld _ _ y => y
  | _ => ∅
  end.
(** The pages the journal has on disk. *)
Definition on_disk (s : AllocJournal.State) (a : Address) (r : JournalRecord) : Prop :=
  entries (disk_view (Linked.truncated_journal (AllocJournal.journal s))) !! a = Some r.

(** The client-visible event of a step, at the message-log level. *)
Definition alloc_event (l : AllocJournal.Label) (a : AbstractJournal.Label) : Prop :=
  match l with
  | AllocJournal.ReadForRecovery m => a = AbstractJournal.ReadForRecoveryLabel m
  | AllocJournal.FreezeForCommit img =>
      ∃ h, a = AbstractJournal.FreezeForCommitLabel h ∧ linked_holds (img_tj img) h
  | AllocJournal.QueryEndLsn n => a = AbstractJournal.QueryEndLsnLabel n
  | AllocJournal.Put m => a = AbstractJournal.PutLabel m
  | AllocJournal.DiscardOld x y _ => a = AbstractJournal.DiscardOldLabel x y
  | AllocJournal.InternalAllocations _ _ => a = AbstractJournal.InternalLabel
  end.

(** An index from sequence numbers to allocation units is right. *)
Definition au_index_locates (idx : gmap LSN AU) (tj : TruncatedJournal) : Prop :=
  (∀ lsn u, idx !! lsn = Some u ↔
    boundary_lsn (disk_view tj) ≤ lsn ∧ ∃ a r, au a = u ∧ reaches (disk_view tj) (freshest_rec tj) a ∧
      entries (disk_view tj) !! a = Some r ∧ seq_start (message_seq r) ≤ lsn < seq_end (message_seq r)) ∧
  (∀ lsn, is_Some (idx !! lsn) ↔
    boundary_lsn (disk_view tj) ≤ lsn ∧ ∀ e, chain_ends_at tj e → lsn < e).
