(** Small independent specifications for on-disk journals (C11-C14). *)
From Verif Require Import Abs_Model Journal_Model.

(** The page chain [tj] stores exactly the history [h]: [h] starts at the
    truncation boundary, ends where the newest page ends, and holds a message at
    a sequence number exactly when that number is not truncated and some page
    of the chain holds that message there. *)
Definition paged_holds (tj : Paged.TruncatedJournal) (h : MsgHistory) : Prop :=
  seq_start h = Paged.boundary_lsn tj ∧
  seq_end h = match Paged.freshest_rec tj with [] => Paged.boundary_lsn tj | m :: _ => seq_end m end ∧
  ∀ lsn km, msgs h !! lsn = Some km ↔
    Paged.boundary_lsn tj ≤ lsn ∧ ∃ m, m ∈ Paged.freshest_rec tj ∧ msgs m !! lsn = Some km.

(** The same client-visible event at the paged layer and at the message-log
    layer: frozen images are matched by content, everything else is equal. *)
Definition paged_event (l : Paged.Label) (a : AbstractJournal.Label) : Prop :=
  match l with
  | Paged.ReadForRecovery m => a = AbstractJournal.ReadForRecoveryLabel m
  | Paged.FreezeForCommit tj => ∃ h, a = AbstractJournal.FreezeForCommitLabel h ∧ paged_holds tj h
  | Paged.QueryEndLsn n => a = AbstractJournal.QueryEndLsnLabel n
  | Paged.Put m => a = AbstractJournal.PutLabel m
  | Paged.DiscardOld x y => a = AbstractJournal.DiscardOldLabel x y
  | Paged.Internal => a = AbstractJournal.InternalLabel
  end.

(** The whole in-memory journal: pages, then the unmarshalled tail. *)
Definition paged_journal_is (s : Paged.State) (h : MsgHistory) : Prop :=
  ∃ p, paged_holds (Paged.truncated_journal s) p ∧ h = mh_concat p (Paged.unmarshalled_tail s).

(** Pages a reader can reach from [root]: follow the link of a page only when
    the page does not already contain the truncation boundary. *)
Inductive reaches (dv : DiskView) : Pointer → Address → Prop :=
  | reaches_here a : is_Some (entries dv !! a) → reaches dv (Some a) a
  | reaches_prior a r b :
      entries dv !! a = Some r → boundary_lsn dv < seq_start (message_seq r) →
      reaches dv (prior_rec r) b → reaches dv (Some a) b.

(** The linked pages from the root of [tj] store exactly the history [h]. *)
Definition linked_holds (tj : TruncatedJournal) (h : MsgHistory) : Prop :=
  let dv := disk_view tj in
  seq_start h = boundary_lsn dv ∧
  match freshest_rec tj with
  | None => seq_end h = boundary_lsn dv
  | Some a => ∃ r, entries dv !! a = Some r ∧ seq_end h = seq_end (message_seq r)
  end ∧
  ∀ lsn km, msgs h !! lsn = Some km ↔
    boundary_lsn dv ≤ lsn ∧
    ∃ a r, reaches dv (freshest_rec tj) a ∧ entries dv !! a = Some r ∧
      msgs (message_seq r) !! lsn = Some km.

Definition linked_event (l : Linked.Label) (a : AbstractJournal.Label) : Prop :=
  match l with
  | Linked.ReadForRecovery m => a = AbstractJournal.ReadForRecoveryLabel m
  | Linked.FreezeForCommit tj => ∃ h, a = AbstractJournal.FreezeForCommitLabel h ∧ linked_holds tj h
  | Linked.QueryEndLsn n => a = AbstractJournal.QueryEndLsnLabel n
  | Linked.Put m => a = AbstractJournal.PutLabel m
  | Linked.DiscardOld x y => a = AbstractJournal.DiscardOldLabel x y
  | Linked.Internal => a = AbstractJournal.InternalLabel
  end.

Definition linked_journal_is (s : Linked.State) (h : MsgHistory) : Prop :=
  ∃ p, linked_holds (Linked.truncated_journal s) p ∧ h = mh_concat p (Linked.unmarshalled_tail s).

(** No page reachable from the root leads anywhere that is not on disk, and no
    page can be reached again from the page its link points to. *)
Definition links_resolve (tj : TruncatedJournal) : Prop :=
  (∀ a, freshest_rec tj = Some a → is_Some (entries (disk_view tj) !! a)) ∧
  ∀ a r, reaches (disk_view tj) (freshest_rec tj) a → entries (disk_view tj) !! a = Some r →
    boundary_lsn (disk_view tj) < seq_start (message_seq r) →
    ∃ p q, prior_rec r = Some p ∧ entries (disk_view tj) !! p = Some q ∧
      seq_end (message_seq q) = seq_start (message_seq r) ∧ ¬ reaches (disk_view tj) (Some p) a.

(** Every sequence number from the boundary to the end is on exactly one
    reachable page. *)
Definition lsns_located (tj : TruncatedJournal) : Prop :=
  ∀ e, (match freshest_rec tj with
        | None => e = boundary_lsn (disk_view tj)
        | Some a => ∃ r, entries (disk_view tj) !! a = Some r ∧ e = seq_end (message_seq r)
        end) →
  ∀ lsn, boundary_lsn (disk_view tj) ≤ lsn < e →
    ∃ a, (reaches (disk_view tj) (freshest_rec tj) a ∧
          ∃ r, entries (disk_view tj) !! a = Some r ∧
            seq_start (message_seq r) ≤ lsn < seq_end (message_seq r)) ∧
      ∀ b r, reaches (disk_view tj) (freshest_rec tj) b → entries (disk_view tj) !! b = Some r →
        seq_start (message_seq r) ≤ lsn < seq_end (message_seq r) → b = a.

(** Where the newest page of the chain ends. *)
Definition chain_ends_at (tj : TruncatedJournal) (e : LSN) : Prop :=
  match freshest_rec tj with
  | None => e = boundary_lsn (disk_view tj)
  | Some a => ∃ r, entries (disk_view tj) !! a = Some r ∧ e = seq_end (message_seq r)
  end.

(** An index from sequence numbers to page addresses is right: it has an entry
    exactly for the marshalled, untruncated sequence numbers, and maps each to
    a page reachable from the root that holds it. *)
Definition index_locates (idx : gmap LSN Address) (tj : TruncatedJournal) : Prop :=
  (∀ lsn a, idx !! lsn = Some a ↔
    boundary_lsn (disk_view tj) ≤ lsn ∧ reaches (disk_view tj) (freshest_rec tj) a ∧
    ∃ r, entries (disk_view tj) !! a = Some r ∧ seq_start (message_seq r) ≤ lsn < seq_end (message_seq r)) ∧
  (∀ lsn, is_Some (idx !! lsn) ↔
    boundary_lsn (disk_view tj) ≤ lsn ∧ ∀ e, chain_ends_at tj e → lsn < e).
