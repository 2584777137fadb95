(** Small specification of a journal whose pages are in a cache over a disk (C27). *)
From Verif Require Import Abs_Model Journal_Model Journal_Spec Disk_Model Cache_Model CachedJournal_Model.
Open Scope nat_scope.

(** Slot [k] of the cache holds page [a] with content [d] that the disk may not
    have yet. *)
Definition unsaved (c : Cache.State) (k : Slot) (a : Address) (d : RawPage) : Prop :=
  Cache.entries c !! k = Some (Filled a d) ∧
  (Cache.status_map c !! k = Some Dirty ∨ Cache.status_map c !! k = Some Writeback).
(** What is stored at page [a] now: the unsaved copy in the cache if there is one,
    and what the disk holds otherwise. *)
Definition page_now (st : CacheSys.State) (a : Address) (d : RawPage) : Prop :=
  (∃ k, unsaved (CacheSys.cache st) k a d) ∨
  (¬ (∃ k d', unsaved (CacheSys.cache st) k a d') ∧ AsyncDisk.content (CacheSys.disk st) !! a = Some d).
(** What a crash leaves at page [a]. *)
Definition page_saved (st : CacheSys.State) (a : Address) (d : RawPage) : Prop :=
  AsyncDisk.content (CacheSys.disk st) !! a = Some d.

(** The journal that starts at the boundary and at the newest page of [snap], on
    pages found by [pages], stores exactly the history [h]. *)
Definition snapshot_holds (C : PageCodec) (pages : Address → RawPage → Prop) (snap : JournalSnapShot)
    (h : MsgHistory) : Prop :=
  mh_wf h ∧ ∃ E : gmap Address JournalRecord,
    (∀ a r, E !! a = Some r → ∃ d, pages a d ∧ raw_page_to_record d = r) ∧
    linked_holds (mkTJ (snap_freshest snap) (mkDV (snap_boundary snap) E)) h.

(** The whole journal: its stored pages, then the tail in memory. *)
Definition sys_snapshot (s : JournalSys.State) : JournalSnapShot :=
  mkSnap (CachedJournal.boundary_lsn (JournalSys.journal s)) (CachedJournal.freshest_rec (JournalSys.journal s)).
Definition sys_journal_is (C : PageCodec) (s : JournalSys.State) (h : MsgHistory) : Prop :=
  ∃ p, snapshot_holds C (page_now (JournalSys.store s)) (sys_snapshot s) p ∧
    h = mh_concat p (CachedJournal.unmarshalled_tail (JournalSys.journal s)).

(** A run with, beside each event, the state it happened in. *)
Definition observed {S L} (next : S → S → L → Prop) (pre post : S) (e : S * L) : Prop :=
  e.1 = pre ∧ next pre post e.2.
(** The same client-visible event of the cached journal and of the message log. A
    frozen snapshot means the history that its pages hold, in the cache or on the
    disk as of that moment, and on the disk alone. *)
Definition sys_event (C : PageCodec) (e : JournalSys.State * JournalSys.Label) (al : AbstractJournal.Label) : Prop :=
  match e.2 with
  | JournalSys.ReadForRecovery m => al = AbstractJournal.ReadForRecoveryLabel m
  | JournalSys.FreezeForCommit snap => ∃ h, al = AbstractJournal.FreezeForCommitLabel h ∧
      snapshot_holds C (page_now (JournalSys.store e.1)) snap h ∧
      snapshot_holds C (page_saved (JournalSys.store e.1)) snap h
  | JournalSys.QueryEndLsn n => al = AbstractJournal.QueryEndLsnLabel n
  | JournalSys.Put m => al = AbstractJournal.PutLabel m
  | JournalSys.DiscardOld x y => al = AbstractJournal.DiscardOldLabel x y
  | JournalSys.Internal => al = AbstractJournal.InternalLabel
  end.

(** No truncation among the events goes past [bdy]. *)
Definition truncates_below (bdy : LSN) (ls : list JournalSys.Label) : Prop :=
  ∀ x y, JournalSys.DiscardOld x y ∈ ls → x ≤ bdy.
(** A run of the cache that writes nothing: reads, checks and its own work. *)
Definition reads_only (tr : list CacheSys.Label) : Prop :=
  ∀ l, l ∈ tr → match l with CacheSys.Access _ w => w = ∅ | CacheSys.Crash => False | _ => True end.
(** The pages in [X] are in the cache, filled. *)
Definition loaded (c : Cache.State) (X : gset Address) : Prop :=
  ∀ a, a ∈ X → ∃ k d, Cache.entries c !! k = Some (Filled a d).
(** The pages a reader of the journal [snap] on the disk visits: those reached from
    its newest page, [E] being everything the disk has. *)
Definition visits (C : PageCodec) (pages : Address → RawPage → Prop) (snap : JournalSnapShot) (X : gset Address) : Prop :=
  ∃ E : gmap Address JournalRecord,
    (∀ a r, E !! a = Some r ↔ ∃ d, pages a d ∧ raw_page_to_record d = r) ∧
    ∀ a, a ∈ X ↔ reaches (mkDV (snap_boundary snap) E) (snap_freshest snap) a.

(** The pages that hold marshalled messages of the journal. *)
Definition journal_page (s : JournalSys.State) (a : Address) : Prop :=
  ∃ lsn, CachedJournal.lsn_addr_index (JournalSys.journal s) !! lsn = Some a.
(** The history can be cut into [n] pieces each of which fits a page, whatever page
    it points back to. *)
Inductive cut_in (C : PageCodec) : MsgHistory → nat → Prop :=
  | cut_none t : mh_is_empty t → cut_in C t 0
  | cut_one t x n : seq_start t < x → can_discard_to t x →
      (∀ p, record_fits (mkRec (discard_recent t x) p)) →
      cut_in C (discard_old t x) n → cut_in C t (S n).
(** Work of the journal, the cache and the disk that no client asked for. *)
Definition background (ls : list JournalSys.Label) : Prop := ∀ l, l ∈ ls → l = JournalSys.Internal.
