(** Properties of the indexed journal and of its space use: C13, C14. *)
From Verif Require Import Abs_Model Abs_Spec Abs_Proof Spec_Proof Journal_Model Journal_Spec Linked_Proof
  AllocJournal_Model AllocJournal_Spec Likes_Proof Likes_Facts AllocJournal_Proof AllocJournal_Facts AllocJournal_Example.

(** ** C13: the in-memory page index locates, for every sequence number, the page
    that holds it, in every reachable state. *)
Theorem C13_index_locates tj0 s0 ls s :
  Likes.initialize s0 tj0 → run Likes.next s0 ls s →
  index_locates (Likes.lsn_addr_index s) (Linked.truncated_journal (Likes.journal s)).
Proof. exact (likes_index s0 tj0 ls s). Qed.
Print Assumptions C13_index_locates.
(** The pages the index refers to are the pages in reach of the freshest record. *)
Theorem C13_referenced_pages tj0 s0 ls s a :
  Likes.initialize s0 tj0 → run Likes.next s0 ls s →
  let tj := Linked.truncated_journal (Likes.journal s) in
  (∃ lsn, Likes.lsn_addr_index s !! lsn = Some a) ↔ reaches (disk_view tj) (freshest_rec tj) a.
Proof. exact (likes_pages s0 tj0 ls s a). Qed.
Print Assumptions C13_referenced_pages.
(** Deciding from the index alone which pages to keep loses nothing: the indexed
    journal is event for event the linked journal (hence, by C12, the log). *)
Theorem C13_indexed_journal_faithful tj0 s0 ls s :
  Likes.initialize s0 tj0 → run Likes.next s0 ls s →
  Linked.initialize (Likes.journal s0) tj0 ∧ run Linked.next (Likes.journal s0) ls (Likes.journal s).
Proof. exact (λ Hi Hr, let H := likes_run s0 tj0 ls s Hi Hr in conj (proj1 H) (proj1 (proj2 H))). Qed.
Print Assumptions C13_indexed_journal_faithful.
Example C13_example : Likes.initialize likes_start Linked.mkfs ∧ run Likes.next likes_start likes_trace likes_end.
Proof. exact likes_example. Qed.

(** ** C14: the journal that manages its disk space in allocation units is still
    the message log. *)
Theorem C14_alloc_journal_faithful `{Geometry} s0 j img ls s :
  AllocJournal.initialize s0 j img → run AllocJournal.next s0 ls s →
  ∃ h0 a0 als a, linked_holds (img_tj img) h0 ∧ AbstractJournal.initialize a0 h0 ∧
    run AbstractJournal.next a0 als a ∧ Forall2 alloc_event ls als ∧
    linked_journal_is (AllocJournal.journal s) (AbstractJournal.journal a).
Proof. exact (alloc_faithful s0 j img ls s). Qed.
Print Assumptions C14_alloc_journal_faithful.
(** A unit given back belonged to the journal, belongs to it no longer, and
    holds none of its pages. *)
Theorem C14_given_back_units_are_unused `{Geometry} s0 j img ls s l s' u :
  AllocJournal.initialize s0 j img → run AllocJournal.next s0 ls s →
  AllocJournal.next s s' l → u ∈ given_back l →
  u ∈ AllocJournal.accessible_aus s ∧ u ∉ AllocJournal.accessible_aus s' ∧
  ∀ a r, on_disk s' a r → au a ≠ u.
Proof. exact (alloc_given_back s0 j img ls s l s' u). Qed.
Print Assumptions C14_given_back_units_are_unused.
(** Space is accounted for exactly: units taken are new, and the units the
    journal can touch change only by what it takes and gives back; every page is
    in such a unit. *)
Theorem C14_space_accounting `{Geometry} s0 j img ls s l s' :
  AllocJournal.initialize s0 j img → run AllocJournal.next s0 ls s → AllocJournal.next s s' l →
  taken l ## AllocJournal.accessible_aus s ∧
  AllocJournal.accessible_aus s' = (AllocJournal.accessible_aus s ∪ taken l) ∖ given_back l ∧
  ∀ a r, on_disk s a r → au a ∈ AllocJournal.accessible_aus s.
Proof.
  exact (λ Hi Hr Hn, let I := C14_run_inv _ _ _ _ _ Hi Hr in let S := alloc_step_space _ _ _ I Hn in
    conj (proj1 S) (conj (proj2 (proj2 S)) (alloc_pages_accessible _ I))).
Qed.
Print Assumptions C14_space_accounting.
(** A page on disk is never overwritten; it goes away only when its whole
    content is truncated and its unit is given back. A page appears only at an
    address that was free in a unit the journal had taken. *)
Theorem C14_pages_stable `{Geometry} s0 j img ls s l s' :
  AllocJournal.initialize s0 j img → run AllocJournal.next s0 ls s → AllocJournal.next s s' l →
  (∀ a r, on_disk s a r → on_disk s' a r ∨
     ((∀ r', ¬ on_disk s' a r') ∧ au a ∈ given_back l ∧
       ∃ lsn e d, l = AllocJournal.DiscardOld lsn e d ∧ seq_end (message_seq r) ≤ lsn)) ∧
  (∀ a r, on_disk s' a r → on_disk s a r ∨
     ((∀ r', ¬ on_disk s a r') ∧ addr_wf a ∧
       ∃ p, allocs (AllocJournal.mini_allocator s) !! au a = Some p ∧ a ∉ reserved p ∧ a ∉ observed p)).
Proof. exact (λ Hi Hr Hn, alloc_step_pages s s' l (C14_run_inv _ _ _ _ _ Hi Hr) Hn). Qed.
Print Assumptions C14_pages_stable.
(** The unit index is right. *)
Theorem C14_unit_index_locates `{Geometry} s0 j img ls s :
  AllocJournal.initialize s0 j img → run AllocJournal.next s0 ls s →
  au_index_locates (AllocJournal.lsn_au_index s) (Linked.truncated_journal (AllocJournal.journal s)).
Proof. exact (λ Hi Hr, alloc_index s (C14_run_inv _ _ _ _ _ Hi Hr)). Qed.
Print Assumptions C14_unit_index_locates.
(** A frozen image passes the recovery check, can be started from, and consists
    of pages that are on disk as they are. *)
Theorem C14_frozen_image_recoverable `{Geometry} s0 j img ls s img' s' :
  AllocJournal.initialize s0 j img → run AllocJournal.next s0 ls s →
  AllocJournal.next s s' (AllocJournal.FreezeForCommit img') →
  valid_image img' ∧ (∃ t j', AllocJournal.initialize t j' img') ∧
  ∀ a r, entries (disk_view (img_tj img')) !! a = Some r → on_disk s a r.
Proof. exact (λ Hi Hr Hn, alloc_freeze s s' img' (C14_run_inv _ _ _ _ _ Hi Hr) Hn). Qed.
Print Assumptions C14_frozen_image_recoverable.
Example C14_example :
  AllocJournal.initialize (H := exg) es0 (Linked.mkState Linked.mkfs (empty_history_at 0)) img_empty ∧
  run (AllocJournal.next (H := exg)) es0 alloc_trace es8.
Proof. exact alloc_example. Qed.
Example C14_freeze_example :
  run (AllocJournal.next (H := exg)) es0 alloc_trace1 es5 ∧
  AllocJournal.next (H := exg) es5 es5 (AllocJournal.FreezeForCommit jimg).
Proof. exact (conj (proj2 alloc_example1) est6). Qed.
