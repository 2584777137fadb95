(** Properties of the on-disk journal: C11, C12. *)
From Verif Require Import Abs_Model Abs_Spec Abs_Proof Spec_Proof Journal_Model Journal_Spec
  Paged_Proof Linked_Proof Journal_Example.

(** ** C11: the journal stored as a chain of pages is the message log. Every run
    of the paged journal is, event for event, a run of the message-log journal,
    and at the end the pages plus the in-memory tail hold exactly that log. *)
Theorem C11_paged_journal_faithful tj0 s0 ls s :
  Paged.initialize s0 tj0 → run Paged.next s0 ls s →
  ∃ h0 a0 als a, paged_holds tj0 h0 ∧ AbstractJournal.initialize a0 h0 ∧
    run AbstractJournal.next a0 als a ∧ Forall2 paged_event ls als ∧
    paged_journal_is s (AbstractJournal.journal a).
Proof. exact (paged_faithful tj0 s0 ls s). Qed.
Print Assumptions C11_paged_journal_faithful.
(** The content of a chain is determined: a frozen image has one meaning. *)
Theorem C11_content_unique tj h h' : paged_holds tj h → paged_holds tj h' → h = h'.
Proof. exact (paged_holds_det tj h h'). Qed.
Print Assumptions C11_content_unique.
Example C11_example :
  Paged.initialize paged_example_start Paged.mkfs ∧
  run Paged.next paged_example_start paged_example_trace paged_example_end.
Proof. exact paged_example. Qed.

(** ** C12: the same for pages linked by disk addresses. *)
Theorem C12_linked_journal_faithful tj0 s0 ls s :
  Linked.initialize s0 tj0 → run Linked.next s0 ls s →
  ∃ h0 a0 als a, linked_holds tj0 h0 ∧ AbstractJournal.initialize a0 h0 ∧
    run AbstractJournal.next a0 als a ∧ Forall2 linked_event ls als ∧
    linked_journal_is s (AbstractJournal.journal a).
Proof. exact (linked_faithful tj0 s0 ls s). Qed.
Print Assumptions C12_linked_journal_faithful.
(** In every reachable state links resolve, never lead back, and every live
    sequence number is on exactly one reachable page. *)
Theorem C12_links_resolve tj0 s0 ls s :
  Linked.initialize s0 tj0 → run Linked.next s0 ls s →
  links_resolve (Linked.truncated_journal s) ∧ lsns_located (Linked.truncated_journal s).
Proof. exact (linked_structure tj0 s0 ls s). Qed.
Print Assumptions C12_links_resolve.
(** Page garbage collection on truncation keeps, unchanged, every page a reader
    can still reach. *)
Theorem C12_truncation_keeps_live_pages tj0 s0 ls s lsn e s' a r :
  Linked.initialize s0 tj0 → run Linked.next s0 ls s →
  Linked.next s s' (Linked.DiscardOld lsn e) →
  lsn < seq_start (Linked.unmarshalled_tail s) →
  reaches (mkDV lsn (entries (disk_view (Linked.truncated_journal s))))
    (freshest_rec (Linked.truncated_journal s)) a →
  entries (disk_view (Linked.truncated_journal s)) !! a = Some r →
  entries (disk_view (Linked.truncated_journal s')) !! a = Some r.
Proof. exact (linked_truncation_keeps tj0 s0 ls s lsn e s' a r). Qed.
Print Assumptions C12_truncation_keeps_live_pages.
Example C12_example :
  Linked.initialize linked_example_start Linked.mkfs ∧
  run Linked.next linked_example_start linked_example_trace linked_example_end.
Proof. exact linked_example. Qed.
