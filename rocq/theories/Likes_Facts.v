(** Proofs: the pages the index refers to are the pages in reach (C13). *)
From Verif Require Import Abs_Model Abs_Proof Spec_Proof Journal_Model Journal_Spec Linked_Proof
  AllocJournal_Model Likes_Proof.
Open Scope nat_scope.

Lemma likes_pages s0 tj0 ls s a : Likes.initialize s0 tj0 → run Likes.next s0 ls s →
  let tj := Linked.truncated_journal (Likes.journal s) in
  (∃ lsn, Likes.lsn_addr_index s !! lsn = Some a) ↔ reaches (disk_view tj) (freshest_rec tj) a.
Proof.
  intros Hi Hr. cbn zeta. pose proof (likes_index _ _ _ _ Hi Hr) as [Hix _]. split.
  - intros [lsn Hl]. by apply Hix in Hl as (_&Hre&_).
  - intros Hre. destruct (likes_run _ _ _ _ Hi Hr) as (_&_&[Hinv (l&Hp&_)]).
    pose proof (linked_wf_inv _ Hinv) as [[Hw Hb] _]. unfold Likes.tj in *.
    destruct (proj1 (path_reaches _ _ _ Hp a) Hre) as [r Hin].
    pose proof (path_chain _ _ _ Hw Hp Hb _ _ Hin) as [Hch Hne].
    exists (seq_end (message_seq r) - 1). apply Hix. split; [lia|]. split; [done|]. exists r.
    split; [by eapply path_entries|lia].
Qed.
