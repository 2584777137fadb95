(** Properties of the be-tree linked on disk: C18. *)
From Verif Require Import Abs_Model Betree_Model Betree_Spec LinkedBetree_Model LinkedBetree_Spec
  LinkedBetree_Proof LinkedBetree_Facts Betree_Example LinkedBetree_Example.

(** ** C18: the tree of disk pages, each change written to fresh addresses, is
    event for event the abstract map. *)
Theorem C18_linked_faithful (s0 v s : BState (LinkedBetree (gmap N Message))) ls :
  Linked.initialize s0 v → run Linked.strong_next s0 ls s →
  ∃ m, holds linked_answers (root v) m ∧
       acts_as_map linked_answers (mkStamped m (mt_seq_end (memtable v))) ls s.
Proof. exact (linked_faithful s0 v ls s). Qed.
Print Assumptions C18_linked_faithful.
(** Every key has exactly one answer. *)
Theorem C18_linked_one_answer (s0 v s : BState (LinkedBetree (gmap N Message))) ls k :
  Linked.initialize s0 v → run Linked.strong_next s0 ls s →
  ∃ x, can_answer Linked.strong_next s k x ∧ ∀ x', can_answer Linked.strong_next s k x' → x' = x.
Proof. exact (linked_one_answer s0 v ls s k). Qed.
Print Assumptions C18_linked_one_answer.
(** Reorganising the pages changes no answer. *)
Theorem C18_linked_reorganisation_invisible (s0 v s s' : BState (LinkedBetree (gmap N Message))) ls :
  Linked.initialize s0 v → run Linked.strong_next s0 ls s → Linked.strong_next s s' Internal →
  ∀ k x, can_answer Linked.strong_next s k x ↔ can_answer Linked.strong_next s' k x.
Proof. exact (linked_invisible s0 v ls s s'). Qed.
Print Assumptions C18_linked_reorganisation_invisible.
(** No step overwrites a page that was there before it. *)
Theorem C18_linked_copy_on_write (s0 v s s' : BState (LinkedBetree (gmap N Message))) ls l :
  Linked.initialize s0 v → run Linked.strong_next s0 ls s → Linked.strong_next s s' l →
  pages_kept (root s) (root s').
Proof. exact (linked_kept s0 v ls s s' l). Qed.
Print Assumptions C18_linked_copy_on_write.
(** The pages under the root never form a cycle, every buffer they name is on
    disk, and the root covers every key. *)
Theorem C18_linked_disk_legal (s0 v s : BState (LinkedBetree (gmap N Message))) ls :
  Linked.initialize s0 v → run Linked.strong_next s0 ls s →
  Linked.acyclic (root s) ∧
  (∀ ba, Linked.reachable_buffer (root s) ba → is_Some (lb_bdv (root s) !! ba)) ∧
  ∀ n, Linked.root_is (root s) n → LNode.my_domain n = total_domain.
Proof. exact (linked_legal s0 v ls s). Qed.
Print Assumptions C18_linked_disk_legal.
(** A frozen image is a legal image to restart from. *)
Theorem C18_linked_frozen_image_restarts (s0 v s s' : BState (LinkedBetree (gmap N Message))) ls img :
  Linked.initialize s0 v → run Linked.strong_next s0 ls s → Linked.strong_next s s' (FreezeAs img) →
  ∃ s1, Linked.initialize s1 (mkBS (empty_memtable (st_seq_end img)) (st_value img)).
Proof. exact (linked_frozen s0 v ls s s' img). Qed.
Print Assumptions C18_linked_frozen_image_restarts.
(** Finding: the machine's own [next] does not ask for fresh addresses. Growing
    onto the address of the root makes the tree a cycle that answers nothing. *)
Theorem C18_reused_address_refuted :
  ∃ (s0 v : BState (LinkedBetree (gmap N Message))) ls s s',
    Linked.initialize s0 v ∧ run Linked.next s0 ls s ∧ Linked.next s s' Internal ∧
    can_answer Linked.next s 3%N 7%N ∧ ∀ k x, ¬ can_answer Linked.next s' k x.
Proof. exact linked_reuse_refuted. Qed.
Print Assumptions C18_reused_address_refuted.
Example C18_example :
  Linked.initialize LinkedEx.st0 LinkedEx.st0 ∧
  (∃ ls, run Linked.strong_next LinkedEx.st0 ls LinkedEx.st10) ∧
  can_answer Linked.strong_next LinkedEx.st10 3%N 7%N ∧ can_answer Linked.strong_next LinkedEx.st10 12%N 9%N.
Proof. exact (conj LinkedEx.initial (conj LinkedEx.r10 LinkedEx.answers)). Qed.
