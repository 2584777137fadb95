(** Vocabulary of C50: when the journal of the assembled store can write. *)
From Verif Require Import Journal_Model CrashJournal_Model JournalLive_Spec Store_Model.

(** The journal holds a unit it can write the next page to, or there is a unit it
    does not use. *)
Definition journal_room `{Geometry} (p : Pages) : jl_state (journal_layer p) → Prop :=
  match p with OwnPages => alloc_room | SharedPages => unified_room end.
