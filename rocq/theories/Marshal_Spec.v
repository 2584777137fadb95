(** What a user of the marshalling library may expect. *)
From Verif Require Import Marshal_Model.
From stdpp Require Import list.

(** A range of a buffer in memory. *)
Definition fits (s : Slice) (d : bytes) : Prop :=
  (sl_start s ≤ sl_end s ∧ sl_end s ≤ blen d ∧ blen d ≤ isize_max)%N.

(** [d'] is [d] with nothing changed but bytes in positions [a] to [b - 1]. *)
Definition changed_only_in (d d' : bytes) (a b : N) : Prop :=
  length d' = length d ∧
  ∀ i : nat, (N.of_nat i < a ∨ b ≤ N.of_nat i)%N → d' !! i = d !! i.

(** The contract of a format. No operation panics; the size of an encoding is known
    beforehand; reading depends on the bytes of the range only and gives what
    [spec_parse] says; writing changes no other byte and what was written is read back. *)
Record honours {V} (f : Format V) : Prop := {
  ho_size v : marshallable f v → exec_size f v = Some (spec_size f v) ∧ (spec_size f v ≤ usize_max)%N;
  ho_try s d : fits s d → try_parse f s d = Some (spec_parse f (sl_i s d));
  ho_parsable s d : fits s d → exec_parsable f s d = Some (bool_decide (is_Some (spec_parse f (sl_i s d))));
  ho_parse s d v : fits s d → spec_parse f (sl_i s d) = Some v → exec_parse f s d = Some v;
  ho_marshall v d p :
    marshallable f v → (p + spec_size f v ≤ blen d)%N → (blen d ≤ isize_max)%N →
    ∃ d', exec_marshall f v d p = Some (d', (p + spec_size f v)%N) ∧
      changed_only_in d d' p (p + spec_size f v) ∧
      spec_parse f (sub d' p (p + spec_size f v)) = Some v
}.

(** The contract of a format whose encodings have one size. An element takes no more
    room in memory than on disk. *)
Record honours_uniform {V} (f : Uniform V) : Prop := {
  hu_format : valid (ufmt f) → honours (ufmt f);
  hu_positive : (0 < usz f)%N;
  hu_memory : (elt_bytes (ufmt f) ≤ usz f)%N
}.

(** The number [x] written in base 256, least digit first. *)
Definition digits (bs : bytes) (x : N) : Prop :=
  ∀ i b, bs !! i = Some b → Byte.to_N b = (x / 256 ^ N.of_nat i mod 256)%N.

(** The sum of some sizes. *)
Definition total_of (l : list N) : N := foldr N.add 0%N l.
