(** Model of the marshalling library Splinter/src/marshalling (Slice_v.rs,
    Marshalling_v.rs, IntegerMarshalling_v.rs, SeqMarshalling_v.rs,
    UniformSizedSeq_v.rs, ResizableUniformSizedSeq_v.rs, VariableSizedElementSeq_v.rs,
    KVPairFormat_v.rs). Definitions only.

    Executable functions return an [option]: [None] is a panic (overflow of [usize], an
    index out of bounds, a division by zero, a failed allocation request). The
    functions of a trait are the fields of a record; the runtime type and the view of
    a format are identified, since [deepv] is the identity on numbers and goes
    through vectors and pairs. [usize] has 64 bits, as IntegerMarshalling_v.rs 325-329
    assumes. *)
From Coq Require Import NArith Lia.
From Coq Require Import Strings.Byte.
From stdpp Require Import prelude.
From stdpp Require Import option list numbers.

(** [Seq<u8>], [Vec<u8>] and [&[u8]] of Marshalling_v.rs 43-127. *)
Notation bytes := (list byte) (only parsing).

(** [usize::MAX] and [isize::MAX] *)
(** A constant of Rust: no counterpart in /repo. *)
Definition usize_max : N := 18446744073709551615.
(** The largest size of an allocation in Rust. *)
(** A constant of Rust: no counterpart in /repo. *)
Definition isize_max : N := 9223372036854775807.
(** Arithmetic of [usize]; overflow panics. *)
(** An operation of Rust: no counterpart in /repo. *)
Definition uadd (a b : N) : option N := if (a + b <=? usize_max)%N then Some (a + b)%N else None.
(** Subtraction of [usize] *)
(** An operation of Rust: no counterpart in /repo. *)
Definition usub (a b : N) : option N := if (b <=? a)%N then Some (a - b)%N else None.
(** Multiplication of [usize]; math_v.rs 56-61 *)
Definition umul (a b : N) : option N := if (a * b <=? usize_max)%N then Some (a * b)%N else None.
(** Division of [usize] *)
(** An operation of Rust: no counterpart in /repo. *)
Definition udiv (a b : N) : option N := if (b =? 0)%N then None else Some (a / b)%N.
(** [Vec::with_capacity n] of elements of [sz] bytes: panics with "capacity overflow"
    when the request exceeds [isize::MAX] bytes. Running out of memory is not modelled. *)
(** An operation of Rust: no counterpart in /repo. *)
Definition with_capacity (sz n : N) : option () :=
  if (sz * n <=? isize_max)%N then Some () else None.

(** [data.len()] *)
(** An operation of Rust: no counterpart in /repo. *)
Definition blen {A} (d : list A) : N := N.of_nat (length d).
(** vstd [Seq::subrange(s, e)] *)
(** A vstd function: no counterpart in /repo. *)
Definition sub {A} (d : list A) (s e : N) : list A :=
  take (N.to_nat (e - s)) (drop (N.to_nat s) d).

(** ** Slices, Slice_v.rs *)
(** 79-82 *)
Record Slice := mkSlice { sl_start : N; sl_end : N }.
(** 24-27: [valid] *)
Definition sl_valid {A} (s : Slice) (d : list A) : Prop :=
  (sl_start s ≤ sl_end s ∧ sl_end s ≤ blen d)%N.
(** 29-34: [i] *)
Definition sl_i {A} (s : Slice) (d : list A) : list A := sub d (sl_start s) (sl_end s).
(** 85-90: [len] *)
Definition sl_len (s : Slice) : option N := usub (sl_end s) (sl_start s).
(** 92-96: [all] *)
Definition sl_all {A} (d : list A) : Slice := mkSlice 0 (blen d).
(** 98-105: [subslice] *)
Definition subslice (s : Slice) (a b : N) : option Slice :=
  x ← uadd (sl_start s) a; y ← uadd (sl_start s) b; Some (mkSlice x y).
(** 107-113: [xslice] *)
Definition xslice (s other : Slice) : option Slice := subslice s (sl_start other) (sl_end other).
(** vstd [slice_subrange(data, i, j)], that is [&data[i..j]] *)
(** A vstd function: no counterpart in /repo. *)
Definition slice_subrange {A} (d : list A) (i j : N) : option (list A) :=
  if ((i <=? j) && (j <=? blen d))%N then Some (sub d i j) else None.

(** ** Formats, Marshalling_v.rs 43-127 *)
(** The trait [Marshal]. [elt_bytes] is the size in memory of the runtime type
    ([size_of::<U>()]), which only [Vec::with_capacity] looks at. *)
(** Marshalling_v.rs 42-127 *)
Record Format (V : Type) := mkFormat {
  valid : Prop;                                            (* 47 *)
  marshallable : V → Prop;                                 (* 97: with the range of the runtime type *)
  spec_size : V → N;                                       (* 100 *)
  spec_parse : bytes → option V;                           (* 53, 57: [parsable] and [parse] together *)
  exec_size : V → option N;                                (* 106 *)
  try_parse : Slice → bytes → option (option V);           (* 64 *)
  exec_parsable : Slice → bytes → option bool;             (* 73 *)
  exec_parse : Slice → bytes → option V;                   (* 84 *)
  exec_marshall : V → bytes → N → option (bytes * N);      (* 114: the new data and [end] *)
  elt_bytes : N }.
Arguments mkFormat {V}. Arguments valid {V}. Arguments marshallable {V}. Arguments spec_size {V}.
Arguments spec_parse {V}. Arguments exec_size {V}. Arguments try_parse {V}.
Arguments exec_parsable {V}. Arguments exec_parse {V}. Arguments exec_marshall {V}.
Arguments elt_bytes {V}.

(** 73-82: the default [exec_parsable] *)
Definition default_parsable {V} (try : Slice → bytes → option (option V)) (s : Slice) (d : bytes)
  : option bool :=
  ov ← try s d; Some (match ov with Some _ => true | None => false end).
(** 84-93: the default [exec_parse], [unwrap] of nothing panics *)
Definition default_parse {V} (try : Slice → bytes → option (option V)) (s : Slice) (d : bytes)
  : option V :=
  ov ← try s d; ov.

(** UniformSized_v.rs 16-26: a format whose encodings all have the same size. *)
Record Uniform (V : Type) := mkUniform { ufmt : Format V; usz : N }.
Arguments mkUniform {V}. Arguments ufmt {V}. Arguments usz {V}.

(** ** Integers, IntegerMarshalling_v.rs *)
Inductive IntT := U8 | U16 | U32 | U64.
(** 105, 181, 249, 317: [uniform_size] *)
Definition iwidth (t : IntT) : nat := match t with U8 => 1 | U16 => 2 | U32 => 4 | U64 => 8 end.
(** 105, 181, 249, 317 *)
Definition isz (t : IntT) : N := N.of_nat (iwidth t).
(** 158, 226, 294, 359: [max] *)
Definition imax (t : IntT) : N :=
  match t with U8 => 255 | U16 => 65535 | U32 => 4294967295 | U64 => 18446744073709551615 end.
(** The byte of a number, [as u8] *)
Definition byte_of (n : N) : byte := default x00 (Byte.of_N (n mod 256)).
(** 124-130; vstd [u16_to_le_bytes] and so on: Rust's [to_le_bytes], least byte first *)
Fixpoint le_bytes (w : nat) (x : N) : bytes :=
  match w with O => [] | S w => byte_of x :: le_bytes w (x / 256) end.
(** 124, 200, 268, 342 *)
Definition to_le (t : IntT) (x : N) : bytes := le_bytes (iwidth t) x.
(** 132, 205, 273, 347: Rust's [from_le_bytes] *)
Fixpoint from_le (s : bytes) : N :=
  match s with [] => 0 | b :: r => (Byte.to_N b + 256 * from_le r)%N end.
(** 164, 232, 300, 367: [to_usize], a cast to at least as many bits *)
Definition to_usize (t : IntT) (v : N) : N := v.
(** 166, 234, 302, 372: [from_usize], a cast that drops high bits *)
Definition from_usize (t : IntT) (v : N) : N := (v mod (imax t + 1))%N.

(** 394-425: [install_bytes], the loop of [data.set]; the result is the new data. *)
Fixpoint install (source : bytes) (d : bytes) (pos : N) : option bytes :=
  match source with
  | [] => Some d
  | b :: r => if (pos <? blen d)%N then install r (<[N.to_nat pos := b]> d) (pos + 1) else None
  end.
(** 394-406, 424 *)
Definition install_bytes (source : bytes) (d : bytes) (start : N) : option (bytes * N) :=
  e ← uadd start (blen source); d' ← install source d start; Some (d', e).
(** 491-503 *)
Definition int_try_parse (t : IntT) (s : Slice) (d : bytes) : option (option N) :=
  l ← sl_len s;
  if (isz t <=? l)%N
  then e ← uadd (sl_start s) (isz t); sr ← slice_subrange d (sl_start s) e; Some (Some (from_le sr))
  else Some None.
(** 453-469 *)
Definition int_exec_parsable (t : IntT) (s : Slice) (d : bytes) : option bool :=
  l ← sl_len s; Some (isz t <=? l)%N.
(** 505-513 *)
Definition int_exec_parse (t : IntT) (s : Slice) (d : bytes) : option N :=
  e ← uadd (sl_start s) (isz t); sr ← slice_subrange d (sl_start s) e; Some (from_le sr).
(** 515-527 *)
Definition int_exec_marshall (t : IntT) (v : N) (d : bytes) (start : N) : option (bytes * N) :=
  install_bytes (to_le t v) d start.
(** 438-528; [marshallable] (471) is the range of the runtime type. *)
Definition int_format (t : IntT) : Format N :=
  mkFormat True
    (λ v, (v ≤ imax t)%N)
    (λ _, isz t)
    (λ d, if (isz t <=? blen d)%N then Some (from_le (sub d 0 (isz t))) else None)
    (λ _, Some (isz t))
    (int_try_parse t) (int_exec_parsable t) (int_exec_parse t) (int_exec_marshall t)
    (isz t).
(** 530-547 *)
Definition int_uniform (t : IntT) : Uniform N := mkUniform (int_format t) (isz t).

(** ** Sequences *)
(** The indexes below [n]. *)
(** The range of the loops of UniformSizedSeq_v.rs 344-364. *)
Definition upto (n : N) : list N := N.of_nat <$> seq 0 (N.to_nat n).

Section loops.
  Context {V : Type}.
  (** UniformSizedSeq_v.rs 344-364, ResizableUniformSizedSeq_v.rs 531-552: the loop of
      [try_parse], with [n] elements to go from index [i]. *)
  Fixpoint parse_loop (get : N → option (option V)) (n : nat) (i : N) (result : list V)
    : option (option (list V)) :=
    match n with
    | O => Some (Some result)
    | S n => oelt ← get i;
             match oelt with
             | None => Some None
             | Some v => parse_loop get n (i + 1)%N (result ++ [v])
             end
    end.
End loops.

(** ** Sequences that fill their slice, UniformSizedSeq_v.rs *)
Module USeq.
  Section seq.
    Context {V : Type} (f : Uniform V).
    (** 68-71 *)
    Definition length (d : bytes) : N := (blen d / usz f)%N.
    (** 91-94 *)
    Definition gettable (d : bytes) (i : N) : bool := (i <? length d)%N.
    (** 96-101, SeqMarshalling_v.rs 117-123 *)
    Definition get_data (d : bytes) (i : N) : bytes := sub d (i * usz f) (i * usz f + usz f).
    (** 109-117: [elt_parsable] and [get_elt] together *)
    Definition get_elt (d : bytes) (i : N) : option V := spec_parse (ufmt f) (get_data d i).
    (** 289-300; SeqMarshalling_v.rs 370-394 *)
    Definition spec_parse (d : bytes) : option (list V) :=
      if (length d <=? usize_max)%N
      then mapM (λ i, if gettable d i then get_elt d i else None) (upto (length d)) else None.

    (** 81-85 (and 73-77, which wraps it) *)
    Definition exec_length (s : Slice) : option N := l ← sl_len s; udiv l (usz f).
    (** 140-146 *)
    Definition exec_get (s : Slice) (i : N) : option Slice :=
      a ← umul i (usz f); b ← umul i (usz f); b ← uadd b (usz f); subslice s a b.
    (** 119-132 *)
    Definition try_get (s : Slice) (i : N) : option (option Slice) :=
      l ← exec_length s;
      if (i <? l)%N then e ← exec_get s i; Some (Some e) else Some None.
    (** 134-138 *)
    Definition exec_gettable (s : Slice) (i : N) : option bool :=
      l ← exec_length s; Some (i <? l)%N.
    (** 148-169 *)
    Definition try_get_elt (s : Slice) (d : bytes) (i : N) : option (option V) :=
      oe ← try_get s i;
      match oe with None => Some None | Some e => try_parse (ufmt f) e d end.
    (** 171-181 *)
    Definition exec_get_elt (s : Slice) (d : bytes) (i : N) : option V :=
      e ← exec_get s i; exec_parse (ufmt f) e d.
    (** 199-204 *)
    Definition exec_settable (s : Slice) (i : N) (v : V) : option bool :=
      l ← exec_length s; sz ← exec_size (ufmt f) v; Some ((i <? l) && (sz =? usz f))%N.
    (** 206-213 *)
    Definition exec_set (s : Slice) (d : bytes) (i : N) (v : V) : option bytes :=
      a ← umul i (usz f); p ← uadd (sl_start s) a;
      r ← exec_marshall (ufmt f) v d p; Some r.1.

    (** 329-367 *)
    Definition try_parse (s : Slice) (d : bytes) : option (option (list V)) :=
      l ← exec_length s;
      _ ← with_capacity (elt_bytes (ufmt f)) l;
      parse_loop (try_get_elt s d) (N.to_nat l) 0 [].
    (** 397-427: the loop of [exec_marshall] *)
    Fixpoint marshall_loop (vs : list V) (d : bytes) (e : N) : option (bytes * N) :=
      match vs with
      | [] => Some (d, e)
      | v :: vs => r ← exec_marshall (ufmt f) v d e; marshall_loop vs r.1 r.2
      end.
    (** 310-471. A [Vec] takes 24 bytes. *)
    Definition format : Format (list V) :=
      mkFormat (valid (ufmt f))
        (λ vs, Forall (λ v, marshallable (ufmt f) v ∧ spec_size (ufmt f) v = usz f) vs
               ∧ (blen vs * usz f ≤ usize_max)%N)
        (λ vs, (blen vs * usz f)%N)
        spec_parse
        (λ vs, umul (blen vs) (usz f))
        try_parse (default_parsable try_parse) (default_parse try_parse)
        marshall_loop
        24.
  End seq.
End USeq.

(** ** Sequences with a stored length, ResizableUniformSizedSeq_v.rs *)
Module RSeq.
  (** 22-33. [checked = false] is the code as written; [checked = true] is a repair of
      [try_parse] that refuses a stored length beyond [max_length] before it asks for
      memory. *)
  Record Fmt (V : Type) := mkFmt
    { eltf : Uniform V; lent : IntT; total_size : N; max_length : N; checked : bool }.
  Global Arguments mkFmt {V}. Global Arguments eltf {V}. Global Arguments lent {V}.
  Global Arguments total_size {V}. Global Arguments max_length {V}. Global Arguments checked {V}.

  Section seq.
    Context {V : Type}.
    (** 38-50 *)
    Definition new (c : bool) (e : Uniform V) (t : IntT) (total : N) : option (Fmt V) :=
      a ← usub total (isz t); m ← udiv a (usz e); Some (mkFmt e t total m c).
    Context (f : Fmt V).
    (** 52-56 *)
    Definition spec_max_length : N := ((total_size f - isz (lent f)) / usz (eltf f))%N.
    (** 137-142 *)
    Definition seq_valid : Prop :=
      valid (ufmt (eltf f)) ∧ (isz (lent f) ≤ total_size f)%N ∧ max_length f = spec_max_length.
    (** 144-146 *)
    Definition lengthable (d : bytes) : bool := (total_size f <=? blen d)%N.
    (** 148-151 *)
    Definition length (d : bytes) : N := from_le (sub (sub d 0 (isz (lent f))) 0 (isz (lent f))).
    (** 191-196 *)
    Definition gettable (d : bytes) (i : N) : bool := lengthable d && (i <? spec_max_length)%N.
    (** 198-203 *)
    Definition get_data (d : bytes) (i : N) : bytes :=
      sub d (isz (lent f) + i * usz (eltf f)) (isz (lent f) + i * usz (eltf f) + usz (eltf f)).
    (** 210-218 *)
    Definition get_elt (d : bytes) (i : N) : option V := spec_parse (ufmt (eltf f)) (get_data d i).
    (** 459-470 *)
    Definition spec_parse (d : bytes) : option (list V) :=
      if lengthable d && (length d <=? usize_max)%N
      then mapM (λ i, if gettable d i then get_elt d i else None) (upto (length d)) else None.
    (** 286-291 *)
    Definition settable (d : bytes) (i : N) (v : V) : Prop :=
      lengthable d = true ∧ (i < spec_max_length)%N ∧ spec_size (ufmt (eltf f)) v = usz (eltf f).
    (** 353-357 *)
    Definition resizable (d : bytes) (n : N) : Prop :=
      lengthable d = true ∧ (n ≤ spec_max_length)%N ∧ (n ≤ imax (lent f))%N.
    (** 410-416, with 404-406 *)
    Definition appendable (d : bytes) (v : V) : Prop :=
      lengthable d = true ∧ (length d < spec_max_length)%N ∧
      spec_size (ufmt (eltf f)) v = usz (eltf f) ∧ (length d + 1 ≤ imax (lent f))%N.

    (** 153-180 *)
    Definition try_length (s : Slice) (d : bytes) : option (option N) :=
      l ← sl_len s;
      if (l <? total_size f)%N then Some None
      else ss ← subslice s 0 (isz (lent f));
           n ← exec_parse (int_format (lent f)) ss d;
           Some (Some (to_usize (lent f) n)).
    (** SeqMarshalling_v.rs 48-67 *)
    Definition exec_lengthable (s : Slice) (d : bytes) : option bool :=
      ol ← try_length s d; Some (match ol with Some _ => true | None => false end).
    (** SeqMarshalling_v.rs 58-67 *)
    Definition exec_length (s : Slice) (d : bytes) : option N := ol ← try_length s d; ol.
    (** 239-246 *)
    Definition exec_get (s : Slice) (i : N) : option Slice :=
      a ← umul i (usz (eltf f)); a ← uadd (isz (lent f)) a; b ← uadd a (usz (eltf f));
      subslice s a b.
    (** 220-232 *)
    Definition try_get (s : Slice) (d : bytes) (i : N) : option (option Slice) :=
      ol ← try_length s d;
      match ol with
      | None => Some None
      | Some _ => if (i <? max_length f)%N then e ← exec_get s i; Some (Some e) else Some None
      end.
    (** 234-237 *)
    Definition exec_gettable (s : Slice) (d : bytes) (i : N) : option bool :=
      b ← exec_lengthable s d; Some (b && (i <? max_length f)%N).
    (** 248-263 *)
    Definition try_get_elt (s : Slice) (d : bytes) (i : N) : option (option V) :=
      oe ← try_get s d i;
      match oe with None => Some None | Some e => try_parse (ufmt (eltf f)) e d end.
    (** 265-275 *)
    Definition exec_get_elt (s : Slice) (d : bytes) (i : N) : option V :=
      e ← exec_get s i; exec_parse (ufmt (eltf f)) e d.
    (** 293-305 *)
    Definition exec_settable (s : Slice) (d : bytes) (i : N) (v : V) : option bool :=
      ol ← try_length s d; sz ← exec_size (ufmt (eltf f)) v;
      Some (match ol with Some _ => true | None => false end
            && (i <? max_length f)%N && (sz =? usz (eltf f))%N).
    (** 307-312 *)
    Definition exec_set (s : Slice) (d : bytes) (i : N) (v : V) : option bytes :=
      a ← uadd (sl_start s) (isz (lent f)); b ← umul i (usz (eltf f)); p ← uadd a b;
      r ← exec_marshall (ufmt (eltf f)) v d p; Some r.1.
    (** 359-364 *)
    Definition exec_resizable (s : Slice) (d : bytes) (n : N) : option bool :=
      b ← exec_lengthable s d; Some (b && (n <=? max_length f)%N && (n <=? imax (lent f))%N).
    (** 366-370 *)
    Definition resize (s : Slice) (d : bytes) (n : N) : option bytes :=
      r ← exec_marshall (int_format (lent f)) (from_usize (lent f) n) d (sl_start s); Some r.1.
    (** 101-115 *)
    Definition initialize (s : Slice) (d : bytes) : option bytes := resize s d 0.
    (** 422-431 *)
    Definition exec_appendable (s : Slice) (d : bytes) (v : V) : option bool :=
      l ← exec_length s d; sz ← exec_size (ufmt (eltf f)) v;
      if (l <? max_length f)%N && (sz =? usz (eltf f))%N
      then l1 ← uadd l 1; Some (l1 <=? imax (lent f))%N else Some false.
    (** 433-441 *)
    Definition exec_append (s : Slice) (d : bytes) (v : V) : option bytes :=
      l ← exec_length s d; l1 ← uadd l 1; d ← resize s d l1; exec_set s d l v.

    (** 526-555 *)
    Definition try_parse (s : Slice) (d : bytes) : option (option (list V)) :=
      ol ← try_length s d;
      match ol with
      | None => Some None
      | Some l =>
          if checked f && (max_length f <? l)%N then Some None
          else _ ← with_capacity (elt_bytes (ufmt (eltf f))) l;
               parse_loop (try_get_elt s d) (N.to_nat l) 0 []
      end.
    (** 605-636: the loop of [exec_marshall] *)
    Fixpoint set_loop (s : Slice) (vs : list V) (d : bytes) (i : N) : option bytes :=
      match vs with
      | [] => Some d
      | v :: vs => d ← exec_set s d i v; set_loop s vs d (i + 1)%N
      end.
    (** 575-640 *)
    Definition marshall (vs : list V) (d : bytes) (start : N) : option (bytes * N) :=
      e ← uadd start (total_size f);
      r ← exec_marshall (int_format (lent f)) (from_usize (lent f) (blen vs)) d start;
      d ← set_loop (mkSlice start e) vs r.1 0; Some (d, e).
    (** 500-641 *)
    Definition format : Format (list V) :=
      mkFormat seq_valid
        (λ vs, Forall (λ v, marshallable (ufmt (eltf f)) v ∧ spec_size (ufmt (eltf f)) v = usz (eltf f)) vs
               ∧ (blen vs ≤ imax (lent f))%N
               ∧ (isz (lent f) + blen vs * usz (eltf f) ≤ total_size f)%N)
        (λ _, total_size f)
        spec_parse
        (λ _, Some (total_size f))
        try_parse (default_parsable try_parse) (default_parse try_parse)
        marshall
        24.
  End seq.
End RSeq.

(** ** Sequences of elements of any size, VariableSizedElementSeq_v.rs *)
Module VSeq.
  (** 40-54; [bdyt] is the type [BdyType], [lent] and [total], [maxl], [checked] are the
      fields of [bdyf]. *)
  Record Fmt (V : Type) := mkFmt
    { eltf : Format V; bdyt : IntT; lent : IntT; total : N; maxl : N; checked : bool }.
  Global Arguments mkFmt {V}. Global Arguments eltf {V}. Global Arguments bdyt {V}.
  Global Arguments lent {V}. Global Arguments total {V}. Global Arguments maxl {V}.
  Global Arguments checked {V}.

  Section seq.
    Context {V : Type}.
    (** 64-77 *)
    Definition new (c : bool) (e : Format V) (b t : IntT) (tot : N) : option (Fmt V) :=
      r ← RSeq.new c (int_uniform b) t tot;
      Some (mkFmt e b t (RSeq.total_size r) (RSeq.max_length r) c).
    Context (f : Fmt V).
    (** 53 *)
    Definition bdyf : RSeq.Fmt N := RSeq.mkFmt (int_uniform (bdyt f)) (lent f) (total f) (maxl f) (checked f).
    (** 441-446 *)
    Definition seq_valid : Prop :=
      valid (eltf f) ∧ RSeq.seq_valid bdyf ∧ (total f ≤ imax (lent f))%N ∧ (total f ≤ imax (bdyt f))%N.
    (** 187-190 *)
    Definition size_of_table (n : N) : N := (isz (lent f) + n * isz (bdyt f))%N.
    (** 192-213: [tableable] and [table] together *)
    Definition table (d : bytes) : option (list N) := RSeq.spec_parse bdyf d.
    (** 216-226 *)
    Definition valid_table (t : list N) : Prop :=
      (∀ i j x y, i ≤ j → t !! i = Some x → t !! j = Some y → (y ≤ x)%N) ∧
      (∀ x, t !! 0 = Some x → (x ≤ total f)%N) ∧
      (∀ x, stdpp.list.last t = Some x → (size_of_table (blen t) ≤ x)%N).
    (** 596-599 *)
    Definition well_formed (d : bytes) : Prop := ∃ t, table d = Some t ∧ valid_table t.
    (** 229-233 *)
    Definition elements_start (t : list N) : N := match stdpp.list.last t with Some x => x | None => total f end.
    (** 605-609, with 235-242 *)
    Definition appendable (d : bytes) (v : V) : Prop :=
      ∃ t, table d = Some t ∧
        (isz (bdyt f) + spec_size (eltf f) v + size_of_table (RSeq.length bdyf d) ≤ elements_start t)%N.

    (** 80-93 *)
    Definition initialize (s : Slice) (d : bytes) : option bytes := RSeq.initialize bdyf s d.
    (** 457-462 *)
    Definition try_length (s : Slice) (d : bytes) : option (option N) := RSeq.try_length bdyf s d.
    (** SeqMarshalling_v.rs 58-67 *)
    Definition exec_length (s : Slice) (d : bytes) : option N := ol ← try_length s d; ol.
    (** 138-149 *)
    Definition data_begin (s : Slice) (d : bytes) (i : N) : option N :=
      x ← RSeq.exec_get_elt bdyf s d i; Some (to_usize (bdyt f) x).
    (** 157-174 *)
    Definition data_end (s : Slice) (d : bytes) (i : N) : option N :=
      if (0 <? i)%N
      then j ← usub i 1; x ← RSeq.exec_get_elt bdyf s d j; Some (to_usize (bdyt f) x)
      else Some (total f).
    (** 493-518 *)
    Definition try_get (s : Slice) (d : bytes) (i : N) : option (option Slice) :=
      ol ← try_length s d;
      match ol with
      | None => Some None
      | Some n =>
          if ((i <? maxl f) && (i <? n))%N
          then a ← data_begin s d i; b ← data_end s d i; l ← sl_len s;
               if ((a <=? b) && (b <=? total f) && (total f <=? l))%N
               then e ← subslice s a b; Some (Some e) else Some None
          else Some None
      end.
    (** SeqMarshalling_v.rs 161-168 *)
    Definition exec_gettable (s : Slice) (d : bytes) (i : N) : option bool :=
      oe ← try_get s d i; Some (match oe with Some _ => true | None => false end).
    (** 520-525 *)
    Definition exec_get (s : Slice) (d : bytes) (i : N) : option Slice :=
      a ← data_begin s d i; b ← data_end s d i; subslice s a b.
    (** 527-543 *)
    Definition try_get_elt (s : Slice) (d : bytes) (i : N) : option (option V) :=
      oe ← try_get s d i;
      match oe with None => Some None | Some e => try_parse (eltf f) e d end.
    (** 545-556 *)
    Definition exec_get_elt (s : Slice) (d : bytes) (i : N) : option V :=
      e ← exec_get s d i; exec_parse (eltf f) e d.
    (** 649-663: the loop of [exec_well_formed] *)
    Fixpoint descending (t : list N) : bool :=
      match t with
      | x :: (y :: _) as r => if (to_usize (bdyt f) x <? to_usize (bdyt f) y)%N then false else descending r
      | _ => true
      end.
    (** 611-666 *)
    Definition exec_well_formed (s : Slice) (d : bytes) : option bool :=
      ot ← RSeq.try_parse bdyf s d;
      match ot with
      | None => Some false
      | Some t =>
          match t, stdpp.list.last t with
          | x :: _, Some y =>
              m ← umul (blen t) (isz (bdyt f)); tb ← uadd (isz (lent f)) m;
              if (to_usize (bdyt f) y <? tb)%N then Some false
              else if (total f <? to_usize (bdyt f) x)%N then Some false
              else Some (descending t)
          | _, _ => Some true
          end
      end.
    (** 245-266 *)
    Definition length_and_upper_bound (s : Slice) (d : bytes) : option (N * N) :=
      l ← exec_length s d;
      if (l =? 0)%N then Some (l, total f)
      else j ← usub l 1; x ← RSeq.exec_get_elt bdyf s d j; Some (l, to_usize (bdyt f) x).
    (** 668-684 *)
    Definition exec_appendable (s : Slice) (d : bytes) (v : V) : option bool :=
      lb ← length_and_upper_bound s d;
      m ← umul lb.1 (isz (bdyt f)); tb ← uadd (isz (lent f)) m;
      free ← usub lb.2 tb;
      sz ← exec_size (eltf f) v;
      if (isz (bdyt f) <=? free)%N then r ← usub free (isz (bdyt f)); Some (sz <=? r)%N else Some false.
    (** 686-745 *)
    Definition exec_append (s : Slice) (d : bytes) (v : V) : option bytes :=
      lb ← length_and_upper_bound s d;
      sz ← exec_size (eltf f) v;
      st ← usub lb.2 sz;
      p ← uadd (sl_start s) st;
      r ← exec_marshall (eltf f) v d p;
      RSeq.exec_append bdyf s r.1 (from_usize (bdyt f) st).
  End seq.
End VSeq.

(** ** Key and value, KVPairFormat_v.rs *)
Module KV.
  (** 21-61 *)
  Record Fmt (K D : Type) := mkFmt { lent : IntT; key_fmt : Format K; data_fmt : Format D }.
  Global Arguments mkFmt {K D}. Global Arguments lent {K D}. Global Arguments key_fmt {K D}.
  Global Arguments data_fmt {K D}.

  Section kv.
    Context {K D : Type} (f : Fmt K D).
    (** 73-89: the stored length of the key *)
    Definition keylen (d : bytes) : option N :=
      if (isz (lent f) <=? blen d)%N
      then spec_parse (int_format (lent f)) (sub d 0 (isz (lent f))) else None.
    (** 181-192, 220-226, with 91-96 and 122-125 *)
    Definition parse (d : bytes) : option (K * D) :=
      n ← keylen d;
      k ← spec_parse (key_fmt f) (sub d (isz (lent f)) (isz (lent f) + n));
      if (isz (lent f) + n <=? blen d)%N
      then v ← spec_parse (data_fmt f) (sub d (isz (lent f) + n) (blen d)); Some (k, v)
      else None.
    (** 204-211 *)
    Definition size (kv : K * D) : N :=
      (isz (lent f) + spec_size (key_fmt f) kv.1 + spec_size (data_fmt f) kv.2)%N.
    (** 213-218 *)
    Definition exec_size (kv : K * D) : option N :=
      a ← exec_size (key_fmt f) kv.1; x ← uadd (isz (lent f)) a;
      b ← exec_size (data_fmt f) kv.2; uadd x b.
    (** 149-163, with 128-137 *)
    Definition try_keylen (s : Slice) (d : bytes) : option (option N) :=
      l ← sl_len s;
      if (l <? isz (lent f))%N then Some None
      else ks ← xslice s (mkSlice 0 (isz (lent f))); try_parse (int_format (lent f)) ks d.
    (** 228-291, with 104-119 *)
    Definition try_parse (s : Slice) (d : bytes) : option (option (K * D)) :=
      l ← sl_len s;
      if (l <? isz (lent f))%N then Some None else
      on ← try_keylen s d;
      match on with
      | None => Some None
      | Some n =>
          let n := to_usize (lent f) n in
          e ← uadd (isz (lent f)) n;
          if negb (e <=? l)%N then Some None else
          ks ← xslice s (mkSlice (isz (lent f)) e);
          b ← exec_parsable (key_fmt f) ks d;
          if negb b then Some None else
          ks ← subslice s (isz (lent f)) e;
          ok ← try_parse (key_fmt f) ks d;
          match ok with
          | None => Some None
          | Some k =>
              ov ← try_parse (data_fmt f) (mkSlice (sl_end ks) (sl_end s)) d;
              match ov with None => Some None | Some v => Some (Some (k, v)) end
          end
      end.
    (** 301-352 *)
    Definition marshall (kv : K * D) (d : bytes) (start : N) : option (bytes * N) :=
      n ← Marshal_Model.exec_size (key_fmt f) kv.1;
      r ← exec_marshall (int_format (lent f)) (from_usize (lent f) n) d start;
      r ← exec_marshall (key_fmt f) kv.1 r.1 r.2;
      exec_marshall (data_fmt f) kv.2 r.1 r.2.
    (** 166-353; a pair takes the room of its two parts. *)
    Definition format : Format (K * D) :=
      mkFormat
        ((imax (lent f) + isz (lent f) ≤ usize_max)%N ∧ valid (key_fmt f) ∧ valid (data_fmt f))
        (λ kv, marshallable (key_fmt f) kv.1 ∧ marshallable (data_fmt f) kv.2 ∧
               (size kv ≤ usize_max)%N ∧ (spec_size (key_fmt f) kv.1 ≤ imax (lent f))%N)
        size parse exec_size
        try_parse (default_parsable try_parse) (default_parse try_parse)
        marshall
        (elt_bytes (key_fmt f) + elt_bytes (data_fmt f)).
  End kv.
End KV.
