(** Programs that use pages of elements through the checks the library offers, and what
    such a program may expect the page to hold. *)
From Verif Require Export Marshal_Model Marshal_Spec.
From stdpp Require Import list.

(** ** What a user of a format sees *)
(** Encoding and decoding gives the value back, encoding changes no other byte, its size
    is known beforehand, decoding never panics whatever the bytes are, and depends on the
    bytes of the range only. *)
Record reliable {V} (f : Format V) : Prop := {
  re_size v : marshallable f v → ∃ n, exec_size f v = Some n;
  re_round_trip v d p n :
    marshallable f v → exec_size f v = Some n → (p + n ≤ blen d)%N → (blen d ≤ isize_max)%N →
    ∃ d', exec_marshall f v d p = Some (d', (p + n)%N) ∧ changed_only_in d d' p (p + n) ∧
      try_parse f (mkSlice p (p + n)) d' = Some (Some v) ∧
      exec_parsable f (mkSlice p (p + n)) d' = Some true ∧
      exec_parse f (mkSlice p (p + n)) d' = Some v;
  re_no_panic s d : fits s d →
    ∃ o, try_parse f s d = Some o ∧
      exec_parsable f s d = Some (match o with Some _ => true | None => false end) ∧
      ∀ v, o = Some v → exec_parse f s d = Some v;
  re_local s d s' d' : fits s d → fits s' d' → sl_i s d = sl_i s' d' →
    try_parse f s d = try_parse f s' d'
}.

(** ** Pages of elements of one size *)
Inductive PageOp (V : Type) := Append (v : V) | Put (i : N) (v : V) | Truncate (n : N).
Global Arguments Append {V}. Global Arguments Put {V}. Global Arguments Truncate {V}.

Section fixed.
  Context {V : Type} (f : RSeq.Fmt V).
  (** A program that asks first, and leaves the page alone if it is told no. [None] is a panic. *)
  Definition page_op (s : Slice) (d : bytes) (o : PageOp V) : option bytes :=
    match o with
    | Append v => b ← RSeq.exec_appendable f s d v; if (b : bool) then RSeq.exec_append f s d v else Some d
    | Put i v => b ← RSeq.exec_settable f s d i v; if (b : bool) then RSeq.exec_set f s d i v else Some d
    | Truncate n =>
        b ← RSeq.exec_resizable f s d n; l ← RSeq.exec_length f s d;
        if (b : bool) && (n <=? l)%N then RSeq.resize f s d n else Some d
    end.
  Fixpoint page_ops (s : Slice) (d : bytes) (os : list (PageOp V)) : option bytes :=
    match os with
    | [] => Some d
    | o :: os => d' ← page_op s d o; page_ops s d' os
    end.
  (** A page of [n] elements has this size. *)
  Definition page_size (n : N) : N := (isz (RSeq.lent f) + n * usz (RSeq.eltf f))%N.
  (** What the page holds afterwards: a list with a bound on its length. *)
  Definition list_op (vs : list V) (o : PageOp V) : list V :=
    match o with
    | Append v =>
        if decide (spec_size (ufmt (RSeq.eltf f)) v = usz (RSeq.eltf f) ∧
                   page_size (blen vs + 1) ≤ RSeq.total_size f ∧ blen vs + 1 ≤ imax (RSeq.lent f))%N
        then vs ++ [v] else vs
    | Put i v =>
        if decide (spec_size (ufmt (RSeq.eltf f)) v = usz (RSeq.eltf f))
        then <[N.to_nat i := v]> vs else vs
    | Truncate n => take (N.to_nat n) vs
    end.
  Definition op_values (o : PageOp V) : list V :=
    match o with Append v | Put _ v => [v] | Truncate _ => [] end.
End fixed.

(** ** Pages of elements of many sizes *)
Section variable.
  Context {V : Type} (f : VSeq.Fmt V).
  Definition offer (s : Slice) (d : bytes) (v : V) : option bytes :=
    b ← VSeq.exec_appendable f s d v; if (b : bool) then VSeq.exec_append f s d v else Some d.
  Fixpoint offers (s : Slice) (d : bytes) (vs : list V) : option bytes :=
    match vs with
    | [] => Some d
    | v :: vs => d' ← offer s d v; offers s d' vs
    end.
  (** The room some elements take: the length, a boundary for each, and the elements. *)
  Definition room (vs : list V) : N :=
    (isz (VSeq.lent f) + blen vs * isz (VSeq.bdyt f) + total_of (spec_size (VSeq.eltf f) <$> vs))%N.
  (** An element is kept if there is room for it. *)
  Definition keep (vs : list V) (v : V) : list V :=
    if decide (room (vs ++ [v]) ≤ VSeq.total f)%N then vs ++ [v] else vs.
End variable.
