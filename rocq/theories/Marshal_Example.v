(** Concrete formats and pages. *)
From Coq Require Import NArith Lia ZifyBool ZifyNat ZifyN.
From Coq Require Import Strings.Byte.
From Verif Require Import MarshalClient_Spec Marshal_Proof MarshalSeq_Proof MarshalResizable_Proof
  MarshalVariable_Proof MarshalKV_Proof MarshalClient_Proof.
From stdpp Require Import prelude list numbers.

(** Bytes of a string, 16-bit numbers in a page of 14 bytes. *)
Definition text : Format (list N) := USeq.format (int_uniform U8).
Definition words : RSeq.Fmt N := RSeq.mkFmt (int_uniform U16) U32 14 5 false.
(** Strings in a page of 18 bytes. *)
Definition strings : VSeq.Fmt (list N) := VSeq.mkFmt text U8 U16 18 16 false.
(** A pair of strings, and a page of such pairs. *)
Definition pair : KV.Fmt (list N) (list N) := KV.mkFmt U16 text text.
Definition pairs : VSeq.Fmt (list N * list N) := VSeq.mkFmt (KV.format pair) U8 U16 40 38 false.

Lemma int_valid t : valid (ufmt (int_uniform t)).
Proof. by vm_compute. Qed.
Lemma text_honours : honours text.
Proof. apply useq_honours; [apply int_uniform_honours|apply int_valid]. Qed.
Lemma words_valid : RSeq.seq_valid words.
Proof. split_and!; [apply int_valid|vm_compute; discriminate|by vm_compute]. Qed.
Lemma strings_valid : VSeq.seq_valid strings.
Proof.
  split_and!; [apply int_valid| | |]; [|by vm_compute..].
  split_and!; [apply int_valid|vm_compute; discriminate|by vm_compute].
Qed.
Lemma pair_valid : valid (KV.format pair).
Proof. split_and!; [vm_compute; discriminate|apply int_valid..]. Qed.
Lemma pair_honours : honours (KV.format pair).
Proof. apply kv_honours; [apply pair_valid|apply text_honours..]. Qed.
Lemma pairs_valid : VSeq.seq_valid pairs.
Proof.
  split_and!; [apply pair_valid| | |]; [|by vm_compute..].
  split_and!; [apply int_valid|vm_compute; discriminate|by vm_compute].
Qed.

Definition buffer (n : nat) : bytes := replicate n xff.
Lemma buffer_fits n a b : (a ≤ b)%N → (b ≤ N.of_nat n)%N → (N.of_nat n ≤ isize_max)%N → fits (mkSlice a b) (buffer n).
Proof. intros. unfold fits, blen, buffer. rewrite replicate_length. cbn [sl_start sl_end]. lia. Qed.

(** As written: eight bytes of ones for a length. *)
Definition wide : RSeq.Fmt N := RSeq.mkFmt (int_uniform U64) U64 16 1 false.
Lemma wide_valid : RSeq.seq_valid wide.
Proof. split_and!; [apply int_valid|vm_compute; discriminate|by vm_compute]. Qed.
Lemma wide_panics : RSeq.try_parse wide (mkSlice 0 16) (buffer 16) = None.
Proof. by vm_compute. Qed.
Definition wide_strings : VSeq.Fmt (list N) := VSeq.mkFmt text U64 U64 16 1 false.
Lemma wide_strings_valid : VSeq.seq_valid wide_strings.
Proof.
  split_and!; [apply int_valid| | |]; [|by vm_compute..].
  split_and!; [apply int_valid|vm_compute; discriminate|by vm_compute].
Qed.
Lemma wide_strings_panics : VSeq.exec_well_formed wide_strings (mkSlice 0 16) (buffer 16) = None.
Proof. by vm_compute. Qed.

Lemma small_marshallable (l : list N) : Forall (λ v, v ≤ 255)%N l → (blen l ≤ 1000)%N → marshallable text l.
Proof.
  intros H Hl. split.
  - eapply stdpp.list.Forall_impl; [exact H|]. intros v Hv. split; [exact Hv|done].
  - cbn [usz int_uniform]. unfold isz. cbn. pose proof isize_usize. unfold usize_max. lia.
Qed.
Ltac small := apply small_marshallable; [repeat constructor; vm_compute; discriminate|vm_compute; discriminate].

Definition word_ops : list (PageOp N) :=
  [Append 7; Append 300; Put 0 8; Put 4 9; Append 65535; Truncate 2; Append 1; Append 2; Append 3; Append 4]%N.
Lemma word_ops_ok : Forall (marshallable (ufmt (RSeq.eltf words))) (word_ops ≫= op_values).
Proof. repeat constructor; vm_compute; discriminate. Qed.
Lemma word_ops_result : foldl (list_op words) [] word_ops = [8; 300; 1; 2; 3]%N.
Proof. by vm_compute. Qed.
Definition string_ops : list (list N) := [[1;2;3]; [4]; [1;2;3;4;5;6;7;8;9;10]; []; [9;9;9;9;9;9]]%N.
Lemma string_ops_ok : Forall (marshallable (VSeq.eltf strings)) string_ops.
Proof. repeat (apply stdpp.list.Forall_cons; split; [small|]). done. Qed.
Lemma string_ops_result : foldl (keep strings) [] string_ops = [[1;2;3]; [4]; []; [9;9;9;9;9;9]]%N.
Proof. by vm_compute. Qed.
