(** * C28 to C31: marshalling *)
From Coq Require Import Strings.Byte.
From Verif Require Import MarshalClient_Spec Marshal_Proof MarshalSeq_Proof MarshalResizable_Proof
  MarshalVariable_Proof MarshalKV_Proof MarshalClient_Proof Marshal_Example.
From stdpp Require Import prelude list numbers.

(** ** C28: integers *)

(** Encoding then decoding returns the number, the encoding has the width of the type
    and is the number in base 256, least digit first. *)
Theorem C28_encode_then_decode t x : (x ≤ imax t)%N →
  from_le (to_le t x) = x ∧ length (to_le t x) = iwidth t ∧ digits (to_le t x) x.
Proof. exact (λ Hx, conj (from_to_le t x Hx) (conj (to_le_length t x) (le_digits (iwidth t) x))). Qed.
Print Assumptions C28_encode_then_decode.
Example C28_encode_then_decode_example :
  (258 ≤ imax U32)%N ∧ to_le U32 258 = [x02; x01; x00; x00] ∧
  (imax U64 = 2 ^ 64 - 1 ∧ imax U32 = 2 ^ 32 - 1 ∧ imax U16 = 2 ^ 16 - 1 ∧ imax U8 = 2 ^ 8 - 1)%N.
Proof. by vm_compute. Qed.

(** Decoding then encoding returns the bytes. *)
Theorem C28_decode_then_encode t bs : length bs = iwidth t →
  (from_le bs ≤ imax t)%N ∧ to_le t (from_le bs) = bs.
Proof. exact (λ H, conj (from_le_max t bs H) (to_from_le t bs H)). Qed.
Print Assumptions C28_decode_then_encode.
Example C28_decode_then_encode_example :
  length [xff; x01] = iwidth U16 ∧ from_le [xff; x01] = 511%N.
Proof. by vm_compute. Qed.

(** The executable format of each width writes just those bytes and reads them back; no
    operation panics, and none looks at or changes a byte outside its range. *)
Theorem C28_format_is_reliable t :
  honours (int_format t) ∧ reliable (int_format t) ∧ honours_uniform (int_uniform t) ∧
  ∀ x d p, (x ≤ imax t)%N → (p + isz t ≤ blen d)%N → (blen d ≤ isize_max)%N →
    ∃ d', exec_marshall (int_format t) x d p = Some (d', (p + isz t)%N) ∧
      sub d' p (p + isz t) = to_le t x.
Proof. exact (conj (int_honours t) (conj (honours_reliable _ (int_honours t)) (conj (int_uniform_honours t) (int_bytes t)))). Qed.
Print Assumptions C28_format_is_reliable.
Example C28_format_is_reliable_example :
  int_exec_marshall U16 511 (buffer 4) 1 = Some ([xff; xff; x01; xff], 3%N).
Proof. by vm_compute. Qed.

(** ** C29: elements of one size *)

(** A sequence that fills its slice. *)
Theorem C29_sequences_survive {V} (f : Uniform V) :
  honours_uniform f → valid (ufmt f) → honours (USeq.format f) ∧ reliable (USeq.format f).
Proof. exact (λ Hf Hv, conj (useq_honours f Hf Hv) (honours_reliable _ (useq_honours f Hf Hv))). Qed.
Print Assumptions C29_sequences_survive.
Example C29_sequences_survive_example :
  honours_uniform (int_uniform U16) ∧ marshallable (USeq.format (int_uniform U16)) [1; 2; 500]%N.
Proof. split; [apply int_uniform_honours|]. split; [repeat constructor; vm_compute; discriminate|by vm_compute]. Qed.

(** Setting element [i] in place changes that element and no other, and no byte
    outside it. *)
Theorem C29_set_in_place {V} (f : Uniform V) s d vs i v :
  honours_uniform f → valid (ufmt f) → fits s d →
  USeq.try_parse f s d = Some (Some vs) → marshallable (ufmt f) v →
  USeq.exec_settable f s i v = Some true →
  ∃ d', USeq.exec_set f s d i v = Some d' ∧
    changed_only_in d d' (sl_start s + i * usz f) (sl_start s + i * usz f + usz f) ∧
    (sl_start s + i * usz f + usz f ≤ sl_end s)%N ∧
    USeq.try_parse f s d' = Some (Some (<[N.to_nat i := v]> vs)).
Proof. exact (λ Hf Hv, u_view_set f Hf Hv s d vs i v). Qed.
Print Assumptions C29_set_in_place.
Example C29_set_in_place_example :
  fits (mkSlice 1 8) (buffer 9) ∧ USeq.try_parse (int_uniform U16) (mkSlice 1 8) (buffer 9) = Some (Some [65535; 65535; 65535]%N)
  ∧ USeq.exec_settable (int_uniform U16) (mkSlice 1 8) 1 7%N = Some true.
Proof. split; [apply buffer_fits; vm_compute; discriminate|by vm_compute]. Qed.

(** A sequence with a length field, in a page: reading back what was marshalled. *)
Theorem C29_pages_survive {V} (f : RSeq.Fmt V) :
  honours_uniform (RSeq.eltf f) → RSeq.seq_valid f → (RSeq.total_size f ≤ usize_max)%N →
  RSeq.checked f = true ∨ (elt_bytes (ufmt (RSeq.eltf f)) * imax (RSeq.lent f) ≤ isize_max)%N →
  honours (RSeq.format f) ∧ reliable (RSeq.format f).
Proof.
  exact (λ Hf Hv Ht Hc, conj (rseq_honours f Hf Hv Hc Ht) (honours_reliable _ (rseq_honours f Hf Hv Hc Ht))).
Qed.
Print Assumptions C29_pages_survive.
Example C29_pages_survive_example :
  honours_uniform (RSeq.eltf words) ∧ RSeq.seq_valid words ∧ (RSeq.total_size words ≤ usize_max)%N ∧
  (elt_bytes (ufmt (RSeq.eltf words)) * imax (RSeq.lent words) ≤ isize_max)%N ∧
  RSeq.checked words = false ∧ RSeq.new false (int_uniform U16) U32 14 = Some words.
Proof.
  split; [apply int_uniform_honours|]. split; [apply words_valid|]. split; [vm_compute; discriminate|].
  split; [vm_compute; discriminate|]. split; reflexivity.
Qed.

(** Whatever was in the buffer: after making an empty page and any sequence of appends,
    updates in place and truncations, each guarded by the library's own check, nothing has
    panicked, no byte outside the page has changed, and the page holds the list that the
    same operations make of the empty list. An append is taken if and only if there is
    room. *)
Theorem C29_page_history {V} (f : RSeq.Fmt V) s d os :
  honours_uniform (RSeq.eltf f) → RSeq.seq_valid f → fits s d →
  (RSeq.total_size f ≤ sl_end s - sl_start s)%N →
  Forall (marshallable (ufmt (RSeq.eltf f))) (os ≫= op_values) →
  let vs := foldl (list_op f) [] os in
  ∃ d0 d', RSeq.initialize f s d = Some d0 ∧ page_ops f s d0 os = Some d' ∧
    changed_only_in d d' (sl_start s) (sl_start s + RSeq.total_size f) ∧
    RSeq.exec_length f s d' = Some (blen vs) ∧
    (∀ i v, vs !! i = Some v →
       RSeq.exec_get_elt f s d' (N.of_nat i) = Some v ∧ RSeq.try_get_elt f s d' (N.of_nat i) = Some (Some v)) ∧
    (RSeq.checked f = true ∨ (elt_bytes (ufmt (RSeq.eltf f)) * imax (RSeq.lent f) ≤ isize_max)%N →
     RSeq.try_parse f s d' = Some (Some vs)).
Proof.
  exact (λ Hf Hv Hs HT Hm,
    match page_history f Hf Hv s d os Hs HT Hm with
    | ex_intro _ d0 (ex_intro _ d' (conj E0 (conj E (conj Hc (conj Hs' Hp))))) =>
        ex_intro _ d0 (ex_intro _ d' (conj E0 (conj E (conj Hc (page_read f Hf Hv s d' _ Hs' Hp)))))
    end).
Qed.
Print Assumptions C29_page_history.
Example C29_page_history_example :
  fits (mkSlice 3 20) (buffer 22) ∧ (RSeq.total_size words ≤ 20 - 3)%N ∧
  Forall (marshallable (ufmt (RSeq.eltf words))) (word_ops ≫= op_values) ∧
  foldl (list_op words) [] word_ops = [8; 300; 1; 2; 3]%N.
Proof.
  split; [apply buffer_fits; vm_compute; discriminate|]. split; [vm_compute; discriminate|].
  split; [apply word_ops_ok|apply word_ops_result].
Qed.

(** FINDING. As written, parsing a page whose length field is malformed panics instead of
    reporting that there is nothing to parse: the length is passed to
    [Vec::with_capacity] before it is checked. *)
Theorem C29_malformed_length_refuted :
  ∃ (f : RSeq.Fmt N) s d, honours_uniform (RSeq.eltf f) ∧ RSeq.seq_valid f ∧ RSeq.checked f = false ∧
    RSeq.new false (int_uniform U64) U64 16 = Some f ∧
    fits s d ∧ RSeq.try_parse f s d = None.
Proof.
  exact (ex_intro _ wide (ex_intro _ (mkSlice 0 16) (ex_intro _ (buffer 16)
    (conj (int_uniform_honours U64) (conj wide_valid (conj eq_refl (conj eq_refl
      (conj (buffer_fits 16 0 16 ltac:(vm_compute; discriminate) ltac:(vm_compute; discriminate)
               ltac:(vm_compute; discriminate)) wide_panics)))))))).
Qed.
Print Assumptions C29_malformed_length_refuted.

(** ** C30: elements of many sizes *)

(** Whatever was in the buffer: after making an empty page and offering elements one by
    one through the library's own check, nothing has panicked, no byte outside the page
    has changed, and the page holds, in order and unchanged, exactly the elements for
    which there was room. *)
Theorem C30_page_history {V} (f : VSeq.Fmt V) s d vs :
  VSeq.seq_valid f → honours (VSeq.eltf f) → fits s d →
  (VSeq.total f ≤ sl_end s - sl_start s)%N → Forall (marshallable (VSeq.eltf f)) vs →
  let kept := foldl (keep f) [] vs in
  ∃ d0 d', VSeq.initialize f s d = Some d0 ∧ offers f s d0 vs = Some d' ∧
    changed_only_in d d' (sl_start s) (sl_start s + VSeq.total f) ∧
    VSeq.exec_length f s d' = Some (blen kept) ∧
    (∀ i v, kept !! i = Some v → VSeq.exec_get_elt f s d' (N.of_nat i) = Some v) ∧
    (∀ i, VSeq.try_get_elt f s d' i = Some (kept !! N.to_nat i)).
Proof.
  exact (λ Hv Hf Hs HT Hm,
    match offers_history f Hv Hf s d vs Hs HT Hm with
    | ex_intro _ d0 (ex_intro _ d' (conj E0 (conj E (conj Hc (conj Hs' Hp))))) =>
        ex_intro _ d0 (ex_intro _ d' (conj E0 (conj E (conj Hc (v_holds_read f Hv Hf s d' _ Hs' Hp)))))
    end).
Qed.
Print Assumptions C30_page_history.
Example C30_page_history_example :
  VSeq.seq_valid strings ∧ honours (VSeq.eltf strings) ∧ fits (mkSlice 3 22) (buffer 25) ∧
  (VSeq.total strings ≤ 22 - 3)%N ∧ Forall (marshallable (VSeq.eltf strings)) string_ops ∧
  foldl (keep strings) [] string_ops = [[1;2;3]; [4]; []; [9;9;9;9;9;9]]%N ∧
  VSeq.new false text U8 U16 18 = Some strings.
Proof.
  split; [apply strings_valid|]. split; [apply text_honours|].
  split; [apply buffer_fits; vm_compute; discriminate|]. split; [vm_compute; discriminate|].
  split; [apply string_ops_ok|]. split; [apply string_ops_result|reflexivity].
Qed.

(** On any well-formed page, however it came about, the check and the append do not
    panic, and an append keeps every earlier element readable as before and makes the new
    one readable. *)
Theorem C30_append_keeps_elements {V} (f : VSeq.Fmt V) s d v :
  VSeq.seq_valid f → honours (VSeq.eltf f) → fits s d →
  VSeq.well_formed f (sl_i s d) → marshallable (VSeq.eltf f) v →
  ∃ b n, VSeq.exec_appendable f s d v = Some b ∧ VSeq.exec_length f s d = Some n ∧
    (b = true → ∃ d', VSeq.exec_append f s d v = Some d' ∧
       changed_only_in d d' (sl_start s) (sl_start s + VSeq.total f) ∧
       VSeq.well_formed f (sl_i s d') ∧ VSeq.exec_length f s d' = Some (n + 1)%N ∧
       VSeq.try_get_elt f s d' n = Some (Some v) ∧
       ∀ i, (i < n)%N → VSeq.try_get_elt f s d' i = VSeq.try_get_elt f s d i).
Proof. exact (λ Hv Hf, v_append_any f Hv Hf s d v). Qed.
Print Assumptions C30_append_keeps_elements.
Example C30_append_keeps_elements_example :
  ∃ d, VSeq.well_formed pairs (sl_i (mkSlice 1 41) d) ∧ VSeq.exec_appendable pairs (mkSlice 1 41) d ([1;2], [3])%N = Some true ∧
    VSeq.exec_length pairs (mkSlice 1 41) d = Some 1%N.
Proof.
  exists (default [] (d ← VSeq.initialize pairs (mkSlice 1 41) (buffer 41);
                      VSeq.exec_append pairs (mkSlice 1 41) d ([7], [8; 9])%N)).
  split; [|by vm_compute]. exists [35%N]. split; [by vm_compute|]. split_and!.
  - intros [|i] [|j] x y ? Hx Hy; cbn in Hx, Hy; try done. by simplify_eq.
  - intros x Hx. injection Hx as <-. vm_compute. discriminate.
  - intros x Hx. injection Hx as <-. vm_compute. discriminate.
Qed.

(** Reading an element of arbitrary bytes never panics. *)
Theorem C30_reading_never_panics {V} (f : VSeq.Fmt V) s d i :
  VSeq.seq_valid f → honours (VSeq.eltf f) → fits s d → ∃ o, VSeq.try_get_elt f s d i = Some o.
Proof. exact (λ Hv Hf Hs, ex_intro _ _ (v_try_get_elt f Hv Hf s d i Hs)). Qed.
Print Assumptions C30_reading_never_panics.
Example C30_reading_never_panics_example :
  VSeq.seq_valid pairs ∧ honours (VSeq.eltf pairs) ∧ fits (mkSlice 0 40) (buffer 40) ∧
  VSeq.try_get_elt pairs (mkSlice 0 40) (buffer 40) 5 = Some None.
Proof.
  split; [apply pairs_valid|]. split; [apply pair_honours|].
  split; [apply buffer_fits; vm_compute; discriminate|by vm_compute].
Qed.

(** The executable check of a page decides whether it is well formed, for a length field
    small enough. *)
Theorem C30_check_decides {V} (f : VSeq.Fmt V) s d :
  VSeq.seq_valid f → fits s d →
  VSeq.checked f = true ∨ (isz (VSeq.bdyt f) * imax (VSeq.lent f) ≤ isize_max)%N →
  ∃ b, VSeq.exec_well_formed f s d = Some b ∧ (b = true ↔ VSeq.well_formed f (sl_i s d)).
Proof. exact (λ Hv Hs Hc, v_exec_well_formed f Hv s d Hc Hs). Qed.
Print Assumptions C30_check_decides.
Example C30_check_decides_example :
  VSeq.seq_valid strings ∧ (isz (VSeq.bdyt strings) * imax (VSeq.lent strings) ≤ isize_max)%N ∧
  VSeq.exec_well_formed strings (mkSlice 0 18) (buffer 18) = Some false ∧
  VSeq.exec_well_formed strings (mkSlice 0 18) (replicate 18 x00) = Some true.
Proof. split; [apply strings_valid|]. split; [vm_compute; discriminate|by vm_compute]. Qed.

(** FINDING. As written, with a 64-bit length field, the check panics on a malformed page. *)
Theorem C30_check_panics_refuted :
  ∃ (f : VSeq.Fmt (list N)) s d, VSeq.seq_valid f ∧ honours (VSeq.eltf f) ∧ VSeq.checked f = false ∧
    fits s d ∧ VSeq.exec_well_formed f s d = None.
Proof.
  exact (ex_intro _ wide_strings (ex_intro _ (mkSlice 0 16) (ex_intro _ (buffer 16)
    (conj wide_strings_valid (conj text_honours (conj eq_refl
      (conj (buffer_fits 16 0 16 ltac:(vm_compute; discriminate) ltac:(vm_compute; discriminate)
               ltac:(vm_compute; discriminate)) wide_strings_panics))))))).
Qed.
Print Assumptions C30_check_panics_refuted.

(** ** C31: key/value pairs *)

(** Pairs round trip if their parts do. *)
Theorem C31_pairs_survive {K D} (f : KV.Fmt K D) :
  valid (KV.format f) → honours (KV.key_fmt f) → honours (KV.data_fmt f) →
  honours (KV.format f) ∧ reliable (KV.format f).
Proof. exact (λ Hv Hk Hd, conj (kv_honours f Hv Hk Hd) (honours_reliable _ (kv_honours f Hv Hk Hd))). Qed.
Print Assumptions C31_pairs_survive.
Example C31_pairs_survive_example :
  valid (KV.format pair) ∧ honours (KV.key_fmt pair) ∧ marshallable (KV.format pair) ([1;2;3], [4])%N ∧
  KV.marshall pair ([1;2;3], [4])%N (replicate 7 x00) 0 = Some ([x03; x00; x01; x02; x03; x04; x00], 6%N).
Proof.
  split; [apply pair_valid|]. split; [apply text_honours|]. split; [|by vm_compute].
  split_and!; [small|small|vm_compute; discriminate..].
Qed.

(** What is accepted is laid out as a pair: a length, a key of that length, and the rest a
    value, each accepted by its own format. Anything else is refused; nothing panics. *)
Theorem C31_malformed_is_refused {K D} (f : KV.Fmt K D) s d :
  valid (KV.format f) → honours (KV.key_fmt f) → honours (KV.data_fmt f) → fits s d →
  (∃ o, try_parse (KV.format f) s d = Some o) ∧
  ∀ k v, try_parse (KV.format f) s d = Some (Some (k, v)) ↔
    ∃ kb vb, sl_i s d = to_le (KV.lent f) (blen kb) ++ kb ++ vb ∧ (blen kb ≤ imax (KV.lent f))%N ∧
      spec_parse (KV.key_fmt f) kb = Some k ∧ spec_parse (KV.data_fmt f) vb = Some v.
Proof. exact (λ Hv Hk Hd Hs, kv_refuses f Hv Hk Hd s d Hs). Qed.
Print Assumptions C31_malformed_is_refused.
Example C31_malformed_is_refused_example :
  try_parse (KV.format pair) (mkSlice 0 3) [x02; x00; x01] = Some None ∧
  try_parse (KV.format pair) (mkSlice 0 4) [x01; x00; x07; x09] = Some (Some ([7], [9]))%N.
Proof. by vm_compute. Qed.
