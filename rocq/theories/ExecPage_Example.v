(** An encoding in pages of six bytes: it carries the example of [Exec_Example],
    and by C25 loses other executions. *)
From Verif Require Import Spec_Model Spec_Spec Spec_Proof AsyncDisk_Proof Exec_Model Exec_Spec Exec_Proof Exec_Example ExecPage_Proof.
From stdpp Require Import list.

(** Lists of at most [n] numbers below 256. *)
Fixpoint byte_lists (n : nat) : list (list N) :=
  match n with
  | O => [[]]
  | S n => [] :: (x ← N.of_nat <$> seq 0 256; cons x <$> byte_lists n)
  end.
Lemma byte_lists_in n l : length l ≤ n → Forall (λ x, (x < 256)%N) l → l ∈ byte_lists n.
Proof.
  revert l. induction n as [|n IH]; intros [|x l] Hl Hf; cbn [length] in Hl; try lia; cbn [byte_lists]; [left|left|].
  right. apply elem_of_list_bind. exists x. split.
  - apply elem_of_list_fmap. exists l. split; [done|]. apply IH; [lia|by apply Forall_inv_tail in Hf].
  - apply Forall_inv in Hf. cbv beta in Hf. apply elem_of_list_fmap. exists (N.to_nat x).
    split; [by rewrite N2Nat.id|]. apply elem_of_seq. lia.
Qed.

(** Two bytes per put; [255; 255; 255] stands for a journal that does not fit. *)
Definition enc_put (km : KeyedMessage) : list N :=
  match km_message km with Define v => [km_key km; v] | Update d => [256%N] end.
Fixpoint dec_puts (l : list N) : option (list KeyedMessage) :=
  match l with
  | [] => Some []
  | k :: v :: l => cons (mkKM k (Define v)) <$> dec_puts l
  | _ => None
  end.
Definition six_bytes (l : list N) : bool := bool_decide (length l ≤ 6 ∧ Forall (λ x, (x < 256)%N) l).
Definition page_codec : Codec := {|
  marshall j := let l := concat (map enc_put (j_history j)) in
    if six_bytes l && bool_decide (j_start j = 0) then l else [255; 255; 255]%N;
  unmarshall_journal l := (λ h, mkJournal h 0) <$> dec_puts l |}.
Lemma page_codec_small j : marshall (Codec := page_codec) j ∈ byte_lists 6.
Proof.
  cbn [marshall page_codec]. unfold six_bytes. destruct (bool_decide_reflect (length (concat (map enc_put (j_history j))) ≤ 6 ∧
      Forall (λ x, (x < 256)%N) (concat (map enc_put (j_history j))))) as [[Hl Hf]|]; cbn [andb].
  - destruct (bool_decide _); [by apply byte_lists_in|]. apply byte_lists_in; [cbn; lia|repeat constructor].
  - apply byte_lists_in; [cbn; lia|repeat constructor].
Qed.
Lemma page_codec_fits k v : codec_fits (H := page_codec) (story k v).
Proof.
  intros h Hh. unfold story, puts_taken in Hh. cbn in Hh.
  apply sublist_cons_r in Hh as [->%sublist_nil_r|(h'&->&->%sublist_nil_r)]; reflexivity.
Qed.
Definition page_formatted : Exec.State :=
  Exec.mkState Exec.Starting 0%N
    (AsyncDisk.mkState ∅ ∅ {[superblock_addr := marshall (Codec := page_codec) journal_empty]}).
Lemma page_formatted_init : Exec.init (H := page_codec) page_formatted.
Proof. eexists. split; [done|]. by rewrite lookup_singleton. Qed.
Lemma page_story k : ∃ s, run (Exec.next (H0 := page_codec) (repaired k)) page_formatted (story k 7%N) s.
Proof.
  set (j := mkJournal [mkKM 1%N (Define 7%N)] 0).
  eexists. unfold story, page_formatted.
  eapply (run_app _ _ [Exec.Boot; Exec.DiskInternal; Exec.Recovered]).
  { apply (start_up (HC := page_codec) (repaired k) _ _ journal_empty eq_refl example_wf). apply lookup_singleton. }
  eapply (run_app _ _ [_]); [by apply (serve_one (HC := page_codec) (repaired k) impl_new 1%N _ (XPut 1%N 7%N) (mkImpl j [] []))|].
  eapply (run_app _ _ [_]).
  { by apply (serve_one (HC := page_codec) (repaired k) (mkImpl j [] []) (1 + 1)%N _ (XQuery 1%N) (mkImpl j [] [])). }
  eapply (run_app _ _ [_; _; _]); [apply (sync_one (HC := page_codec) (repaired k) j); exact example_wf|].
  eapply (run_app _ _ [_]); [apply (fail_put (HC := page_codec))|].
  eapply (run_app _ _ [Exec.Boot; Exec.DiskInternal; Exec.Recovered]).
  { apply (start_up (HC := page_codec) (repaired k) _ _ j eq_refl example_wf). by rewrite lookup_insert. }
  cbv zeta. replace (if k then 7%N else 1%N) with ((if continues (repaired k) then 6%N else 0%N) + 1)%N by by destruct k.
  by apply (serve_one (HC := page_codec) (repaired k) _ _ _ (XQuery 1%N) (mkImpl j [] [])).
Qed.
