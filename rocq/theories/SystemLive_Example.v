(** Concrete runs that leave a request and a sync unanswered (C57). *)
From Verif Require Import Spec_Model Spec_Spec Disk_Model System_Model System_Spec Spec_Proof AsyncDisk_Proof System_Proof
  System_Example SystemLive_Spec.

Module SystemLiveEx.
  Import SystemEx.
  Fixpoint pairs (h : list (Key * Value)) : list N :=
    match h with [] => [] | (k, v) :: h => k :: v :: pairs h end.
  Lemma decode_store h m :
    MapSpec.mkState (decode_pairs (pairs h) m) =
    fold_left (λ st kv, MapSpec.mkState (kmmap_insert (MapSpec.kmmap st) kv.1 (Define kv.2))) h (MapSpec.mkState m).
  Proof. revert m. induction h as [|[k v] h IH]; intros m; [done|]. cbn. apply IH. Qed.
  (** The example's format holds every store. *)
  Lemma fits ls : format_fits ls.
  Proof.
    intros h v _. exists (N.of_nat v :: pairs h). cbn. rewrite Nat2N.id. f_equal. apply decode_store.
  Qed.
  (** Recover, put 7 at key 1; then a client asks for a
      sync and another for a read. *)
  Definition put1 : Request := mkReq (PutInput 1 7) 0.
  Definition get1 : Request := mkReq (QueryInput 1) 6.
  Definition trace : list SystemModel.Label :=
    read_sb 10 [] ++ operation put1 (mkReply PutOutput 0) ++
    [SystemModel.AcceptSyncRequest 5] ++ [SystemModel.AcceptRequest get1].
  Lemma waits_get : waiting_request trace get1.
  Proof.
    exists 7, (SystemModel.AcceptRequest get1). split_and!; [done|done|]. intros m l' Hm Hl.
    apply lookup_lt_Some in Hl. cbn in Hl. lia.
  Qed.
  Lemma waits_sync : waiting_sync trace 5%N.
  Proof.
    exists 6, (SystemModel.AcceptSyncRequest 5%N). split_and!; [done|done|]. intros m l' Hm Hl.
    assert (m = 7) as ->. { apply lookup_lt_Some in Hl. cbn in Hl. lia. }
    cbn in Hl. injection Hl as <-. by intros [?|?].
  Qed.
  Lemma session : ∃ s, run (SystemModel.next_fixed Concrete.model_fixed) (fresh_system disk0) trace s.
  Proof.
    eexists. unfold trace, fresh_system. pose proof sb_wf as Hwf.
    eapply run_app. { by eapply recover. }
    eapply run_app.
    { eapply (operate Hwf _ (mkFS 0 [MapSpec.my_init; m7])); try done.
      - cbn [req_id]. multiset_solver.
      - cbn. lia.
      - right; left. by exists 1%N, 7%N. }
    eapply run_app; eapply run_one.
    - do 3 right; left. exists 5%N. split_and!; [done| |reflexivity]. unfold SystemModel.fresh_id. cbn [SystemModel.id_history req_id put1 get1]. multiset_solver.
    - left. exists get1. split_and!; [done| |reflexivity]. unfold SystemModel.fresh_id. cbn [SystemModel.id_history req_id put1 get1]. multiset_solver.
  Qed.
  Lemma written_session : ∃ s, run (SystemModel.next Concrete.model) (fresh_system disk0) trace s.
  Proof. destruct session as [s Hs]. exists s. by apply to_written. Qed.
End SystemLiveEx.
