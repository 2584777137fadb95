(** A concrete store that has a request to answer but has not replayed its journal
    yet, and one that was asked for a no-op (C51). *)
From Verif Require Import Spec_Model Spec_Spec Spec_Proof Abs_Model Abs_Spec Abs_Proof Coord_Proof Betree_Model
  Journal_Model Journal_Spec AllocJournal_Model AllocJournal_Example CrashJournal_Model CrashJournal_Spec
  CrashJournal_Proof CrashJournal_Facts CrashJournal_Example Store_Model Store_Spec Store_Proof Store_Boot Store_Example Store_Answer.

Local Existing Instance exg.
Definition ex_get := mkReq (QueryInput 5) 4%N.
Definition ex_noop := mkReq NoopInput 5%N.
Definition reload_trace : list CTAM.Label := store_trace ++ [CTAM.Noop; request ex_get].
(** The tree is loaded, the journal page with the third put is not replayed. *)
Lemma reload_example : ∃ s e, run (Store.next (J := journal_layer SharedPages)) ex_s0 reload_trace s ∧ Store.ephemeral s = Some e ∧
  ex_get ∈ requests (CoordSys.progress e) ∧ (∀ y, y ∈ replies (CoordSys.progress e) → reply_id y ≠ req_id ex_get) ∧
  ¬ ∃ rep s', Store.next s s' (CTAM.OperateOp (AsyncMap.ExecuteOp ex_get rep)).
Proof.
  destruct store_example as (H0&Hr&_).
  destruct (store_run (pages_ok SharedPages) (tree_ok PagedTree) _ _ _ H0 Hr) as (c0&c&Hc0&Hc&(Hj&Hm&He&Hsb)).
  destruct (cs_run _ _ _ Hc0 Hc) as [Hinv _].
  assert (CTJournal.ephemeral (CoordSys.journal c) = None ∧ CTMap.ephemeral (CoordSys.mapadt c) = None) as [Ej Em].
  { destruct c as [[jp je jf] [mp me mf] e sb]. unfold cs_inv in Hinv. simpl in *. subst e. by destruct Hinv as (?&?&?&?&_). }
  destruct (pages_boot SharedPages _ _ Hj Ej) as (nj&rs&Hl&_&_&_&Hq).
  assert (seq_end (CTJournal.persistent (CoordSys.journal c)) = 3) as E3.
  { destruct Hj as (Hi&(Hp&_)). pose proof (uni_valid _ _ Hi (or_introl eq_refl)) as Hv.
    destruct (linked_holds_end _ _ (proj1 (is_valid_decodable _ _ Hv)) Hp) as [_ ->]. by vm_compute. }
  rewrite E3 in Hq.
  set (ms := TreeMap.mkState (M := paged_layer) mfrozen (Some (mkBS (empty_memtable 2) (st_value mfrozen))) None).
  set (e := CoordSys.mkKnown AsyncMap.init_ephemeral_state ∅ 2).
  set (s1 := Store.mkState (J := journal_layer SharedPages) nj ms (Some e) false : ExStore).
  set (s2 := Store.mkState (J := journal_layer SharedPages) nj ms (Some (progress_asked e ex_get)) false : ExStore).
  assert (Hn : Store.next ex_crashed s1 CTAM.Noop).
  { left. exists nj, ms, 2. split; [done|]. split; [exact Hl|]. split; [|done].
    left. eexists 2, _. split_and!; try done. }
  exists s2, (progress_asked e ex_get). split.
  { eapply run_app; [exact Hr|]. eapply run_cons; [exact Hn|]. apply run_one. do 2 right; left. exists e, ex_get.
    split; [done|]. split; [done|]. split; [|done]. cbn. set_solver. }
  split; [done|]. split; [cbn; set_solver|]. split; [cbn; set_solver|].
  intros (rep&s3&Hx).
  destruct (jo_step shared_ok _ _ _ _ Hj Hl) as (cj1&_&Hj1).
  destruct (jo_step shared_ok _ _ _ _ Hj1 Hq) as (cj2&H2&_). destruct (end_lsn_inv _ _ _ H2) as (j&Ej1&Hj3).
  destruct Hx as [(?&?&?&?&_)|[(?&?&?&?&?&_)|[(?&?&?&?&_)|[(nj'&nm&e2&q&y&k'&x&Ee&El&E1&E2&E3'&E4&E5&Hxj&Hxm&->)|[(?&?&?&q&y&k'&x&_&El&E1&E2&_)|
      [(?&?&?&?&_)|[(?&?&?&?&_)|[(?&?&?&?&_)|[(?&?&?&?&?&_)|[(?&?&?&?&?&?&_)|[(?&_)|[(?&?&?&?&?&_)|[(?&?&?&?&?&?&_)|(?&?&?&_)]]]]]]]]]]]]]; try done.
  2:{ injection El as <- <-. done. }
  cbn in Ee. injection Ee as <-. destruct (jo_step shared_ok _ _ _ _ Hj1 Hxj) as (cj3&H3&_).
  destruct (end_lsn_inv _ _ _ H3) as (j'&Ej'&Hj'). cbn in Hj'. congruence.
Qed.
Lemma noop_example : ∃ s e, run (Store.next (J := journal_layer SharedPages)) ex_s0 [CTAM.Noop; request ex_noop] s ∧
  Store.ephemeral s = Some e ∧ ex_noop ∈ requests (CoordSys.progress e).
Proof.
  exists (ex_s (ex_j ce0 None ∅) (ex_m mb0 None) (progress_asked ex_e0 ex_noop) false), (progress_asked ex_e0 ex_noop).
  split; [|split; [done|cbn; set_solver]].
  apply (run_cons _ _ _ (ex_s (ex_j ce0 None ∅) (ex_m mb0 None) ex_e0 false)).
  { left. eexists (Unified.mkState _ _ _ _), (ex_m mb0 None), 0. split; [done|]. split; [|split; [|reflexivity]].
    - exists AllocCrash.LoadEphemeralFromPersistent. split; [done|]. exact us_load.
    - left. exists 0, mb0. by split_and!. }
  apply run_one. by apply ex_request.
Qed.
Lemma noop_stuck : ∃ (s : ExStore) ls e req, Store.init ex_s0 ∧ run Store.next ex_s0 ls s ∧ Store.ephemeral s = Some e ∧
  req ∈ requests (CoordSys.progress e) ∧ req_input req = NoopInput ∧
  ∀ ls' s' rep, run Store.next s ls' s' → CTAM.OperateOp (AsyncMap.ExecuteOp req rep) ∉ ls'.
Proof.
  destruct noop_example as (s&e&Hr&He&Hq). exists s, [CTAM.Noop; request ex_noop], e, ex_noop.
  split; [done|]. split; [exact Hr|]. split; [done|]. split; [done|]. split; [done|].
  intros ls' s' rep Hr' Hin. by destruct (no_noop _ _ _ _ _ Hr' Hin).
Qed.
