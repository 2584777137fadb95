(** The executable server can always start up and take the next request (C57). *)
From Verif Require Import Spec_Model Spec_Spec Spec_Proof Disk_Model AsyncDisk_Proof System_Model System_Proof
  Exec_Model Exec_Spec Exec_Proof SystemLive_Spec.

Section live.
  Context `{HG : Geometry} `{HC : Codec} (c : Config).
  Definition outstanding (d : AsyncDisk.State) (id : ID) : Prop :=
    is_Some (AsyncDisk.requests d !! id) ∨ is_Some (AsyncDisk.responses d !! id).
  (** Every id in transit is an old one, and a server that recovers has asked. *)
  Definition asked (s : Exec.State) : Prop :=
    (∀ id, outstanding (Exec.disk s) id → (id < Exec.next_id s)%N) ∧
    (Exec.proc s = Exec.Recovering → ∃ id, outstanding (Exec.disk s) id).

  Lemma outstanding_ops d n dr resps id :
    outstanding (AsyncDisk.mkState (Exec.numbered n dr ∪ AsyncDisk.requests d) (AsyncDisk.responses d ∖ resps)
                   (AsyncDisk.content d)) id →
    outstanding d id ∨ (id = n ∧ dr ≠ None).
  Proof.
    intros [[r Hr]|[r Hr]]; cbn [AsyncDisk.requests AsyncDisk.responses] in Hr.
    - apply lookup_union_Some_raw in Hr as [Hr|[_ Hr]].
      + destruct dr; [|done]. cbn in Hr. apply lookup_singleton_Some in Hr as [-> _]. by right.
      + left; left. by exists r.
    - apply lookup_difference_Some in Hr as [Hr _]. left; right. by exists r.
  Qed.
  Lemma outstanding_internal d d' id : AsyncDisk.next d d' AsyncDisk.Internal → outstanding d' id ↔ outstanding d id.
  Proof.
    unfold outstanding.
    intros [(?&?&?&_)|[(i&_&from&data&Hid&Hwf&Hdata&->)|[(i&_&to&data&Hid&Hwf&->)|[? _]]]]; try done;
      cbn [AsyncDisk.requests AsyncDisk.responses];
      (destruct (decide (id = i)) as [->|Hne];
        [rewrite Hid, lookup_insert; split; intros _; [by left|by right]
        |by rewrite lookup_delete_ne, lookup_insert_ne by done]).
  Qed.
  Lemma asked_crash n d : asked (Exec.after_crash c n d).
  Proof. split; [|done]. intros id [[r Hr]|[r Hr]]; cbn in Hr; by rewrite lookup_empty in Hr. Qed.
  Lemma asked_step s s' l : asked s → Exec.next c s s' l → asked s'.
  Proof.
    intros [Hlt Hrec] [Hs|[Hs|[Hs|[Hs|[Hs|[Hs|[Hs|Hs]]]]]]].
    - destruct Hs as (->&Hproc&d&Hd&->). apply disk_ops_inv in Hd as (_&_&_&->). split.
      + intros id [Ho|[-> _]]%outstanding_ops; cbn; [apply Hlt in Ho|]; lia.
      + intros _. exists (Exec.next_id s). left. eexists. cbn. apply lookup_union_Some_l, lookup_singleton.
    - destruct Hs as (Hproc&id&resp&d&Hd&Hm). apply disk_ops_inv in Hd as (_&_&_&->).
      assert (Ho' : ∀ id0, outstanding (AsyncDisk.mkState (∅ ∪ AsyncDisk.requests (Exec.disk s))
        (AsyncDisk.responses (Exec.disk s) ∖ {[id := resp]}) (AsyncDisk.content (Exec.disk s))) id0 → (id0 < Exec.next_id s)%N).
      { intros id0. change ∅ with (Exec.numbered 0%N None) at 1. intros [Ho|[_ Ho]]%outstanding_ops; [by apply Hlt|done]. }
      destruct (recover_response c impl_new resp); destruct Hm as [-> ->]; by split.
    - destruct Hs as (im&input&im'&outs&dr&d'&Hproc&Hhandle&Hd&->&->).
      apply disk_ops_inv in Hd as (_&_&_&->). split; [|done].
      intros id [Ho|[-> Hn]]%outstanding_ops; cbn; [apply Hlt in Ho; lia|]. destruct dr; [cbn; lia|done].
    - destruct Hs as (im&input&im'&outs&dr&n&Hproc&Hhandle&->&->). apply asked_crash.
    - destruct Hs as (im&id&resp&im'&outs&dr&d'&Hproc&Hhandle&Hd&->&->).
      apply disk_ops_inv in Hd as (_&_&_&->). split; [|done].
      intros id0 [Ho|[-> Hn]]%outstanding_ops; cbn; [apply Hlt in Ho; lia|]. destruct dr; [cbn; lia|done].
    - destruct Hs as (im&id&resp&im'&outs&dr&n&Hproc&Hhandle&_&->&->). apply asked_crash.
    - destruct Hs as (->&d&Hd&->). unfold asked. cbn [Exec.disk Exec.proc Exec.next_id]. split.
      + intros id Ho. apply Hlt. by rewrite <- (outstanding_internal _ _ _ Hd).
      + intros Hp. destruct (Hrec Hp) as [id Ho]. exists id. by rewrite (outstanding_internal _ _ _ Hd).
    - destruct Hs as (->&->). apply asked_crash.
  Qed.
  Lemma asked_run s0 ls s : Exec.init s0 → run (Exec.next c) s0 ls s → asked s.
  Proof.
    intros Hi Hr. induction Hr as [s|s ls s1 l s2 Hr IH Hn].
    - destruct Hi as (cc&->&_). split; [|done]. intros id [[r Hx]|[r Hx]]; cbn in Hx; by rewrite lookup_empty in Hx.
    - by eapply asked_step; [apply IH|].
  Qed.

  (** ** Starting up *)
  Lemma finish_recovery (ls : list Exec.Label) s :
    codec_fits ls → calm (puts_taken ls) s → Exec.proc s = Exec.Recovering →
    (∃ id, is_Some (AsyncDisk.responses (Exec.disk s) !! id)) →
    ∃ s' im, Exec.next c s s' Exec.Recovered ∧ Exec.proc s' = Exec.Ready im.
  Proof.
    intros Hf [_ Hc] Hp [id [r Hr]]. rewrite Hp in Hc. destruct Hc as [_ Hc]. destruct (Hc id r Hr) as (j&->&Hj).
    eexists _, (if restores c then mkImpl j [] [] else impl_new). split.
    - right; left. split; [done|]. exists id, (ReadResp (marshall j)). eexists. split.
      + eexists _, _. split_and!; [done|set_solver|set_solver|by apply map_singleton_subseteq_l|reflexivity].
      + cbn [recover_response]. rewrite (within_fits _ _ Hf Hj). split; [done|]. reflexivity.
    - cbn. by destruct (restores c).
  Qed.
  Lemma do_read (ls : list Exec.Label) s :
    addr_wf superblock_addr → calm (puts_taken ls) s → Exec.proc s = Exec.Recovering →
    (∃ id, is_Some (AsyncDisk.requests (Exec.disk s) !! id)) →
    ∃ s', Exec.next c s s' Exec.DiskInternal ∧ Exec.proc s' = Exec.Recovering ∧
      ∃ id, is_Some (AsyncDisk.responses (Exec.disk s') !! id).
  Proof.
    intros Hwf [Hpg Hc] Hp [id [r Hr]]. rewrite Hp in Hc. destruct Hc as [Hc _]. pose proof (Hc id r Hr) as ->.
    destruct Hpg as [(j&Hj&_) _]. eexists. split_and!.
    - do 6 right; left. split; [done|]. eexists. split; [|reflexivity]. right; left. exists id. split; [done|].
      exists superblock_addr, (marshall j). split_and!; [done|done|intros d; rewrite Hj; by intros [= ->]|reflexivity].
    - cbn. done.
    - exists id. cbn. rewrite lookup_insert. done.
  Qed.
  Lemma boot s : Exec.proc s = Exec.Starting → asked s →
    ∃ s', Exec.next c s s' Exec.Boot ∧ Exec.proc s' = Exec.Recovering ∧
      ∃ id, is_Some (AsyncDisk.requests (Exec.disk s') !! id).
  Proof.
    intros Hp [Hlt _]. eexists. split_and!.
    - left. split_and!; [done|done|]. eexists. split; [|reflexivity].
      eexists _, _. split_and!; [done| | |apply map_empty_subseteq|reflexivity].
      + cbn. rewrite dom_singleton_L. apply disjoint_singleton_l. intros Hin%elem_of_dom.
        assert (Exec.next_id s < Exec.next_id s)%N by (apply Hlt; by left). lia.
      + cbn. rewrite dom_singleton_L. apply disjoint_singleton_l. intros Hin%elem_of_dom.
        assert (Exec.next_id s < Exec.next_id s)%N by (apply Hlt; by right). lia.
    - done.
    - exists (Exec.next_id s). eexists. cbn. apply lookup_union_Some_l, lookup_singleton.
  Qed.
  Lemma takes_requests s im input : Exec.proc s = Exec.Ready im → asked s →
    ∃ outs s', Exec.next c s s' (Exec.Recv (mkXReq input (Exec.next_id s)) outs).
  Proof.
    intros Hp [Hlt _].
    destruct (handle_user_request c im (mkXReq input (Exec.next_id s))) as [[im' outs] dr] eqn:Hh.
    eexists outs, _. do 2 right; left. exists im, input, im', outs, dr. eexists. split; [exact Hp|]. cbn zeta. split_and!; [exact Hh| |reflexivity|reflexivity].
    eexists _, _. split_and!; [done| | |apply map_empty_subseteq|reflexivity].
    all: destruct dr as [r|]; cbn; [|set_solver].
    all: rewrite dom_singleton_L; apply disjoint_singleton_l; intros Hin%elem_of_dom.
    - assert (Exec.next_id s + 1 < Exec.next_id s)%N by (apply Hlt; by left). lia.
    - assert (Exec.next_id s + 1 < Exec.next_id s)%N by (apply Hlt; by right). lia.
  Qed.
  Lemma fits_startup ls l : codec_fits ls → startup l → codec_fits (ls ++ [l]).
  Proof. intros Hf Hl. unfold codec_fits in *. rewrite taken_app. destruct l; try done; cbn; by rewrite app_nil_r. Qed.

  Theorem server_starts s0 ls s :
    codec_fits ls → addr_wf superblock_addr → Exec.init s0 → run (Exec.next c) s0 ls s →
    ∃ ls' s' im, run (Exec.next c) s ls' s' ∧ Forall startup ls' ∧ Exec.proc s' = Exec.Ready im ∧
      ∀ input, ∃ outs s'', Exec.next c s' s'' (Exec.Recv (mkXReq input (Exec.next_id s')) outs).
  Proof.
    intros Hf Hwf Hi Hr.
    assert (Hready : ∀ ls0 s1 im, run (Exec.next c) s0 ls0 s1 → Exec.proc s1 = Exec.Ready im →
      ∀ input, ∃ outs s'', Exec.next c s1 s'' (Exec.Recv (mkXReq input (Exec.next_id s1)) outs)).
    { intros ls0 s1 im Hr1 Hp1 input. eapply takes_requests; [exact Hp1|]. exact (asked_run _ _ _ Hi Hr1). }
    assert (Hresp : ∀ ls0 s1, codec_fits ls0 → run (Exec.next c) s0 ls0 s1 → Exec.proc s1 = Exec.Recovering →
      (∃ id, is_Some (AsyncDisk.responses (Exec.disk s1) !! id)) →
      ∃ ls' s' im, run (Exec.next c) s1 ls' s' ∧ Forall startup ls' ∧ Exec.proc s' = Exec.Ready im ∧
        ∀ input, ∃ outs s'', Exec.next c s' s'' (Exec.Recv (mkXReq input (Exec.next_id s')) outs)).
    { intros ls0 s1 Hf1 Hr1 Hp1 He. destruct (calm_run _ _ _ _ Hf1 Hi Hr1) as [Hc1 _].
      destruct (finish_recovery _ _ Hf1 Hc1 Hp1 He) as (s2&im&Hn&Hp2).
      exists [Exec.Recovered], s2, im. split_and!; [by apply run_one|by repeat constructor|done|].
      eapply Hready; [|exact Hp2]. by eapply run_snoc. }
    assert (Hreq : ∀ ls0 s1, codec_fits ls0 → run (Exec.next c) s0 ls0 s1 → Exec.proc s1 = Exec.Recovering →
      (∃ id, is_Some (AsyncDisk.requests (Exec.disk s1) !! id)) →
      ∃ ls' s' im, run (Exec.next c) s1 ls' s' ∧ Forall startup ls' ∧ Exec.proc s' = Exec.Ready im ∧
        ∀ input, ∃ outs s'', Exec.next c s' s'' (Exec.Recv (mkXReq input (Exec.next_id s')) outs)).
    { intros ls0 s1 Hf1 Hr1 Hp1 He. destruct (calm_run _ _ _ _ Hf1 Hi Hr1) as [Hc1 _].
      destruct (do_read _ _ Hwf Hc1 Hp1 He) as (s2&Hn&Hp2&He2).
      destruct (Hresp (ls0 ++ [Exec.DiskInternal]) s2) as (ls'&s'&im&Hr'&Hst&Hp'&Hin);
        [by apply fits_startup|by eapply run_snoc|done|done|].
      exists (Exec.DiskInternal :: ls'), s', im. split_and!; [by eapply run_cons|by constructor|done|done]. }
    pose proof (asked_run _ _ _ Hi Hr) as Ha. destruct (calm_run _ _ _ _ Hf Hi Hr) as [Hc _].
    destruct (Exec.proc s) as [| |im|] eqn:Hp.
    - destruct (boot _ Hp Ha) as (s1&Hn&Hp1&He).
      destruct (Hreq (ls ++ [Exec.Boot]) s1) as (ls'&s'&im&Hr'&Hst&Hp'&Hin);
        [by apply fits_startup|by eapply run_snoc|done|done|].
      exists (Exec.Boot :: ls'), s', im. split_and!; [by eapply run_cons|by constructor|done|done].
    - destruct (proj2 Ha Hp) as [id [Ho|Ho]]; [eapply Hreq|eapply Hresp]; eauto.
    - exists [], s, im. split_and!; [constructor|done|done|]. eapply Hready; eauto.
    - destruct Hc as [_ Hc]. by rewrite Hp in Hc.
  Qed.
End live.
