(** The server keeps everything in one page: whatever the encoding, if only
    finitely many pages exist it loses synced puts (C25). *)
From Verif Require Import Spec_Model Spec_Spec Spec_Proof AsyncDisk_Proof Exec_Model Exec_Spec Exec_Proof Exec_Example.
From stdpp Require Import list.

(** ** Two lists of bits in one page *)
Fixpoint all_bits (n : nat) : list (list bool) :=
  match n with O => [[]] | S n => ((cons true) <$> all_bits n) ++ ((cons false) <$> all_bits n) end.
Lemma all_bits_length n : length (all_bits n) = 2 ^ n.
Proof. induction n as [|n IH]; [done|]. cbn [all_bits]. rewrite app_length, !fmap_length, IH. cbn. lia. Qed.
Lemma all_bits_in n b : b ∈ all_bits n → length b = n.
Proof.
  revert b. induction n as [|n IH]; intros b; cbn [all_bits].
  - by intros ->%elem_of_list_singleton.
  - intros [(x&->&Hx)%elem_of_list_fmap|(x&->&Hx)%elem_of_list_fmap]%elem_of_app; cbn; f_equal; by apply IH.
Qed.
Lemma all_bits_NoDup n : base.NoDup (all_bits n).
Proof.
  induction n as [|n IH]; [apply NoDup_singleton|]. cbn [all_bits]. apply NoDup_app. split_and!.
  - apply NoDup_fmap_2; [|done]. by intros ?? [= ->].
  - intros b (x&->&_)%elem_of_list_fmap (y&[=]&_)%elem_of_list_fmap.
  - apply NoDup_fmap_2; [|done]. by intros ?? [= ->].
Qed.
Lemma collision {A B} `{EqDecision B} (f : A → B) (l : list A) (ps : list B) :
  base.NoDup l → (∀ x, f x ∈ ps) → length ps < length l → ∃ x y, x ∈ l ∧ y ∈ l ∧ x ≠ y ∧ f x = f y.
Proof.
  intros Hnd Hps Hlen. destruct (decide (base.NoDup (f <$> l))) as [Hf|Hf].
  - exfalso. assert (Hsub : f <$> l ⊆+ ps).
    { apply NoDup_submseteq; [done|]. intros y (x&->&_)%elem_of_list_fmap. apply Hps. }
    apply submseteq_length in Hsub. rewrite fmap_length in Hsub. lia.
  - clear Hlen Hps ps. induction l as [|x l IH]; [destruct Hf; constructor|].
    apply stdpp.list.NoDup_cons in Hnd as [Hx Hnd].
    destruct (decide (f x ∈ f <$> l)) as [(y&Hy&Hin)%elem_of_list_fmap|Hin].
    + exists x, y. split_and!; [by left|by right|by intros ->|done].
    + destruct IH as (x'&y'&?&?&?&?); [done| |].
      * intros Hn. apply Hf. cbn. apply stdpp.list.NoDup_cons. by split.
      * exists x', y'. split_and!; [by right|by right|done|done].
Qed.
Lemma bits_differ (b b' : list bool) : length b = length b' → b ≠ b' →
  ∃ i x x', b !! i = Some x ∧ b' !! i = Some x' ∧ x ≠ x'.
Proof.
  revert b'. induction b as [|y b IH]; intros [|y' b'] Hl Hne; try done.
  destruct (decide (y = y')) as [->|Hy].
  - destruct (IH b') as (i&x&x'&?&?&?); [cbn in Hl; lia|by intros ->|]. by exists (S i), x, x'.
  - by exists 0, y, y'.
Qed.

(** ** Putting the bits *)
Definition bit (x : bool) : Value := if x then 1%N else 0%N.
Fixpoint bit_ops (k : Key) (b : list bool) : list Input :=
  match b with [] => [] | x :: b => PutInput k (bit x) :: bit_ops (k + 1)%N b end.
Fixpoint put_bits (n : ID) (k : Key) (b : list bool) : list Exec.Label :=
  match b with
  | [] => []
  | x :: b => Exec.Recv (mkXReq (XPut k (bit x)) n) [mkXReply XPutOutput n] :: put_bits (n + 1)%N (k + 1)%N b
  end.
Lemma put_bits_length n k b : length (put_bits n k b) = length b.
Proof. revert n k. induction b as [|x b IH]; intros n k; [done|]. cbn. by rewrite IH. Qed.
Lemma put_bits_at n k b i e : put_bits n k b !! i = Some e → ∃ k v m outs, e = Exec.Recv (mkXReq (XPut k v) m) outs.
Proof.
  revert n k i. induction b as [|x b IH]; intros n k [|i] H; try done.
  - injection H as <-. by do 4 eexists.
  - exact (IH _ _ _ H).
Qed.
Lemma bit_ops_other k b k' : (k' < k)%N → ∀ log, last_write k' (log ++ bit_ops k b) = last_write k' log.
Proof.
  revert k. induction b as [|x b IH]; intros k Hk log; cbn; [by rewrite app_nil_r|].
  change (PutInput k (bit x) :: bit_ops (k + 1) b) with ([PutInput k (bit x)] ++ bit_ops (k + 1) b).
  rewrite app_assoc, IH by lia. rewrite last_write_snoc. rewrite decide_False by lia. done.
Qed.
Lemma bit_ops_read k b i x log : b !! i = Some x → last_write (k + N.of_nat i)%N (log ++ bit_ops k b) = bit x.
Proof.
  revert k i log. induction b as [|y b IH]; intros k [|i] log Hi; try done; cbn [bit_ops];
    change (PutInput k (bit y) :: bit_ops (k + 1) b) with ([PutInput k (bit y)] ++ bit_ops (k + 1) b); rewrite app_assoc.
  - injection Hi as ->. rewrite bit_ops_other by lia. rewrite last_write_snoc. rewrite decide_True by lia. done.
  - replace (k + N.of_nat (S i))%N with (k + 1 + N.of_nat i)%N by lia. by apply IH.
Qed.
Lemma put_bits_taken n k b : puts_taken (put_bits n k b) = puts (bit_ops k b).
Proof. revert n k. induction b as [|x b IH]; intros n k; [done|]. cbn. f_equal. apply IH. Qed.
Lemma bit_ops_small k b m : m ∈ puts (bit_ops k b) →
  (km_key m < k + N.of_nat (length b))%N ∧ (km_message m = Define 0%N ∨ km_message m = Define 1%N).
Proof.
  revert k. induction b as [|x b IH]; intros k; cbn; [by intros ?%elem_of_nil|].
  intros [->|Hm]%elem_of_cons; cbn; [split; [lia|destruct x; auto]|].
  apply IH in Hm as [Hk Hv]. split; [lia|done].
Qed.

(** ** What a log must be *)
Definition steady_event (e : Exec.Label) : Prop := ¬ fails e ∧ e ≠ Exec.Panic.
Definition log_by (log : list Input) (e : Exec.Label) : list Input :=
  match e with Exec.Recv req _ => log_after log req | _ => log end.
Lemma served_through l1 l2 l3 logs a : served (l1 ++ l2 ++ l3) logs → Forall steady_event l2 →
  logs !! length l1 = Some a → logs !! length (l1 ++ l2) = Some (foldl log_by a l2).
Proof.
  revert l1 a. induction l2 as [|e l2 IH]; intros l1 a Hs Hf Ha; [by rewrite app_nil_r|].
  inversion Hf as [|?? He Hf']; subst. cbn [foldl].
  replace (l1 ++ e :: l2) with ((l1 ++ [e]) ++ l2) by by rewrite <- app_assoc.
  apply IH; [by rewrite <- app_assoc|done|]. destruct Hs as (_&_&Hst).
  destruct (Hst (length l1) e) as (x&y&Hx&Hy&Hstep); [by rewrite lookup_app_r, Nat.sub_diag by lia|].
  rewrite Ha in Hx. injection Hx as <-. rewrite app_length. cbn. rewrite Nat.add_1_r, Hy. f_equal.
  destruct He as [He Hp]. destruct e; cbn in Hstep |- *; try done; try (by destruct He); by destruct Hstep.
Qed.
Lemma log_by_puts n k b log : foldl log_by log (put_bits n k b) = log ++ bit_ops k b.
Proof.
  revert n k log. induction b as [|x b IH]; intros n k log; [by rewrite app_nil_r|]. cbn [put_bits foldl log_by bit_ops].
  rewrite IH. unfold log_after. cbn. by rewrite <- app_assoc.
Qed.
Lemma put_bits_steady n k b : Forall steady_event (put_bits n k b).
Proof. revert n k. induction b as [|x b IH]; intros n k; constructor; [by split; [intros []|]|done]. Qed.

Section page.
  Context `{HG : Geometry} `{HC : Codec} (kp : bool).
  Local Notation idle c := (AsyncDisk.mkState ∅ ∅ c).
  Local Notation cfg := (repaired kp).
  Local Notation with_bits j b := (mkJournal (j_history j ++ puts (bit_ops 0%N b)) (j_start j)).

  (** Starting on a page: the journal it decodes to, or a panic. *)
  Lemma read_up n c page : addr_wf superblock_addr → c !! superblock_addr = Some page →
    run (Exec.next cfg) (Exec.mkState Exec.Starting n (idle c)) [Exec.Boot; Exec.DiskInternal]
      (Exec.mkState Exec.Recovering (n + 1)%N (AsyncDisk.mkState ∅ {[n := ReadResp page]} c)).
  Proof.
    intros Hwf Hc.
    apply (run_app _ _ [Exec.Boot] (Exec.mkState Exec.Recovering (n + 1)%N
             (AsyncDisk.mkState {[n := ReadReq superblock_addr]} ∅ c))).
    { apply run_one. left. split; [done|]. split; [done|]. eexists. split; [|reflexivity].
      cbn [Exec.numbered Exec.next_id].
      pose proof (disk_ops_intro (idle c) {[n := ReadReq superblock_addr]} ∅) as HH.
      cbn [AsyncDisk.requests AsyncDisk.responses AsyncDisk.content] in HH.
      rewrite map_union_empty, map_difference_empty in HH. apply HH; rewrite ?dom_empty; set_solver. }
    apply run_one. do 6 right. left. split; [done|]. eexists. split; [|reflexivity].
    right. left. exists n. split; [done|]. exists superblock_addr, page.
    cbn [AsyncDisk.requests AsyncDisk.responses AsyncDisk.content Exec.disk].
    split; [apply lookup_singleton|]. split; [done|]. split; [by intros d' Hd'; rewrite Hc in Hd'; injection Hd'|].
    by rewrite delete_singleton.
  Qed.
  Lemma decode_up n c page : 
    run (Exec.next cfg) (Exec.mkState Exec.Recovering n (AsyncDisk.mkState ∅ {[(n - 1)%N := ReadResp page]} c))
      [match unmarshall_journal page with Some _ => Exec.Recovered | None => Exec.Panic end]
      (Exec.mkState (match unmarshall_journal page with Some j => Exec.Ready (mkImpl j [] []) | None => Exec.Panicked end)
         n (idle c)).
  Proof.
    apply run_one. right. left. split; [done|]. exists (n - 1)%N, (ReadResp page), (idle c). split.
    - pose proof (disk_ops_intro (AsyncDisk.mkState ∅ {[(n - 1)%N := ReadResp page]} c) ∅ {[(n - 1)%N := ReadResp page]}) as HH.
      cbn [AsyncDisk.requests AsyncDisk.responses AsyncDisk.content] in HH.
      rewrite map_union_empty, map_difference_diag in HH. apply HH; rewrite ?dom_empty; set_solver.
    - cbn [recover_response restores repaired]. by destruct (unmarshall_journal page).
  Qed.
  Lemma come_up n c page : addr_wf superblock_addr → c !! superblock_addr = Some page →
    run (Exec.next cfg) (Exec.mkState Exec.Starting n (idle c))
      [Exec.Boot; Exec.DiskInternal; match unmarshall_journal page with Some _ => Exec.Recovered | None => Exec.Panic end]
      (Exec.mkState (match unmarshall_journal page with Some j => Exec.Ready (mkImpl j [] []) | None => Exec.Panicked end)
         (n + 1)%N (idle c)).
  Proof.
    intros Hwf Hc. eapply (run_app _ _ [_; _]); [by apply read_up|].
    replace {[n := ReadResp page]} with ({[(n + 1 - 1)%N := ReadResp page]} : gmap ID DiskResponse); [apply decode_up|].
    f_equal. lia.
  Qed.
  Lemma puts_run j n k b c :
    run (Exec.next cfg) (Exec.mkState (Exec.Ready (mkImpl j [] [])) n (idle c)) (put_bits n k b)
      (Exec.mkState (Exec.Ready (mkImpl (mkJournal (j_history j ++ puts (bit_ops k b)) (j_start j)) [] []))
         (n + N.of_nat (length b))%N (idle c)).
  Proof.
    revert j n k. induction b as [|x b IH]; intros j n k.
    - cbn. rewrite app_nil_r, N.add_0_r. destruct j. constructor.
    - cbn [put_bits]. eapply (run_app _ _ [_]); [by apply (serve_one cfg (mkImpl j [] []) n _ (XPut k (bit x)))|].
      replace (n + N.of_nat (length (x :: b)))%N with (n + 1 + N.of_nat (length b))%N by (cbn [length]; lia).
      pose proof (IH (journal_insert j k (bit x)) (n + 1)%N (k + 1)%N) as HH.
      unfold journal_insert in HH. cbn [j_history j_start] in HH. rewrite <- app_assoc in HH. exact HH.
  Qed.

  (** The story up to the second start. *)
  Definition put_all (b : list bool) : list Exec.Label :=
    [Exec.Boot; Exec.DiskInternal; Exec.Recovered] ++ put_bits 1%N 0%N b.
  Definition synced (b : list bool) : list Exec.Label :=
    let n := (1 + N.of_nat (length b))%N in
    [Exec.Recv (mkXReq XSync n) []; Exec.DiskInternal; Exec.Done [mkXReply XSyncOutput n]].
  Lemma until_crash c j b : addr_wf superblock_addr → c !! superblock_addr = Some (marshall journal_empty) →
    unmarshall_journal (marshall journal_empty) = Some j →
    ∃ n, run (Exec.next cfg) (Exec.mkState Exec.Starting 0%N (idle c)) (put_all b ++ synced b ++ [Exec.Crash])
      (Exec.mkState Exec.Starting n (idle (<[superblock_addr := marshall (with_bits j b)]> c))).
  Proof.
    intros Hwf Hc Hj. eexists. unfold put_all. rewrite <- app_assoc. eapply run_app.
    { pose proof (come_up 0%N c _ Hwf Hc) as HH. rewrite Hj in HH. exact HH. }
    eapply run_app; [apply puts_run|]. eapply run_app; [apply sync_one; done|]. apply fail_now.
  Qed.
  (** It leaves no choice for the log. *)
  Lemma story_log b ls logs : served (put_all b ++ synced b ++ Exec.Crash :: ls) logs →
    exec_syncs_durable (put_all b ++ synced b ++ Exec.Crash :: ls) logs →
    logs !! length (put_all b ++ synced b ++ [Exec.Crash]) = Some (bit_ops 0%N b).
  Proof.
    intros Hs Hd. assert (H0 : logs !! 0 = Some []) by apply Hs.
    assert (Hsteady : Forall steady_event (put_all b)).
    { unfold put_all. apply Forall_app. split; [|apply put_bits_steady]. repeat constructor; try done; by intros []. }
    assert (Hlen : length (put_all b) = 3 + length b) by (unfold put_all; rewrite app_length, put_bits_length; done).
    (* the log when the sync is asked for *)
    assert (HL : logs !! length (put_all b) = Some (bit_ops 0%N b)).
    { pose proof (served_through [] (put_all b) _ logs [] Hs Hsteady H0) as HH. cbn [app] in HH. rewrite HH. f_equal.
      unfold put_all. rewrite foldl_app, log_by_puts. done. }
    assert (HL3 : logs !! length (put_all b ++ synced b) = Some (bit_ops 0%N b)).
    { rewrite (served_through (put_all b) (synced b) (Exec.Crash :: ls) logs (bit_ops 0%N b) Hs); [done| |done].
      repeat constructor; try done; by intros []. }
    destruct (Hd (2 + length (put_all b)) (Exec.Done [mkXReply XSyncOutput (1 + N.of_nat (length b))%N]) (1 + N.of_nat (length b))%N)
      as (i&a&Hi&Hls&_&_&Ha&Hk).
    { rewrite lookup_app_r by lia. by replace (2 + length (put_all b) - length (put_all b)) with 2 by lia. }
    { by apply elem_of_list_singleton. }
    assert (i = length (put_all b)) as ->.
    { destruct (decide (i < length (put_all b))) as [Hlt|Hge].
      - exfalso. rewrite lookup_app_l in Hls by done. unfold put_all in Hls.
        destruct i as [|[|[|i]]]; [done|done|done|]. cbn in Hls.
        apply put_bits_at in Hls as (?&?&?&?&[=]).
      - rewrite lookup_app_r in Hls by lia. destruct (decide (i = S (length (put_all b)))) as [->|]; [|lia].
        by replace (S (length (put_all b)) - length (put_all b)) with 1 in Hls by lia. }
    rewrite HL in Ha. injection Ha as <-.
    destruct Hs as (_&_&Hst). destruct (Hst (length (put_all b ++ synced b)) Exec.Crash) as (x&y&Hx&Hy&Hstep).
    { rewrite app_assoc, lookup_app_r, Nat.sub_diag by lia. done. }
    rewrite HL3 in Hx. injection Hx as <-. cbn in Hstep.
    replace (length (put_all b ++ synced b ++ [Exec.Crash])) with (S (length (put_all b ++ synced b)))
      by (rewrite !app_length; cbn; lia).
    rewrite Hy. f_equal. apply (anti_symm prefix); [done|]. eapply (Hk _ _ _ Hy). Unshelve.
    rewrite app_length. cbn [synced length]. lia.
  Qed.
  Lemma story_taken b ls : puts_taken ls = [] → puts_taken (put_all b ++ synced b ++ Exec.Crash :: ls) = puts (bit_ops 0%N b).
  Proof.
    intros He. unfold put_all. rewrite !taken_app, put_bits_taken. cbn.
    unfold puts_taken in He. rewrite He. by rewrite app_nil_r.
  Qed.

  (** The second start. *)
  Lemma undecoded c j b : addr_wf superblock_addr → c !! superblock_addr = Some (marshall journal_empty) →
    unmarshall_journal (marshall journal_empty) = Some j → unmarshall_journal (marshall (with_bits j b)) = None →
    ∃ ls s, run (Exec.next cfg) (Exec.mkState Exec.Starting 0%N (idle c)) ls s ∧ puts_taken ls = puts (bit_ops 0%N b) ∧
      ¬ ∃ logs, served ls logs ∧ exec_syncs_durable ls logs.
  Proof.
    intros Hwf Hc Hj Hu. destruct (until_crash c j b Hwf Hc Hj) as [n Hr].
    exists (put_all b ++ synced b ++ Exec.Crash :: [Exec.Boot; Exec.DiskInternal; Exec.Panic]). eexists. split_and!.
    - replace (put_all b ++ synced b ++ Exec.Crash :: [Exec.Boot; Exec.DiskInternal; Exec.Panic])
        with ((put_all b ++ synced b ++ [Exec.Crash]) ++ [Exec.Boot; Exec.DiskInternal; Exec.Panic])
        by by rewrite <- !app_assoc.
      eapply run_app; [exact Hr|]. pose proof (come_up n _ _ Hwf (lookup_insert c superblock_addr (marshall (with_bits j b)))) as HH.
      rewrite Hu in HH. exact HH.
    - by apply story_taken.
    - intros (logs&(_&_&Hst)&_). destruct (Hst (length (put_all b ++ synced b ++ [Exec.Crash]) + 2) Exec.Panic) as (?&?&_&_&[]).
      rewrite !app_length. rewrite lookup_app_r by lia. rewrite lookup_app_r by lia.
      by replace (length (put_all b) + (length (synced b) + length [Exec.Crash]) + 2 - length (put_all b) - length (synced b)) with 3 by (cbn [length]; lia).
  Qed.
  Lemma misread c j b j' i x : addr_wf superblock_addr → c !! superblock_addr = Some (marshall journal_empty) →
    unmarshall_journal (marshall journal_empty) = Some j → unmarshall_journal (marshall (with_bits j b)) = Some j' →
    b !! i = Some x → journal_get j' (N.of_nat i) ≠ bit x →
    ∃ ls s, run (Exec.next cfg) (Exec.mkState Exec.Starting 0%N (idle c)) ls s ∧ puts_taken ls = puts (bit_ops 0%N b) ∧
      ¬ ∃ logs, served ls logs ∧ exec_syncs_durable ls logs.
  Proof.
    intros Hwf Hc Hj Hu Hx Hne. destruct (until_crash c j b Hwf Hc Hj) as [n Hr].
    set (q := Exec.Recv (mkXReq (XQuery (N.of_nat i)) (n + 1)) [mkXReply (XQueryOutput (journal_get j' (N.of_nat i))) (n + 1)]).
    exists (put_all b ++ synced b ++ Exec.Crash :: [Exec.Boot; Exec.DiskInternal; Exec.Recovered; q]). eexists. split_and!.
    - replace (put_all b ++ synced b ++ Exec.Crash :: [Exec.Boot; Exec.DiskInternal; Exec.Recovered; q])
        with ((put_all b ++ synced b ++ [Exec.Crash]) ++ [Exec.Boot; Exec.DiskInternal; Exec.Recovered] ++ [q])
        by by rewrite <- !app_assoc.
      eapply run_app; [exact Hr|]. eapply run_app.
      { pose proof (come_up n _ _ Hwf (lookup_insert c superblock_addr (marshall (with_bits j b)))) as HH.
        rewrite Hu in HH. exact HH. }
      by apply serve_one.
    - by apply story_taken.
    - intros (logs&Hs&Hd). pose proof (story_log _ _ _ Hs Hd) as Hlog.
      replace (put_all b ++ synced b ++ Exec.Crash :: [Exec.Boot; Exec.DiskInternal; Exec.Recovered; q])
        with ((put_all b ++ synced b ++ [Exec.Crash]) ++ [Exec.Boot; Exec.DiskInternal; Exec.Recovered] ++ [q]) in Hs
        by by rewrite <- !app_assoc.
      pose proof (served_through _ _ _ _ (bit_ops 0%N b) Hs) as HH.
      specialize (HH ltac:(repeat constructor; try done; by intros []) Hlog). cbn [foldl log_by] in HH.
      destruct Hs as (_&_&Hst). destruct (Hst (length ((put_all b ++ synced b ++ [Exec.Crash]) ++ [Exec.Boot; Exec.DiskInternal; Exec.Recovered])) q)
        as (y&z&Hy&_&[Hrep _]).
      { rewrite (app_assoc (put_all b ++ synced b ++ [Exec.Crash])), lookup_app_r, Nat.sub_diag by lia. done. }
      rewrite HH in Hy. injection Hy as <-. cbn in Hrep. injection Hrep as Hv. apply Hne. rewrite Hv.
      exact (bit_ops_read 0%N b i x [] Hx).
  Qed.

  Lemma one_page pages s0 : addr_wf superblock_addr → (∀ j, marshall j ∈ pages) → Exec.init s0 →
    ∃ ls s, run (Exec.next cfg) s0 ls s ∧
      (∀ m, m ∈ puts_taken ls → (km_key m ≤ N.of_nat (Nat.log2 (length pages)))%N ∧
         (km_message m = Define 0%N ∨ km_message m = Define 1%N)) ∧
      ¬ ∃ logs, served ls logs ∧ exec_syncs_durable ls logs.
  Proof.
    intros Hwf Hps (c&->&Hc). destruct (unmarshall_journal (marshall journal_empty)) as [j|] eqn:Hj; cycle 1.
    { do 2 eexists. split_and!.
      - pose proof (come_up 0%N c _ Hwf Hc) as HH. rewrite Hj in HH. exact HH.
      - intros m Hm. by apply elem_of_nil in Hm.
      - intros (logs&(_&_&Hst)&_). by destruct (Hst 2 Exec.Panic eq_refl) as (?&?&_&_&[]). }
    destruct (collision (λ b, marshall (with_bits j b)) (all_bits (S (Nat.log2 (length pages)))) pages)
      as (b&b'&Hb&Hb'&Hne&Heq); [apply all_bits_NoDup|intros; apply Hps| |].
    { rewrite all_bits_length. destruct (decide (length pages = 0)) as [->|]; [cbn; lia|]. apply Nat.log2_spec. lia. }
    cbv beta in Heq. apply all_bits_in in Hb, Hb'.
    assert (Hend : ∀ b, length b = S (Nat.log2 (length pages)) →
      (∃ ls s, run (Exec.next cfg) (Exec.mkState Exec.Starting 0%N (idle c)) ls s ∧ puts_taken ls = puts (bit_ops 0%N b) ∧
        ¬ ∃ logs, served ls logs ∧ exec_syncs_durable ls logs) →
      ∃ ls s, run (Exec.next cfg) (Exec.mkState Exec.Starting 0%N (idle c)) ls s ∧
      (∀ m, m ∈ puts_taken ls → (km_key m ≤ N.of_nat (Nat.log2 (length pages)))%N ∧
         (km_message m = Define 0%N ∨ km_message m = Define 1%N)) ∧
      ¬ ∃ logs, served ls logs ∧ exec_syncs_durable ls logs).
    { intros b0 Hb0 (ls&s&Hr&Ht&Hn). exists ls, s. split_and!; [done| |done]. rewrite Ht. intros m Hm%bit_ops_small.
      split; [lia|apply Hm]. }
    destruct (unmarshall_journal (marshall (with_bits j b))) as [j'|] eqn:Hu.
    2: { apply (Hend b Hb). by eapply undecoded. }
    destruct (bits_differ b b') as (i&x&x'&Hx&Hx'&Hd); [congruence|done|].
    destruct (decide (journal_get j' (N.of_nat i) = bit x)) as [Hv|Hv].
    - apply (Hend b' Hb'). rewrite Heq in Hu. eapply misread; try done. rewrite Hv. by destruct x, x'.
    - apply (Hend b Hb). by eapply misread.
  Qed.
End page.
