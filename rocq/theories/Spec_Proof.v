(** Proofs about the trusted specification layer (C01-C04, C10). *)
From Verif Require Import Spec_Model Spec_Spec.

(** ** Runs *)
Section run.
  Context {S L : Type} (next : S → S → L → Prop).
  Lemma run_app s1 l1 s2 l2 s3 :
    run next s1 l1 s2 → run next s2 l2 s3 → run next s1 (l1 ++ l2) s3.
  Proof.
    intros H1 H2. induction H2 as [|s ls s' l s'' _ IH Hn].
    - by rewrite app_nil_r.
    - rewrite (assoc_L (++)). eapply run_snoc; eauto.
  Qed.
  Lemma run_one s l s' : next s s' l → run next s [l] s'.
  Proof. intros. apply (run_snoc next s [] s l s'); [constructor|done]. Qed.
  Lemma run_cons s l s1 ls s2 :
    next s s1 l → run next s1 ls s2 → run next s (l :: ls) s2.
  Proof. intros. apply (run_app s [l] s1 ls s2); [by apply run_one|done]. Qed.
  Lemma run_nil_inv s s' : run next s [] s' → s' = s.
  Proof. inversion 1 as [|? ls ? ? ? ? ?]; [done|]. by destruct ls. Qed.
  Lemma run_snoc_inv s ls l s'' :
    run next s (ls ++ [l]) s'' → ∃ s', run next s ls s' ∧ next s' s'' l.
  Proof.
    intros H. remember (ls ++ [l]) as l0 eqn:Heq. destruct H as [s0|s0 ls' s' l' s1 Hr Hn].
    - by destruct ls.
    - apply app_inj_tail in Heq as [-> ->]. eauto.
  Qed.
  Lemma run_inv (P : S → Prop) s ls s' :
    P s → (∀ a b l, P a → next a b l → P b) → run next s ls s' → P s'.
  Proof. intros H0 Hs. induction 1; eauto. Qed.
  Lemma run_take s ls s' n :
    run next s ls s' → ∃ s1, run next s (take n ls) s1.
  Proof.
    induction 1 as [s|s ls s' l s'' Hr [s1 IH] Hn].
    - exists s. rewrite take_nil. constructor.
    - destruct (decide (n ≤ length ls)).
      + exists s1. by rewrite take_app_le.
      + exists s''. rewrite take_ge; [econstructor; eauto|].
        rewrite app_length; simpl; lia.
  Qed.
End run.

(** ** Messages *)
Lemma combine_deltas_nop_l d : combine_deltas nop_delta d = d.
Proof. done. Qed.
Lemma combine_deltas_nop_r d : combine_deltas d nop_delta = d.
Proof.
  unfold combine_deltas, nop_delta. destruct (N.eqb_spec d 0); subst; done.
Qed.
Lemma combine_deltas_assoc c b a :
  combine_deltas c (combine_deltas b a) = combine_deltas (combine_deltas c b) a.
Proof.
  unfold combine_deltas, nop_delta.
  destruct (N.eqb_spec c 0), (N.eqb_spec b 0), (N.eqb_spec a 0); subst; simpl;
    repeat case_match; try done.
  all: repeat match goal with
         | H : (_ =? _)%N = true |- _ => apply N.eqb_eq in H; subst
         | H : (_ =? _)%N = false |- _ => apply N.eqb_neq in H
       end; done.
Qed.
Lemma merge_assoc a b c : merge a (merge b c) = merge (merge a b) c.
Proof.
  destruct a, b, c; simpl; try done. f_equal. symmetry. by rewrite combine_deltas_assoc.
Qed.
Lemma merge_nop_r m : merge m (Update nop_delta) = m.
Proof. by destruct m. Qed.
Lemma merge_nop_l m : merge (Update nop_delta) m = m.
Proof. destruct m; simpl; [done|]. by rewrite combine_deltas_nop_r. Qed.
Lemma merge_define m v : merge m (Define v) = Define v.
Proof. by destruct m. Qed.
Definition is_define (m : Message) : Prop := ∃ v, m = Define v.
Lemma merge_is_define a b : is_define a → is_define (merge a b).
Proof. intros [v ->]. destruct b; eexists; done. Qed.

(** ** Floating sequences *)
Section fs.
  Context {T : Type}.
  Implicit Types s : FloatingSeq T.
  Lemma fs_ext s1 s2 :
    fs_start s1 = fs_start s2 → fs_len s1 = fs_len s2 →
    (∀ i, fs_is_active s1 i → fs_get s1 i = fs_get s2 i) → s1 = s2.
  Proof.
    destruct s1 as [st1 e1], s2 as [st2 e2]; unfold fs_len, fs_is_active, fs_get; simpl.
    intros -> Hl Hg. f_equal. apply list_eq. intros i.
    destruct (decide (i < length e1)) as [Hi|Hi].
    - specialize (Hg (i + st2)). unfold fs_len in Hg; simpl in Hg.
      rewrite !decide_True in Hg by lia. replace (i + st2 - st2) with i in Hg by lia.
      apply Hg; lia.
    - rewrite !lookup_ge_None_2; [done|lia|lia].
  Qed.
  Lemma fs_get_Some s i x : fs_get s i = Some x → fs_is_active s i.
  Proof.
    unfold fs_get, fs_is_active, fs_len. case_decide; [|done].
    intros Hl%lookup_lt_Some. lia.
  Qed.
  Lemma fs_get_active s i : fs_is_active s i → is_Some (fs_get s i).
  Proof.
    unfold fs_get, fs_is_active, fs_len. intros. rewrite decide_True by lia.
    apply lookup_lt_is_Some_2. lia.
  Qed.
  Lemma fs_new_start a b (f : nat → T) : fs_start (fs_new a b f) = a.
  Proof. done. Qed.
  Lemma fs_new_len a b (f : nat → T) : a ≤ b → fs_len (fs_new a b f) = b.
  Proof. unfold fs_new, fs_len; simpl. rewrite fmap_length, seq_length. lia. Qed.
  Lemma fs_new_get a b (f : nat → T) i :
    a ≤ i < b → fs_get (fs_new a b f) i = Some (f i).
  Proof.
    intros. unfold fs_get, fs_new; simpl. rewrite decide_True by lia.
    rewrite list_lookup_fmap, lookup_seq_lt by lia. simpl.
    do 2 f_equal. lia.
  Qed.
  Lemma fs_last_Some s x :
    fs_last s = Some x → fs_entries s ≠ [] ∧ fs_get s (fs_len s - 1) = Some x.
  Proof.
    unfold fs_last. intros H. split; [|done]. intros Hn.
    apply fs_get_Some in H. unfold fs_is_active, fs_len in H. rewrite Hn in H. simpl in H. lia.
  Qed.
  Lemma fs_last_append s x : fs_last (fs_append s [x]) = Some x.
  Proof.
    unfold fs_last, fs_get, fs_len, fs_append; simpl. rewrite app_length; simpl.
    rewrite decide_True by lia. rewrite lookup_app_r by lia.
    replace (fs_start s + (length (fs_entries s) + 1) - 1 - fs_start s - length (fs_entries s))
      with 0 by lia. done.
  Qed.
  Lemma fs_drop_last_append s x :
    fs_drop_last (fs_append s [x]) = s ∨ fs_entries s = [].
  Proof.
    unfold fs_drop_last, fs_get_prefix, fs_len, fs_append; simpl. rewrite app_length; simpl.
    destruct s as [st es]; simpl. destruct es as [|e es]; [by right|left].
    rewrite decide_False by (simpl; lia). f_equal.
    rewrite take_app_le by (simpl; lia). apply take_ge. simpl; lia.
  Qed.
  Lemma fs_drop_last_inv s s' :
    fs_entries s ≠ [] → 0 < fs_len s' → fs_drop_last s' = s → ∃ x, s' = fs_append s [x].
  Proof.
    unfold fs_drop_last, fs_get_prefix, fs_len, fs_append.
    destruct s' as [st' es']; simpl. intros Hne Hl.
    case_decide as Hd; intros <-; simpl in *; [done|].
    destruct es' as [|x xs _] using rev_ind; [simpl in *; lia|].
    rewrite app_length in *; simpl in *.
    replace (st' + (length xs + 1) - 1 - st') with (length xs) by lia.
    rewrite take_app. by exists x.
  Qed.
  Lemma fs_append_get_old s l i :
    fs_is_active s i → fs_get (fs_append s l) i = fs_get s i.
  Proof.
    unfold fs_is_active, fs_get, fs_len, fs_append; simpl. intros.
    rewrite !decide_True by lia. by rewrite lookup_app_l by lia.
  Qed.
  Lemma fs_append_len s l : fs_len (fs_append s l) = fs_len s + length l.
  Proof. unfold fs_len, fs_append; simpl. rewrite app_length. lia. Qed.
  Lemma fs_get_suffix_get s n i :
    fs_start s ≤ n ≤ i → fs_get (fs_get_suffix s n) i = fs_get s i.
  Proof.
    unfold fs_get, fs_get_suffix; simpl. intros. rewrite !decide_True by lia.
    rewrite lookup_drop. f_equal. lia.
  Qed.
  Lemma fs_get_suffix_len s n :
    fs_start s ≤ n ≤ fs_len s → fs_len (fs_get_suffix s n) = fs_len s.
  Proof. unfold fs_len, fs_get_suffix; simpl. rewrite drop_length. lia. Qed.
  Lemma fs_get_prefix_get s n i :
    fs_start s < n → i < n → fs_get (fs_get_prefix s n) i = fs_get s i.
  Proof.
    unfold fs_get, fs_get_prefix. intros. rewrite (decide_False (P:=n ≤ _)) by lia. simpl.
    case_decide; [|done]. rewrite lookup_take; [done|lia].
  Qed.
  Lemma fs_get_prefix_start s n : fs_start s < n → fs_start (fs_get_prefix s n) = fs_start s.
  Proof. unfold fs_get_prefix. intros. by rewrite decide_False by lia. Qed.
  Lemma fs_get_prefix_len s n :
    fs_start s < n ≤ fs_len s → fs_len (fs_get_prefix s n) = n.
  Proof.
    unfold fs_len, fs_get_prefix. intros. rewrite decide_False by lia. simpl.
    rewrite take_length. lia.
  Qed.
End fs.

(** ** The sequential map *)
Lemma last_write_snoc k ops op :
  last_write k (ops ++ [op]) =
    match op with
    | PutInput k' v => if decide (k' = k) then v else last_write k ops
    | _ => last_write k ops end.
Proof. unfold last_write. by rewrite fold_left_app. Qed.

Lemma mapspec_step s s' ops l :
  MapSpec.next s s' l → shows s ops →
  shows s' (ops ++ [MapSpec.getInput l]) ∧
  MapSpec.getOutput l = expected_output ops (MapSpec.getInput l).
Proof.
  intros [(k&v&->&Hv&->)|[(k&v&->&->)|[-> ->]]] Hs; simpl; split; try done.
  - intros k'. rewrite last_write_snoc. apply Hs.
  - rewrite <- Hv, Hs. done.
  - intros k'. rewrite last_write_snoc. simpl. unfold kmmap_insert.
    destruct (decide (k' = k)), (decide (k = k')); subst; try done.
  - intros k'. rewrite last_write_snoc. apply Hs.
Qed.

Lemma mapspec_init_shows : shows MapSpec.my_init [].
Proof. intros k. done. Qed.

Lemma mapspec_run ls s :
  run MapSpec.next MapSpec.my_init ls s →
  shows s (MapSpec.getInput <$> ls) ∧
  legal ((λ l, (MapSpec.getInput l, MapSpec.getOutput l)) <$> ls).
Proof.
  intros Hr. remember MapSpec.my_init as s0. induction Hr as [s|s ls s' l s'' Hr IH Hn]; subst.
  - split; [apply mapspec_init_shows|]. intros n i o. by destruct n.
  - destruct IH as [IHs IHl]; [done|].
    destruct (mapspec_step _ _ _ _ Hn IHs) as [Hs' Ho].
    split; [by rewrite fmap_app|].
    intros n i o. rewrite fmap_app. intros Hl.
    assert (Hproj : ((λ l, (MapSpec.getInput l, MapSpec.getOutput l)) <$> ls).*1
                    = MapSpec.getInput <$> ls) by (rewrite <- list_fmap_compose; done).
    rewrite fmap_app. simpl.
    apply lookup_app_Some in Hl as [Hl|[Hge Hl]].
    + pose proof (lookup_lt_Some _ _ _ Hl) as Hlt. rewrite take_app_le.
      * by apply IHl.
      * rewrite !fmap_length in *. lia.
    + rewrite fmap_length in *. simpl in Hl.
      destruct (n - length ls) as [|m] eqn:E; [|done]. simpl in Hl. simplify_eq.
      assert (n = length ls) as -> by lia.
      rewrite take_app_alt; [|by rewrite !fmap_length].
      by rewrite Hproj.
Qed.

(** Every sequence of inputs can be carried out. *)
Lemma mapspec_total ops :
  ∃ ls s, run MapSpec.next MapSpec.my_init ls s ∧ MapSpec.getInput <$> ls = ops.
Proof.
  induction ops as [|op ops (ls&s&Hr&Hm)] using rev_ind.
  - exists [], MapSpec.my_init. split; [constructor|done].
  - destruct op as [k|k v|].
    + exists (ls ++ [MapSpec.Query (QueryInput k) (QueryOutput (msg_value (MapSpec.kmmap s k)))]), s.
      split; [|by rewrite fmap_app, Hm]. econstructor; [done|]. left. by exists k, (msg_value (MapSpec.kmmap s k)).
    + eexists (ls ++ [MapSpec.Put (PutInput k v) PutOutput]), _.
      split; [|by rewrite fmap_app, Hm]. econstructor; [done|]. right; left. by exists k, v.
    + exists (ls ++ [MapSpec.Noop NoopInput NoopOutput]), s.
      split; [|by rewrite fmap_app, Hm]. econstructor; [done|]. right; right. done.
Qed.

(** ** AsyncMap *)
Lemma async_exec_shows s s' ops l :
  AsyncMap.next s s' l → shows (AsyncMap.persistent s) ops →
  match l with
  | AsyncMap.ExecuteOp req rep =>
      reply_id rep = req_id req ∧
      reply_output rep = expected_output ops (req_input req) ∧
      shows (AsyncMap.persistent s') (ops ++ [req_input req])
  | _ => AsyncMap.persistent s' = AsyncMap.persistent s
  end.
Proof.
  intros [(r&->&_&->)|[(ml&pp&req&rep&->&Hid&_&_&Hi&Ho&Hn&->)|(r&->&_&->)]] Hs; simpl; try done.
  destruct (mapspec_step _ _ _ _ Hn Hs) as [H1 H2].
  rewrite <- Hi, <- Ho. done.
Qed.

Lemma async_linearized tr s :
  run AsyncMap.next AsyncMap.init tr s →
  legal (executed tr) ∧ shows (AsyncMap.persistent s) (executed tr).*1 ∧
  ∃ m e, linearized tr m e ∧
    (∀ r, r ∈ requests (AsyncMap.ephemeral s) → ∃ i, tr !! i = Some (AsyncMap.RequestOp r) ∧
       ∀ j req rep, tr !! j = Some (AsyncMap.ExecuteOp req rep) → e j ≠ i) ∧
    (∀ rep, rep ∈ replies (AsyncMap.ephemeral s) → ∃ j req,
       tr !! j = Some (AsyncMap.ExecuteOp req rep) ∧
       ∀ k rep', tr !! k = Some (AsyncMap.ReplyOp rep') → m k ≠ j).
Proof.
  intros Hr. remember AsyncMap.init as s0. induction Hr as [s|s tr s' l s'' Hr IH Hn]; subst.
  { split; [|split; [apply mapspec_init_shows|]].
    - intros n i o. by destruct n.
    - exists id, id. split; [|split]; [..|set_solver|set_solver].
      split_and!; intros *; by rewrite ?lookup_nil. }
  destruct IH as (IHl&IHs&m&e&(Hm&He&Hmi&Hei)&Hrq&Hrp); [done|].
  pose proof (async_exec_shows _ _ _ _ Hn IHs) as Hex.
  assert (Hold : ∀ i x, tr !! i = Some x → (tr ++ [l]) !! i = Some x)
    by (intros; by apply lookup_app_l_Some).
  assert (Hinv : ∀ i x, (tr ++ [l]) !! i = Some x → tr !! i = Some x ∨ (i = length tr ∧ x = l)).
  { intros i x [?|[? Hl]]%lookup_app_Some; [by left|right].
    destruct (i - length tr) as [|] eqn:E; [|done]. simpl in Hl. split; [lia|congruence]. }
  assert (Hlast : (tr ++ [l]) !! length tr = Some l) by by rewrite lookup_app_r, Nat.sub_diag.
  destruct Hn as [(r&->&Hnin&->)|[(ml&pp&req&rep&->&Hid&Hin&Hnin&Hi&Ho&Hstep&->)|(r&->&Hin&->)]];
    simpl in *.
  - (* request *)
    assert (executed (tr ++ [AsyncMap.RequestOp r]) = executed tr) as ->
      by (unfold executed; rewrite omap_app; simpl; by rewrite app_nil_r).
    split_and!; [done|done|]. exists m, e. split_and!.
    + split_and!.
      * intros k rep [?|[? ?]]%Hinv; [|done]. destruct (Hm k rep) as [? [??]]; [done|]. eauto 10.
      * intros j rq rp [?|[? ?]]%Hinv; [|done]. destruct (He j rq rp) as (?&?&?); [done|]. eauto 10.
      * intros k1 k2 r1 r2 [?|[? ?]]%Hinv [?|[? ?]]%Hinv; try done. by eapply Hmi.
      * intros k1 k2 q1 p1 q2 p2 [?|[? ?]]%Hinv [?|[? ?]]%Hinv; try done. by eapply Hei.
    + intros r'. rewrite elem_of_union, elem_of_singleton. intros [->|Hr'].
      * exists (length tr). split; [done|]. intros j rq rp [Hj|[? ?]]%Hinv; [|done].
        destruct (He _ _ _ Hj) as (?&Hl&?). apply lookup_lt_Some in Hl. lia.
      * destruct (Hrq _ Hr') as (i&?&Hx). exists i. split; [by apply Hold|].
        intros j rq rp [Hj|[? ?]]%Hinv; [|done]. eauto.
    + intros rp Hrp'. destruct (Hrp _ Hrp') as (j&rq&?&Hx). exists j, rq. split; [by apply Hold|].
      intros k rp' [Hk|[? ?]]%Hinv; [|done]. eauto.
  - (* execute *)
    destruct Hex as (_&Hout&Hsh).
    assert (executed (tr ++ [AsyncMap.ExecuteOp req rep])
            = executed tr ++ [(req_input req, reply_output rep)]) as ->
      by (unfold executed; by rewrite omap_app).
    split; [|split].
    { intros n i o Hl. apply lookup_app_Some in Hl as [Hl|[Hge Hl]].
      - rewrite fmap_app, take_app_le; [by apply IHl|].
        apply lookup_lt_Some in Hl. rewrite fmap_length. lia.
      - destruct (n - length (executed tr)) eqn:E; [|done]. simpl in Hl. simplify_eq.
        rewrite fmap_app, take_app_alt; [done|]. rewrite fmap_length. lia. }
    { by rewrite fmap_app. }
    destruct (Hrq _ Hin) as (i&Hi'&Hfresh).
    exists m, (λ j, if decide (j = length tr) then i else e j).
    assert (Hne : ∀ j x, tr !! j = Some x → j ≠ length tr)
      by (intros j x ?%lookup_lt_Some; lia).
    split_and!.
    + split_and!.
      * intros k rp [?|[? ?]]%Hinv; [|done]. destruct (Hm k rp) as [? [??]]; [done|]. eauto 10.
      * intros j rq rp [Hj|[-> ?]]%Hinv.
        -- rewrite decide_False by eauto. destruct (He j rq rp) as (?&?&?); [done|]. eauto 10.
        -- simplify_eq. rewrite decide_True by done. split_and!; [|by apply Hold|done].
           apply lookup_lt_Some in Hi'. lia.
      * intros k1 k2 r1 r2 [?|[? ?]]%Hinv [?|[? ?]]%Hinv; try done. by eapply Hmi.
      * intros k1 k2 q1 p1 q2 p2 [H1|[-> ?]]%Hinv [H2|[-> ?]]%Hinv.
        -- rewrite !decide_False by eauto. by eapply Hei.
        -- rewrite decide_False by eauto. rewrite decide_True by done. intros ?. by edestruct Hfresh.
        -- rewrite decide_True by done. rewrite decide_False by eauto. intros ?. by edestruct Hfresh.
        -- done.
    + intros r'. rewrite elem_of_difference, not_elem_of_singleton. intros [Hr' Hneq].
      destruct (Hrq _ Hr') as (i'&Hi2&Hx). exists i'. split; [by apply Hold|].
      intros j rq rp [Hj|[-> ?]]%Hinv.
      * rewrite decide_False by eauto. eauto.
      * rewrite decide_True by done. intros ->. congruence.
    + intros rp. rewrite elem_of_union, elem_of_singleton. intros [->|Hrp'].
      * exists (length tr), req. split; [done|].
        intros k rp' [Hk|[? ?]]%Hinv; [|done]. destruct (Hm _ _ Hk) as (?&?&Hl).
        apply lookup_lt_Some in Hl. lia.
      * destruct (Hrp _ Hrp') as (j&rq&?&Hx). exists j, rq. split; [by apply Hold|].
        intros k rp' [Hk|[? ?]]%Hinv; [|done]. eauto.
  - (* reply *)
    assert (executed (tr ++ [AsyncMap.ReplyOp r]) = executed tr) as ->
      by (unfold executed; rewrite omap_app; simpl; by rewrite app_nil_r).
    split_and!; [done|done|].
    destruct (Hrp _ Hin) as (j0&rq0&Hj0&Hfresh).
    exists (λ k, if decide (k = length tr) then j0 else m k), e.
    assert (Hne : ∀ j x, tr !! j = Some x → j ≠ length tr)
      by (intros j x ?%lookup_lt_Some; lia).
    split_and!.
    + split_and!.
      * intros k rp [Hk|[-> ?]]%Hinv.
        -- rewrite decide_False by eauto. destruct (Hm k rp) as [? [??]]; [done|]. eauto 10.
        -- simplify_eq. rewrite decide_True by done. split; [apply lookup_lt_Some in Hj0; lia|].
           eauto.
      * intros j rq rp [?|[? ?]]%Hinv; [|done]. destruct (He j rq rp) as (?&?&?); [done|]. eauto 10.
      * intros k1 k2 r1 r2 [H1|[-> ?]]%Hinv [H2|[-> ?]]%Hinv.
        -- rewrite !decide_False by eauto. by eapply Hmi.
        -- rewrite decide_False by eauto. rewrite decide_True by done. intros ?. by edestruct Hfresh.
        -- rewrite decide_True by done. rewrite decide_False by eauto. intros ?. by edestruct Hfresh.
        -- done.
      * intros k1 k2 q1 p1 q2 p2 [?|[? ?]]%Hinv [?|[? ?]]%Hinv; try done. by eapply Hei.
    + intros r' Hr'. destruct (Hrq _ Hr') as (i&?&Hx). exists i. split; [by apply Hold|].
      intros j rq rp [Hj|[? ?]]%Hinv; [|done]. eauto.
    + intros rp. rewrite elem_of_difference, not_elem_of_singleton. intros [Hrp' Hneq].
      destruct (Hrp _ Hrp') as (j&rq&Hj&Hx). exists j, rq. split; [by apply Hold|].
      intros k rp' [Hk|[-> ?]]%Hinv.
      * rewrite decide_False by eauto. eauto.
      * rewrite decide_True by done. intros ->. congruence.
Qed.

(** ** CrashTolerantAsyncMap: the log explanation *)
(** [pos i] is the number of logged operations covered by version [i]. *)
Definition ctam_inv (ls : list CTAM.Label) (logs : list (list Input)) (s : CTAM.State) : Prop :=
  explained ls logs ∧
  ∃ log pos,
    logs !! length ls = Some log ∧
    fs_entries (CTAM.versions s) ≠ [] ∧
    pos (fs_len (CTAM.versions s) - 1) = length log ∧
    (∀ i j, fs_start (CTAM.versions s) ≤ i ≤ j → j < fs_len (CTAM.versions s) → pos i ≤ pos j) ∧
    (∀ i v, fs_get (CTAM.versions s) i = Some v → shows v (take (pos i) log)) ∧
    (∀ id v, CTAM.sync_requests s !! id = Some v →
       v < fs_len (CTAM.versions s) ∧
       ∃ i, i < length ls ∧ ls !! i = Some (CTAM.ReqSyncOp id) ∧
         (∀ m, i < m < length ls → ls !! m ≠ Some CTAM.CrashOp ∧
               ls !! m ≠ Some (CTAM.ReqSyncOp id) ∧ ls !! m ≠ Some (CTAM.ReplySyncOp id)) ∧
         ∃ a, logs !! i = Some a ∧ a `prefix_of` log ∧
              length a ≤ pos (max v (fs_start (CTAM.versions s)))) ∧
    (∀ j id, ls !! j = Some (CTAM.ReplySyncOp id) →
       ∃ i, acknowledges ls i j id ∧
         ∃ a, logs !! i = Some a ∧ length a ≤ pos (fs_start (CTAM.versions s)) ∧
           ∀ k b, j < k → logs !! k = Some b → a `prefix_of` b).

Lemma explained_snoc ls logs l log log' :
  explained ls logs → logs !! length ls = Some log → log_step l log log' →
  explained (ls ++ [l]) (logs ++ [log']).
Proof.
  intros (Hlen&H0&Hst) Hlog Hstep. split_and!.
  - rewrite !app_length; simpl. lia.
  - by apply lookup_app_l_Some.
  - intros i l' [Hl|[Hge Hl]]%lookup_app_Some.
    + destruct (Hst _ _ Hl) as (a&b&?&?&?). exists a, b. split_and!; [..|done]; by apply lookup_app_l_Some.
    + destruct (i - length ls) eqn:E; [|done]. simpl in Hl. simplify_eq.
      assert (i = length ls) as -> by lia. exists log, log'. split_and!; [by apply lookup_app_l_Some| |done].
      rewrite lookup_app_r by lia. by rewrite Hlen, Nat.sub_diag.
Qed.

Lemma ctam_init_inv : ctam_inv [] [[]] CTAM.init.
Proof.
  split.
  - split_and!; [done|done|]. intros i l. by rewrite lookup_nil.
  - exists [], (λ _, 0). split_and!; try done.
    + intros i v Hg. pose proof (fs_get_Some _ _ _ Hg) as Ha. unfold fs_is_active in Ha.
      simpl in Ha. assert (i = 0) as -> by (unfold fs_len in Ha; simpl in Ha; lia).
      unfold fs_get in Hg; simpl in Hg. simplify_eq. apply mapspec_init_shows.
Qed.

Lemma ctam_step_inv ls logs s l s' :
  ctam_inv ls logs s → CTAM.next s s' l →
  ∃ log', ctam_inv (ls ++ [l]) (logs ++ [log']) s'.
Proof.
  intros [Hexp (log&pos&Hlog&Hne&Hposl&Hmono&Hshow&Hreq&Hack)] Hn.
  pose proof Hexp as (Hlen&_&_).
  assert (Hlen0 : fs_start (CTAM.versions s) < fs_len (CTAM.versions s)).
  { unfold fs_len. destruct (fs_entries _); [done|]. simpl. lia. }
  (* facts about extending ls, logs *)
  assert (Hlsold : ∀ i x, ls !! i = Some x → (ls ++ [l]) !! i = Some x)
    by (intros; by apply lookup_app_l_Some).
  assert (Hlsinv : ∀ i x, (ls ++ [l]) !! i = Some x → ls !! i = Some x ∨ (i = length ls ∧ x = l)).
  { intros i x [?|[? Hl]]%lookup_app_Some; [by left|right].
    destruct (i - length ls) as [|] eqn:E; [|done]. simpl in Hl. split; [lia|congruence]. }
  assert (Hlgold : ∀ log' i x, logs !! i = Some x → (logs ++ [log']) !! i = Some x)
    by (intros; by apply lookup_app_l_Some).
  assert (Hlginv : ∀ log' i x, (logs ++ [log']) !! i = Some x →
            logs !! i = Some x ∨ (i = S (length ls) ∧ x = log')).
  { intros log' i x [?|[? Hl]]%lookup_app_Some; [by left|right].
    destruct (i - length logs) as [|] eqn:E; [|done]. simpl in Hl. split; [lia|congruence]. }
  assert (Hlast : ∀ log', (logs ++ [log']) !! length (ls ++ [l]) = Some log').
  { intros. rewrite lookup_app_r; rewrite app_length; simpl; [|lia].
    by replace (length ls + 1 - length logs) with 0 by lia. }
  (* acknowledged syncs carry over whenever the new log keeps them *)
  assert (Hackold : ∀ log' (pos' : nat → nat) st',
     (∀ a, a `prefix_of` log → length a ≤ pos (fs_start (CTAM.versions s)) →
           a `prefix_of` log' ∧ length a ≤ pos' st') →
     ∀ j id, ls !! j = Some (CTAM.ReplySyncOp id) →
       ∃ i, acknowledges (ls ++ [l]) i j id ∧
         ∃ a, (logs ++ [log']) !! i = Some a ∧ length a ≤ pos' st' ∧
           ∀ k b, j < k → (logs ++ [log']) !! k = Some b → a `prefix_of` b).
  { intros log' pos' st' Hkeep j id Hj.
    destruct (Hack _ _ Hj) as (i&(Hij&Hi&Hj'&Hbet)&a&Ha&Hla&Hpre).
    exists i. split.
    - split_and!; [done|by apply Hlsold|by apply Hlsold|].
      intros m' Hm'. rewrite lookup_app_l; [by apply Hbet|]. apply lookup_lt_Some in Hj. lia.
    - exists a. assert (a `prefix_of` log) as Hal.
      { apply (Hpre (length ls)); [|done]. by apply lookup_lt_Some in Hj. }
      destruct (Hkeep a Hal Hla) as [Hk1 Hk2].
      split_and!; [by apply Hlgold|done|].
      intros k b Hk [Hb|[-> ->]]%Hlginv; [eauto|done]. }
  assert (Hreqold : ∀ log' (pos' : nat → nat) st' id v,
     l ≠ CTAM.CrashOp → l ≠ CTAM.ReqSyncOp id → l ≠ CTAM.ReplySyncOp id →
     log `prefix_of` log' → fs_start (CTAM.versions s) ≤ st' < fs_len (CTAM.versions s) →
     (∀ i, fs_start (CTAM.versions s) ≤ i < fs_len (CTAM.versions s) → pos i ≤ pos' i) →
     CTAM.sync_requests s !! id = Some v →
     ∃ i, i < length (ls ++ [l]) ∧ (ls ++ [l]) !! i = Some (CTAM.ReqSyncOp id) ∧
         (∀ m, i < m < length (ls ++ [l]) → (ls ++ [l]) !! m ≠ Some CTAM.CrashOp ∧
               (ls ++ [l]) !! m ≠ Some (CTAM.ReqSyncOp id) ∧
               (ls ++ [l]) !! m ≠ Some (CTAM.ReplySyncOp id)) ∧
         ∃ a, (logs ++ [log']) !! i = Some a ∧ a `prefix_of` log' ∧
              length a ≤ pos' (max v st')).
  { intros log' pos' st' id v Hl1 Hl2 Hl3 Hpre Hst Hpos Hs.
    destruct (Hreq _ _ Hs) as (Hv&i&Hi&Hli&Hbet&a&Ha&Hal&Hla).
    exists i. rewrite app_length; simpl. split_and!; [lia|by apply Hlsold| |].
    - intros m' Hm'. destruct (decide (m' = length ls)) as [->|].
      + rewrite lookup_app_r, Nat.sub_diag by lia. simpl. split_and!; congruence.
      + rewrite lookup_app_l by lia. apply Hbet. lia.
    - exists a. split_and!; [by apply Hlgold|by etrans|].
      etrans; [exact Hla|]. etrans; [|apply Hpos; lia]. apply Hmono; lia. }
  destruct Hn as [(nv&ne&bop&p&p'&->&Happ&Hp&Hp'&Hnext&->)|[[-> ->]|[(ns&->&Hns&->)|
     [(id&->&Hnone&->)|[(id&v&->&Hsome&Hv&->)|[-> -> ]]]]]]; simpl in *.
  - (* operate *)
    pose proof (fs_last_Some _ _ Hp) as [_ Hpget].
    pose proof (Hshow _ _ Hpget) as Hpshow. rewrite Hposl, take_ge in Hpshow by done.
    pose proof (async_exec_shows _ _ _ _ Hnext Hpshow) as Hex. simpl in Hex.
    set (log' := match bop with
                 | AsyncMap.ExecuteOp req _ => log ++ [req_input req]
                 | _ => log end).
    assert (Hshow' : shows p' log' ∧ log_step (CTAM.OperateOp bop) log log').
    { subst log'. destruct bop as [r|req rep|r]; simpl; try (rewrite Hex; done).
      destruct Hex as (?&?&?). done. }
    destruct Hshow' as [Hp's Hls'].
    assert (Hpre : log `prefix_of` log').
    { subst log'. destruct bop; simpl; try done. by apply prefix_app_r. }
    exists log'. split; [by eapply explained_snoc|].
    assert (Hnv : (∃ x, nv = fs_append (CTAM.versions s) [x]) ∨ nv = CTAM.versions s).
    { destruct Happ as [[? Hd]| ->]; [left|by right]. by apply fs_drop_last_inv in Hd. }
    assert (Hst : fs_start nv = fs_start (CTAM.versions s)) by (by destruct Hnv as [[? ->]| ->]).
    assert (Hnvl : fs_len (CTAM.versions s) ≤ fs_len nv).
    { destruct Hnv as [[? ->]| ->]; [rewrite fs_append_len; simpl|]; lia. }
    set (pos' := λ i, if decide (i = fs_len nv - 1) then length log' else pos i).
    assert (Hposle : ∀ i, fs_start (CTAM.versions s) ≤ i < fs_len (CTAM.versions s) → pos i ≤ length log).
    { intros i Hi. rewrite <- Hposl. apply Hmono; lia. }
    assert (Hlogle : length log ≤ length log') by by apply prefix_length.
    assert (Hpp : ∀ i, fs_start (CTAM.versions s) ≤ i < fs_len (CTAM.versions s) → pos i ≤ pos' i).
    { intros i Hi. unfold pos'. case_decide; [|lia]. specialize (Hposle i Hi). lia. }
    exists log', pos'. split_and!; simpl.
    + apply Hlast.
    + destruct Hnv as [[? ->]| ->]; [|done]. unfold fs_append; simpl. by destruct (fs_entries _).
    + unfold pos'. by rewrite decide_True.
    + intros i j Hij Hj. unfold pos'.
      destruct (decide (j = fs_len nv - 1)), (decide (i = fs_len nv - 1)); try lia.
      * destruct (decide (i < fs_len (CTAM.versions s))); [|destruct Hnv as [[? ->]| ->]].
        -- etrans; [apply Hposle; lia|done].
        -- rewrite fs_append_len in *. simpl in *. lia.
        -- lia.
      * apply Hmono; [lia|]. destruct Hnv as [[? ->]| ->]; [rewrite fs_append_len in *; simpl in *|]; lia.
    + intros i v Hg. unfold pos'. case_decide as Hi.
      * subst i. unfold fs_last in Hp'. rewrite Hp' in Hg. simplify_eq. by rewrite take_ge.
      * pose proof (fs_get_Some _ _ _ Hg) as Hact. unfold fs_is_active in Hact.
        assert (i < fs_len (CTAM.versions s)).
        { destruct Hnv as [[? ->]| ->]; [rewrite fs_append_len in *; simpl in *|]; lia. }
        assert (fs_get nv i = fs_get (CTAM.versions s) i) as Heq.
        { destruct Hnv as [[? ->]| ->]; [|done]. apply fs_append_get_old. unfold fs_is_active. lia. }
        rewrite Heq in Hg. destruct Hpre as [ext ->].
        rewrite take_app_le; [by apply Hshow|]. apply Hposle. lia.
    + intros id v Hs. split; [destruct (Hreq _ _ Hs); lia|].
      rewrite Hst. apply Hreqold; try done.
    + intros j id [Hj|[? ?]]%Hlsinv; [|done]. rewrite Hst. apply Hackold; [|done].
      intros a Ha1 Ha2. split; [by etrans|]. etrans; [done|]. apply Hpp. lia.
  - (* crash *)
    set (st := fs_start (CTAM.versions s)) in *.
    exists (take (pos st) log).
    assert (Hstep : log_step CTAM.CrashOp log (take (pos st) log)) by (exists (drop (pos st) log); by rewrite take_drop).
    split; [by eapply explained_snoc|].
    unfold CTAM.stable_index, fs_first_active_index. fold st.
    assert (Hgl : fs_len (fs_get_prefix (CTAM.versions s) (st + 1)) = st + 1)
      by (apply fs_get_prefix_len; unfold st; lia).
    assert (Hgs : fs_start (fs_get_prefix (CTAM.versions s) (st + 1)) = st)
      by (apply fs_get_prefix_start; unfold st; lia).
    assert (Hpst : pos st ≤ length log) by (rewrite <- Hposl; apply Hmono; lia).
    exists (take (pos st) log), pos. simpl. rewrite Hgl, Hgs. split_and!.
    + apply Hlast.
    + intros He. unfold fs_len in Hgl. rewrite He in Hgl. simpl in *. lia.
    + replace (st + 1 - 1) with st by lia. rewrite take_length. lia.
    + intros i j ? ?. apply Hmono; lia.
    + intros i v Hg. pose proof (fs_get_Some _ _ _ Hg) as Ha.
      unfold fs_is_active in Ha. rewrite Hgs, Hgl in Ha. assert (i = st) as -> by lia.
      rewrite fs_get_prefix_get in Hg by (unfold st in *; lia).
      rewrite take_take, Nat.min_id. by apply Hshow.
    + intros id v. by rewrite lookup_empty.
    + intros j id [Hj|[? ?]]%Hlsinv; [|done]. apply Hackold; [|done].
      intros a [b ->] Ha2. split; [|done].
      rewrite take_app_ge by done. by apply prefix_app_r.
  - (* sync *)
    exists log. split; [by eapply explained_snoc|].
    exists log, pos. simpl.
    unfold CTAM.stable_index, fs_first_active_index in Hns.
    rewrite fs_get_suffix_len by lia. split_and!.
    + apply Hlast.
    + intros He. apply (f_equal length) in He. rewrite drop_length in He. simpl in He.
      unfold fs_len in Hns. lia.
    + done.
    + intros i j ? ?. apply Hmono; lia.
    + intros i v Hg. pose proof (fs_get_Some _ _ _ Hg) as Ha.
      unfold fs_is_active in Ha. simpl in Ha.
      rewrite fs_get_suffix_get in Hg by lia. by apply Hshow.
    + intros id v Hs. split; [destruct (Hreq _ _ Hs); lia|].
      apply Hreqold; try done; lia.
    + intros j id [Hj|[? ?]]%Hlsinv; [|done]. apply Hackold; [|done].
      intros a Ha1 Ha2. split; [done|]. etrans; [done|]. apply Hmono; lia.
  - (* req_sync *)
    exists log. split; [by eapply explained_snoc|].
    exists log, pos. simpl. split_and!; try done.
    + intros id' v Hs. destruct (decide (id' = id)) as [->|Hne'].
      * rewrite lookup_insert in Hs. simplify_eq. split; [lia|].
        exists (length ls). rewrite app_length; simpl. split_and!; [lia| | |].
        -- by rewrite lookup_app_r, Nat.sub_diag by lia.
        -- intros; lia.
        -- exists log. split_and!; [by apply Hlgold|done|].
           rewrite Nat.max_l by lia. lia.
      * rewrite lookup_insert_ne in Hs by done. split; [by destruct (Hreq _ _ Hs)|].
        apply Hreqold; try done; try lia. congruence.
    + intros j id' [Hj|[? ?]]%Hlsinv; [|done]. by apply Hackold.
  - (* reply_sync *)
    exists log. split; [by eapply explained_snoc|].
    exists log, pos. simpl. split_and!; try done.
    + intros id' v' Hs. apply lookup_delete_Some in Hs as [Hne' Hs].
      split; [by destruct (Hreq _ _ Hs)|].
      apply Hreqold; try done; try lia. congruence.
    + intros j id' [Hj|[-> Heq]]%Hlsinv; [by apply Hackold|]. simplify_eq.
      destruct (Hreq _ _ Hsome) as (Hv'&i&Hi&Hli&Hbet&a&Ha&Hal&Hla).
      exists i. split.
      * split_and!; [done|by apply Hlsold| |].
        -- by rewrite lookup_app_r, Nat.sub_diag by lia.
        -- intros m' Hm'. rewrite lookup_app_l by lia. by apply Hbet.
      * exists a. split_and!; [by apply Hlgold| |].
        -- unfold CTAM.stable_index, fs_first_active_index in Hv. rewrite Nat.max_r in Hla by lia. done.
        -- intros k b Hk [Hb|[-> ->]]%Hlginv; [|done].
           apply lookup_lt_Some in Hb. lia.
  - (* noop *)
    exists log. split; [by eapply explained_snoc|].
    exists log, pos. simpl. split_and!; try done.
    + intros id' v Hs. split; [by destruct (Hreq _ _ Hs)|].
      apply Hreqold; try done; lia.
    + intros j id' [Hj|[? ?]]%Hlsinv; [|done]. by apply Hackold.
Qed.

Lemma ctam_run ls s :
  run CTAM.next CTAM.init ls s → ∃ logs, ctam_inv ls logs s.
Proof.
  intros Hr. remember CTAM.init as s0. induction Hr as [s|s ls s' l s'' Hr IH Hn]; subst.
  - eexists. apply ctam_init_inv.
  - destruct IH as [logs IH]; [done|]. destruct (ctam_step_inv _ _ _ _ _ IH Hn) as [log' ?]. eauto.
Qed.

Lemma ctam_explained ls s :
  run CTAM.next CTAM.init ls s →
  ∃ logs log store, explained ls logs ∧ syncs_durable ls logs ∧
    logs !! length ls = Some log ∧ fs_last (CTAM.versions s) = Some store ∧ shows store log.
Proof.
  intros [logs Hi]%ctam_run. destruct Hi as [Hexp (log&pos&Hlog&Hne&Hposl&Hmono&Hshow&_&Hack)].
  destruct (fs_get_active (CTAM.versions s) (fs_len (CTAM.versions s) - 1)) as [st Hst].
  { unfold fs_is_active, fs_len. destruct (fs_entries _); [done|]. simpl. lia. }
  exists logs, log, st. split_and!; [done| |done|done|].
  - intros j id Hj. destruct (Hack _ _ Hj) as (i&?&a&?&?&?). eauto 10.
  - specialize (Hshow _ _ Hst). by rewrite Hposl, take_ge in Hshow.
Qed.

Lemma ctam_prefix ls s :
  run CTAM.next CTAM.init ls s →
  ∃ logs log store, explained ls logs ∧
    logs !! length ls = Some log ∧
    fs_last (CTAM.versions s) = Some store ∧ shows store log.
Proof. intros (logs&log&st&?&_&?)%ctam_explained. eauto. Qed.

Lemma mapspec_query_last_write ls s :
  run MapSpec.next MapSpec.my_init ls s →
  ∀ n key value,
    ls !! n = Some (MapSpec.Query (QueryInput key) (QueryOutput value)) →
    value = last_write key (take n (MapSpec.getInput <$> ls)).
Proof.
  intros [_ Hl]%mapspec_run n k v Hn.
  specialize (Hl n (QueryInput k) (QueryOutput v)).
  rewrite list_lookup_fmap, Hn in Hl. specialize (Hl eq_refl). simpl in Hl.
  rewrite <- list_fmap_compose in Hl. by injection Hl.
Qed.

Lemma async_linearizable tr s :
  run AsyncMap.next AsyncMap.init tr s →
  legal (executed tr) ∧ ∃ m e, linearized tr m e.
Proof. intros (?&_&m&e&?&_)%async_linearized. eauto. Qed.

(** ** Examples *)
Lemma async_example :
  ∃ s, run AsyncMap.next AsyncMap.init
    [AsyncMap.RequestOp (mkReq (PutInput 1 7) 0); AsyncMap.RequestOp (mkReq (QueryInput 1) 1);
     AsyncMap.ExecuteOp (mkReq (QueryInput 1) 1) (mkReply (QueryOutput 0) 1);
     AsyncMap.ExecuteOp (mkReq (PutInput 1 7) 0) (mkReply PutOutput 0);
     AsyncMap.ReplyOp (mkReply PutOutput 0);
     AsyncMap.ReplyOp (mkReply (QueryOutput 0) 1)]%N s.
Proof.
  eexists.
  eapply run_cons. { left. eexists. split_and!; [done|set_solver|done]. }
  eapply run_cons. { left. eexists. split_and!; [done|set_solver|done]. }
  eapply run_cons.
  { right; left. exists (MapSpec.Query (QueryInput 1%N) (QueryOutput 0%N)). eexists _, _, _.
    split_and!; [done|done|set_solver|set_solver|done|done| |done].
    left. eexists _, _. split_and!; [done| |done]. done. }
  eapply run_cons.
  { right; left. exists (MapSpec.Put (PutInput 1%N 7%N) PutOutput). eexists _, _, _.
    split_and!; [done|done|set_solver|set_solver|done|done| |done].
    right; left. eexists _, _. done. }
  eapply run_cons. { right; right. eexists. split_and!; [done|set_solver|done]. }
  eapply run_cons. { right; right. eexists. split_and!; [done|set_solver|done]. }
  constructor.
Qed.

(** Helper: an operation appended as a new version. *)
Lemma ctam_operate_append s p p' ne bop :
  fs_last (CTAM.versions s) = Some p →
  AsyncMap.next (AsyncMap.mkState p (CTAM.async_ephemeral s)) (AsyncMap.mkState p' ne) bop →
  CTAM.next s (CTAM.mkState (fs_append (CTAM.versions s) [p']) ne (CTAM.sync_requests s))
    (CTAM.OperateOp bop).
Proof.
  intros Hp Hn. left. eexists _, _, bop, p, p'. split_and!; [done| |done| |done|done].
  - left. rewrite fs_append_len; simpl. split; [lia|].
    apply fs_last_Some in Hp as [Hne _].
    by destruct (fs_drop_last_append (CTAM.versions s) p').
  - apply fs_last_append.
Qed.
Lemma ctam_operate_same s p ne bop :
  fs_last (CTAM.versions s) = Some p →
  AsyncMap.next (AsyncMap.mkState p (CTAM.async_ephemeral s)) (AsyncMap.mkState p ne) bop →
  CTAM.next s (CTAM.mkState (CTAM.versions s) ne (CTAM.sync_requests s)) (CTAM.OperateOp bop).
Proof.
  intros Hp Hn. left. eexists _, _, bop, p, p. split_and!; [done| |done|done|done|done].
  by right.
Qed.

Ltac sstep :=
  cbn [CTAM.versions CTAM.async_ephemeral CTAM.sync_requests requests replies
       AsyncMap.persistent AsyncMap.ephemeral];
  eapply run_cons.
Ltac compute_decide := apply (bool_decide_unpack _); vm_compute; exact I.

Lemma ctam_example : ∃ s, run CTAM.next CTAM.init ctam_example_trace s.
Proof.
  eexists. unfold ctam_example_trace.
  sstep.
  { eapply ctam_operate_same; [reflexivity|]. left. eexists. split_and!; [reflexivity|compute_decide|reflexivity]. }
  sstep.
  { eapply ctam_operate_append; [reflexivity|]. right; left.
    exists (MapSpec.Put (PutInput 1%N 7%N) PutOutput). eexists _, _, _.
    split_and!; [reflexivity|reflexivity|compute_decide|compute_decide|reflexivity|reflexivity| |reflexivity].
    right; left. eexists _, _. split; reflexivity. }
  sstep.
  { eapply ctam_operate_same; [reflexivity|]. right; right. eexists. split_and!; [reflexivity|compute_decide|reflexivity]. }
  sstep.
  { right; right; right; left. eexists. split_and!; [reflexivity| |reflexivity]. vm_compute; reflexivity. }
  sstep.
  { right; right; left. exists 1.
    split_and!; [reflexivity|unfold CTAM.stable_index, fs_len; simpl; lia..|reflexivity]. }
  sstep.
  { right; right; right; right; left. eexists 5%N, 1. split_and!; [reflexivity|vm_compute; reflexivity| |reflexivity].
    unfold CTAM.stable_index; simpl; lia. }
  sstep.
  { eapply ctam_operate_same; [reflexivity|]. left. eexists. split_and!; [reflexivity|compute_decide|reflexivity]. }
  sstep.
  { eapply ctam_operate_append; [reflexivity|]. right; left.
    exists (MapSpec.Put (PutInput 1%N 9%N) PutOutput). eexists _, _, _.
    split_and!; [reflexivity|reflexivity|compute_decide|compute_decide|reflexivity|reflexivity| |reflexivity].
    right; left. eexists _, _. split; reflexivity. }
  sstep. { right; left. split; reflexivity. }
  sstep.
  { eapply ctam_operate_same; [reflexivity|]. left. eexists. split_and!; [reflexivity|compute_decide|reflexivity]. }
  sstep.
  { eapply ctam_operate_same; [reflexivity|]. right; left.
    exists (MapSpec.Query (QueryInput 1%N) (QueryOutput 7%N)). eexists _, _, _.
    split_and!; [reflexivity|reflexivity|compute_decide|compute_decide|reflexivity|reflexivity| |reflexivity].
    left. eexists _, _. split_and!; [reflexivity| |reflexivity]. vm_compute; reflexivity. }
  constructor.
Qed.
