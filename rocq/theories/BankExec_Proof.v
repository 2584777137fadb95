(** Proofs about the multi-threaded bank program. *)
From Coq Require Import ZifyBool ZifyNat ZifyN.
From Verif Require Export Bank_Proof.
Import SimpleBank.

(** ** What a thread holds *)
Definition holds (p : PC) : list (N * N) :=
  match p with
  | HasFirst req a => [(lo (input req), a)]
  | HasBoth req fa ta => [(from (input req), fa); (to (input req), ta)]
  | Decided req fa ta _ => [(from (input req), fa); (to (input req), ta)]
  | ReleasedFrom req ta _ => [(to (input req), ta)]
  | _ => []
  end.
Definition reads (p : PC) : option (N * N) :=
  match p with SumHeld i _ _ a => Some (i, a) | _ => None end.
Definition pending (p : PC) : option Request :=
  match p with
  | Received req => Some req | HasFirst req _ => Some req | HasBoth req _ _ => Some req
  | _ => None
  end.
Definition answer (p : PC) : option Reply :=
  match p with
  | Decided _ _ _ r => Some r | ReleasedFrom _ _ r => Some r | Answered r => Some r
  | _ => None
  end.
Definition pcid (p : PC) : option N :=
  match pending p with Some r => Some (req_id r) | None => reply_id <$> answer p end.
Definition readw (i : N) (p : PC) : N :=
  match reads p with Some (j, _) => if decide (j = i) then 1 else 0 | None => 0 end%N.
Definition req_ok (n : N) (req : Request) : Prop :=
  from (input req) ≠ to (input req) ∧ (from (input req) < n)%N ∧ (to (input req) < n)%N ∧
  (amt (input req) ≤ u32_max)%N.
Definition pcwf (n : N) (p : PC) : Prop :=
  match p with
  | Received req => (amt (input req) ≤ u32_max)%N
  | HasFirst req _ => req_ok n req
  | HasBoth req _ _ => req_ok n req
  | Decided req _ _ _ => req_ok n req
  | ReleasedFrom req _ _ => req_ok n req
  | Summing i upto _ => (i ≤ upto ≤ n)%N
  | SumHeld i upto _ _ => (i < upto ≤ n)%N
  | _ => True
  end.

Lemma lo_hi i : from i ≠ to i → (lo i < hi i)%N.
Proof. unfold lo, hi. destruct (N.ltb_spec (from i) (to i)); lia. Qed.
Lemma lo_cases i : lo i = from i ∧ hi i = to i ∨ lo i = to i ∧ hi i = from i.
Proof. unfold lo, hi. destruct (_ <? _)%N; auto. Qed.

Lemma pc_move s t p m t' :
  pc (move s t p m) t' = if decide (t' = t) then p else pc s t'.
Proof.
  unfold pc, move. cbn. case_decide as E; [subst; by rewrite lookup_insert|].
  by rewrite lookup_insert_ne.
Qed.
Lemma msum_pc (f : PC → N) (th : gmap N PC) t p :
  f Idle = 0%N → (msum f (<[t := p]> th) + f (default Idle (th !! t)) = msum f th + f p)%N.
Proof.
  intros Hf. destruct (th !! t) as [q|] eqn:E; cbn.
  - by apply msum_update.
  - rewrite msum_new, Hf by done. lia.
Qed.

(** ** The locks *)
Record locks (n : N) (s : State) (m : gmap N N) : Prop := {
  l_slots : dom (slots s) = below n;
  l_accts : dom m = below n;
  l_max : ∀ i a, m !! i = Some a → (a ≤ u32_max)%N;
  l_free : ∀ i a r, slots s !! i = Some (Free a r) → m !! i = Some a;
  l_hold : ∀ t i a, (i, a) ∈ holds (pc s t) → slots s !! i = Some Taken ∧ m !! i = Some a;
  l_taken : ∀ i, slots s !! i = Some Taken → ∃ t a, (i, a) ∈ holds (pc s t);
  l_own : ∀ t t' i a a', (i, a) ∈ holds (pc s t) → (i, a') ∈ holds (pc s t') → t = t';
  l_held : ∀ t i a, reads (pc s t) = Some (i, a) → ∃ r, slots s !! i = Some (Free a (S r));
  l_count : ∀ i a r, slots s !! i = Some (Free a r) → msum (readw i) (threads s) = N.of_nat r;
  l_wcount : ∀ i, slots s !! i = Some Taken → msum (readw i) (threads s) = 0%N
}.

Lemma readw_same i p q : reads p = reads q → readw i p = readw i q.
Proof. unfold readw. by intros ->. Qed.

Lemma msum_move_same s t p m i :
  reads p = reads (pc s t) → msum (readw i) (threads (move s t p m)) = msum (readw i) (threads s).
Proof.
  intros E. pose proof (msum_pc (readw i) (threads s) t p eq_refl) as H.
  rewrite (readw_same i p (default Idle (threads s !! t)) E) in H. cbn [threads move]. lia.
Qed.

(** a step that touches no lock *)
Lemma locks_same n s t p m :
  locks n s m → holds p = holds (pc s t) → reads p = reads (pc s t) →
  locks n (move s t p (slots s)) m.
Proof.
  intros [] Eh Er.
  assert (∀ t', holds (pc (move s t p (slots s)) t') = holds (pc s t')) as Hh.
  { intros t'. rewrite pc_move. case_decide; by subst. }
  assert (∀ t', reads (pc (move s t p (slots s)) t') = reads (pc s t')) as Hr.
  { intros t'. rewrite pc_move. case_decide; by subst. }
  split; intros *; rewrite ?Hh, ?Hr, ?msum_move_same by done; eauto.
  setoid_rewrite Hh. eauto.
Qed.

(** a write lock is acquired *)
Lemma locks_acquire n s t p m k a :
  locks n s m → slots s !! k = Some (Free a 0) →
  (∀ i b, (i, b) ∈ holds p ↔ (i, b) = (k, a) ∨ (i, b) ∈ holds (pc s t)) →
  reads p = reads (pc s t) →
  locks n (move s t p (<[k := Taken]> (slots s))) m.
Proof.
  intros [] Hk Hp Er.
  assert (∀ t', reads (pc (move s t p (<[k := Taken]> (slots s))) t') = reads (pc s t')) as Hr.
  { intros t'. rewrite pc_move. case_decide; by subst. }
  assert (∀ t' i b, (i, b) ∈ holds (pc (move s t p (<[k := Taken]> (slots s))) t') ↔
            t' = t ∧ (i, b) = (k, a) ∨ (i, b) ∈ holds (pc s t')) as Hh.
  { intros t' i b. rewrite pc_move. case_decide; [subst; rewrite Hp; tauto|tauto]. }
  assert (∀ t' b, (k, b) ∉ holds (pc s t')) as Hno.
  { intros t' b Hin. apply l_hold0 in Hin as [? _]. congruence. }
  split; cbn [slots move].
  - rewrite dom_insert_L, l_slots0. apply elem_of_dom_2 in Hk. rewrite l_slots0 in Hk. set_solver.
  - done.
  - done.
  - intros i b r. rewrite lookup_insert_Some. intros [[_ ?]|[_ ?]]; [done|eauto].
  - intros t' i b. rewrite Hh. intros [[-> [= -> ->]]|Hin].
    + rewrite lookup_insert. split; [done|eauto].
    + destruct (decide (i = k)) as [->|ne]; [by apply Hno in Hin|].
      rewrite lookup_insert_ne by done. eauto.
  - intros i. rewrite lookup_insert_Some. intros [[<- _]|[ne Hi]].
    + exists t, a. rewrite Hh. auto.
    + destruct (l_taken0 i Hi) as (t'&b&?). exists t', b. rewrite Hh. auto.
  - intros t1 t2 i b b'. rewrite !Hh. intros [[-> E1]|H1] [[-> E2]|H2]; simplify_eq; try done.
    + by apply Hno in H2.
    + by apply Hno in H1.
    + eauto.
  - intros t' i b. rewrite Hr. intros Hrd. destruct (l_held0 _ _ _ Hrd) as [r Hi].
    exists r. rewrite lookup_insert_ne; [done|]. intros ->. congruence.
  - intros i b r. rewrite lookup_insert_Some. intros [[_ ?]|[_ ?]]; [done|].
    change (threads _) with (threads (move s t p (<[k := Taken]> (slots s)))).
    rewrite msum_move_same by done. eauto.
  - intros i Hi. change (threads _) with (threads (move s t p (<[k := Taken]> (slots s)))).
    rewrite msum_move_same by done. rewrite lookup_insert_Some in Hi.
    destruct Hi as [[<- _]|[_ Hi]]; [by rewrite (l_count0 _ _ _ Hk)|eauto].
Qed.

(** a write lock is released *)
Lemma locks_release n s t p m k a :
  locks n s m → (k, a) ∈ holds (pc s t) →
  (∀ i b, (i, b) ∈ holds p ↔ (i, b) ∈ holds (pc s t) ∧ i ≠ k) →
  reads p = reads (pc s t) →
  locks n (move s t p (<[k := Free a 0]> (slots s))) m.
Proof.
  intros [] Hk Hp Er.
  assert (∀ t', reads (pc (move s t p (<[k := Free a 0]> (slots s))) t') = reads (pc s t')) as Hr.
  { intros t'. rewrite pc_move. case_decide; by subst. }
  assert (∀ t' i b, (i, b) ∈ holds (pc (move s t p (<[k := Free a 0]> (slots s))) t') ↔
            (i, b) ∈ holds (pc s t') ∧ i ≠ k) as Hh.
  { intros t' i b. rewrite pc_move. case_decide; [subst; rewrite Hp; tauto|].
    split; [|tauto]. intros Hin. split; [done|]. intros ->. by assert (t' = t) by eauto. }
  destruct (l_hold0 _ _ _ Hk) as [HT Hm].
  split; cbn [slots move].
  - rewrite dom_insert_L, l_slots0. apply elem_of_dom_2 in HT. rewrite l_slots0 in HT. set_solver.
  - done.
  - done.
  - intros i b r. rewrite lookup_insert_Some. intros [[<- [= <- <-]]|[_ ?]]; [done|eauto].
  - intros t' i b. rewrite Hh. intros [Hin ne]. rewrite lookup_insert_ne by done. eauto.
  - intros i. rewrite lookup_insert_Some. intros [[<- ?]|[ne Hi]]; [done|].
    destruct (l_taken0 i Hi) as (t'&b&?). exists t', b. rewrite Hh. auto.
  - intros t1 t2 i b b'. rewrite !Hh. intros [] []. eauto.
  - intros t' i b. rewrite Hr. intros Hrd. destruct (l_held0 _ _ _ Hrd) as [r Hi].
    exists r. rewrite lookup_insert_ne; [done|]. intros ->. congruence.
  - intros i b r. change (threads _) with (threads (move s t p (<[k := Free a 0]> (slots s)))).
    rewrite lookup_insert_Some, msum_move_same by done.
    intros [[<- [= <- <-]]|[_ ?]]; [by rewrite (l_wcount0 k)|eauto].
  - intros i. change (threads _) with (threads (move s t p (<[k := Free a 0]> (slots s)))).
    rewrite lookup_insert_Some, msum_move_same by done. intros [[_ ?]|[_ ?]]; [done|eauto].
Qed.

(** a read lock is acquired *)
Lemma locks_read n s t p m k a r :
  locks n s m → slots s !! k = Some (Free a r) →
  holds p = holds (pc s t) → reads (pc s t) = None → reads p = Some (k, a) →
  locks n (move s t p (<[k := Free a (S r)]> (slots s))) m.
Proof.
  intros [] Hk Eh Er Ep. set (s' := move s t p (<[k := Free a (S r)]> (slots s))).
  assert (∀ t', holds (pc s' t') = holds (pc s t')) as Hh.
  { intros t'. unfold s'. rewrite pc_move. case_decide; by subst. }
  assert (∀ i, msum (readw i) (threads s') = (msum (readw i) (threads s) + if decide (k = i) then 1 else 0)%N) as Hc.
  { intros i. pose proof (msum_pc (readw i) (threads s) t p eq_refl) as H.
    unfold s'. cbn [threads move]. unfold pc in Er. unfold readw in H at 2 4. rewrite Er, Ep in H. lia. }
  split; intros *; rewrite ?Hh, ?Hc; cbn [slots move s'].
  - rewrite dom_insert_L, l_slots0. apply elem_of_dom_2 in Hk. rewrite l_slots0 in Hk. set_solver.
  - done.
  - eauto.
  - rewrite lookup_insert_Some. intros [[<- [= <- <-]]|[_ ?]]; eauto.
  - intros Hin. destruct (l_hold0 _ _ _ Hin). rewrite lookup_insert_ne; [done|]. intros ->. congruence.
  - rewrite lookup_insert_Some. intros [[<- ?]|[ne Hi]]; [done|].
    setoid_rewrite Hh. eauto.
  - eauto.
  - unfold s'. rewrite pc_move. case_decide.
    + rewrite Ep. intros [= <- <-]. rewrite lookup_insert. eauto.
    + intros Hrd. destruct (l_held0 _ _ _ Hrd) as [r' Hi]. destruct (decide (i = k)) as [->|].
      * rewrite lookup_insert. assert (a0 = a) as -> by congruence. eauto.
      * rewrite lookup_insert_ne by done. eauto.
  - rewrite lookup_insert_Some. intros [[<- [= <- <-]]|[ne Hi]].
    + rewrite (l_count0 _ _ _ Hk), decide_True by done. lia.
    + rewrite (l_count0 _ _ _ Hi), decide_False by done. lia.
  - rewrite lookup_insert_Some. intros [[<- ?]|[ne Hi]]; [done|].
    rewrite (l_wcount0 _ Hi), decide_False by done. done.
Qed.

(** a read lock is released *)
Lemma locks_unread n s t p m k a r :
  locks n s m → slots s !! k = Some (Free a (S r)) →
  holds p = holds (pc s t) → reads (pc s t) = Some (k, a) → reads p = None →
  locks n (move s t p (<[k := Free a r]> (slots s))) m.
Proof.
  intros [] Hk Eh Er Ep. set (s' := move s t p (<[k := Free a r]> (slots s))).
  assert (∀ t', holds (pc s' t') = holds (pc s t')) as Hh.
  { intros t'. unfold s'. rewrite pc_move. case_decide; by subst. }
  assert (∀ i, (msum (readw i) (threads s') + (if decide (k = i) then 1 else 0))%N = msum (readw i) (threads s)) as Hc.
  { intros i. pose proof (msum_pc (readw i) (threads s) t p eq_refl) as H.
    unfold s'. cbn [threads move]. unfold pc in Er. unfold readw in H at 2 4. rewrite Er, Ep in H. lia. }
  split; intros *; rewrite ?Hh; cbn [slots move s'].
  - rewrite dom_insert_L, l_slots0. apply elem_of_dom_2 in Hk. rewrite l_slots0 in Hk. set_solver.
  - done.
  - eauto.
  - rewrite lookup_insert_Some. intros [[<- [= <- <-]]|[_ ?]]; eauto.
  - intros Hin. destruct (l_hold0 _ _ _ Hin). rewrite lookup_insert_ne; [done|]. intros ->. congruence.
  - rewrite lookup_insert_Some. intros [[<- ?]|[ne Hi]]; [done|].
    setoid_rewrite Hh. eauto.
  - eauto.
  - unfold s'. rewrite pc_move. case_decide as Et; [by rewrite Ep|].
    intros Hrd. destruct (l_held0 _ _ _ Hrd) as [r' Hi]. destruct (decide (i = k)) as [->|].
    + rewrite lookup_insert. assert (a0 = a) as -> by congruence.
      (* two readers *)
      destruct r as [|r]; [|eauto]. exfalso.
      specialize (Hc k). rewrite decide_True in Hc by done.
      rewrite (l_count0 _ _ _ Hk) in Hc.
      assert (threads s' !! t0 = Some (pc s t0)) as Ht0.
      { unfold s'. cbn [threads move]. rewrite lookup_insert_ne by done. unfold pc in *.
        destruct (threads s !! t0); [done|]. done. }
      pose proof (msum_le (readw k) _ _ _ Ht0) as Hle. unfold readw at 1 in Hle.
      rewrite Hrd, decide_True in Hle by done. lia.
    + rewrite lookup_insert_ne by done. eauto.
  - specialize (Hc i). rewrite lookup_insert_Some. intros [[<- [= <- <-]]|[ne Hi]].
    + rewrite (l_count0 _ _ _ Hk), decide_True in Hc by done. fold s'. lia.
    + rewrite (l_count0 _ _ _ Hi), decide_False in Hc by done. fold s'. lia.
  - specialize (Hc i). rewrite lookup_insert_Some. intros [[<- ?]|[ne Hi]]; [done|].
    rewrite (l_wcount0 _ Hi), decide_False in Hc by done. fold s'. lia.
Qed.

(** the two balances held by a thread change *)
Lemma locks_transfer n s t p m f k fa ta fa' ta' :
  locks n s m → f ≠ k →
  holds (pc s t) = [(f, fa); (k, ta)] → holds p = [(f, fa'); (k, ta')] →
  reads p = reads (pc s t) → (fa' ≤ u32_max)%N → (ta' ≤ u32_max)%N →
  locks n (move s t p (slots s)) (<[k := ta']> (<[f := fa']> m)).
Proof.
  intros [] ne Hpc Hp Er Hfa Hta.
  assert (∀ t', reads (pc (move s t p (slots s)) t') = reads (pc s t')) as Hr.
  { intros t'. rewrite pc_move. case_decide; by subst. }
  assert ((f, fa) ∈ holds (pc s t)) as Hf by (rewrite Hpc; left).
  assert ((k, ta) ∈ holds (pc s t)) as Hk by (rewrite Hpc; right; left).
  destruct (l_hold0 _ _ _ Hf) as [Tf Mf], (l_hold0 _ _ _ Hk) as [Tk Mk].
  split; cbn [slots move].
  - done.
  - rewrite !dom_insert_L, l_accts0. apply elem_of_dom_2 in Mf, Mk. rewrite l_accts0 in Mf, Mk. set_solver.
  - intros i a. rewrite !lookup_insert_Some. intros [[_ <-]|[_ [[_ <-]|[_ ?]]]]; eauto.
  - intros i a r Hi. rewrite !lookup_insert_ne by (intros ->; congruence). eauto.
  - intros t' i a. rewrite pc_move. case_decide as Et.
    + subst t'. rewrite Hp, !elem_of_cons, elem_of_nil. intros [[= -> ->]|[[= -> ->]|[]]].
      * rewrite lookup_insert_ne, lookup_insert by done. done.
      * rewrite lookup_insert. done.
    + intros Hin. destruct (l_hold0 _ _ _ Hin) as [? ?]. split; [done|].
      rewrite !lookup_insert_ne; [done|intros ->; by assert (t' = t) by eauto..].
  - intros i Hi. destruct (l_taken0 i Hi) as (t'&a&Hin). destruct (decide (t' = t)) as [->|net].
    + rewrite Hpc, !elem_of_cons, elem_of_nil in Hin. exists t. destruct Hin as [[= -> ->]|[[= -> ->]|[]]].
      * exists fa'. rewrite pc_move, decide_True, Hp by done. left.
      * exists ta'. rewrite pc_move, decide_True, Hp by done. right; left.
    + exists t', a. by rewrite pc_move, decide_False.
  - assert (∀ t' i a, (i, a) ∈ holds (pc (move s t p (slots s)) t') → ∃ a', (i, a') ∈ holds (pc s t')) as Hh.
    { intros t' i a. rewrite pc_move. case_decide; [|eauto]. subst t'. rewrite Hp, Hpc.
      rewrite !elem_of_cons, elem_of_nil. intros [[= -> ->]|[[= -> ->]|[]]].
      - exists fa. left.
      - exists ta. right; left. }
    intros t1 t2 i b b' [? H1]%Hh [? H2]%Hh. eauto.
  - intros t' i a. rewrite Hr. eauto.
  - intros i a r. change (threads _) with (threads (move s t p (slots s))).
    rewrite msum_move_same by done. eauto.
  - intros i. change (threads _) with (threads (move s t p (slots s))).
    rewrite msum_move_same by done. eauto.
Qed.

(** ** The requests and replies under way *)
Record ids (s : State) (y : BankSys.State) : Prop := {
  i_req : ∀ r, r ∈ Bank.requests (BankSys.bank y) ↔ ∃ t, pending (pc s t) = Some r;
  i_rep : ∀ r, r ∈ Bank.replies (BankSys.bank y) ↔ ∃ t, answer (pc s t) = Some r;
  i_own : ∀ t t' k, pcid (pc s t) = Some k → pcid (pc s t') = Some k → t = t';
  i_old : ∀ k, k ∈ BankSys.id_history y → (k < next_id s)%N;
  i_new : ∀ t k, pcid (pc s t) = Some k → (k < next_id s)%N
}.

Lemma ids_same s t p m y :
  ids s y → pending p = pending (pc s t) → answer p = answer (pc s t) → ids (move s t p m) y.
Proof.
  intros [] Ep Ea.
  assert (∀ t', pending (pc (move s t p m) t') = pending (pc s t')) as Hp.
  { intros t'. rewrite pc_move. case_decide; by subst. }
  assert (∀ t', answer (pc (move s t p m) t') = answer (pc s t')) as Ha.
  { intros t'. rewrite pc_move. case_decide; by subst. }
  assert (∀ t', pcid (pc (move s t p m) t') = pcid (pc s t')) as Hi.
  { intros t'. unfold pcid. by rewrite Hp, Ha. }
  split; intros *; rewrite ?Hi; eauto.
  - rewrite i_req0. by setoid_rewrite Hp.
  - rewrite i_rep0. by setoid_rewrite Ha.
Qed.

(** The relation between the program and the system model *)
Record rel (n : N) (s : State) (y : BankSys.State) : Prop := {
  rel_count : count s = n;
  rel_wf : ∀ t, pcwf n (pc s t);
  rel_locks : locks n s (Bank.account_map (BankSys.bank y));
  rel_ids : ids s y
}.

Lemma rel_new n v y :
  (v ≤ u32_max)%N → BankSys.initialize y n v → rel n (new n v) y.
Proof.
  intros Hv [Hb Hh]. unfold Bank.initialize in Hb.
  assert (∀ t, pc (new n v) t = Idle) as Hpc.
  { intros t. unfold pc, new. cbn [threads]. by rewrite lookup_empty. }
  assert (∀ i sl, slots (new n v) !! i = Some sl ↔ (i < n)%N ∧ sl = Free v 0) as Hs.
  { intros i sl. unfold new. cbn [slots]. rewrite lookup_gset_to_gmap_Some, elem_of_below. naive_solver. }
  split.
  - done.
  - intros t. by rewrite Hpc.
  - rewrite Hb. cbn [Bank.account_map]. split; intros *; rewrite ?Hpc, ?Hs, ?new_accounts_lookup.
    + apply dom_gset_to_gmap.
    + apply dom_new_accounts.
    + intros [_ ->]. done.
    + intros [? [= -> ->]]. done.
    + cbn [holds]. by rewrite elem_of_nil.
    + by intros [_ ?].
    + cbn [holds]. by rewrite elem_of_nil.
    + done.
    + intros [_ [= _ ->]]. unfold new. cbn [threads]. apply msum_empty.
    + by intros [_ ?].
  - split; intros *; rewrite ?Hb, ?Hh; cbn [Bank.requests Bank.replies].
    + split; [multiset_solver|intros [t Ht]; by rewrite Hpc in Ht].
    + split; [multiset_solver|intros [t Ht]; by rewrite Hpc in Ht].
    + by rewrite Hpc.
    + set_solver.
    + by rewrite Hpc.
Qed.

(** What the system model does for a step *)
Definition sys_steps (y : BankSys.State) (l : Label) (y' : BankSys.State) : Prop :=
  match l with Client b => BankSys.next y y' b | _ => y' = y end.

(** Executing a request: the thread's request turns into its reply. *)
Lemma ids_execute s t p m y y' req reply a :
  ids s y → sys_inv y → pending (pc s t) = Some req → pending p = None → answer p = Some reply →
  reply_id reply = req_id req →
  y' = BankSys.mk (Bank.mk (Bank.total_accounts (BankSys.bank y)) (Bank.total_amount (BankSys.bank y)) a
                         (Bank.requests (BankSys.bank y) ∖ {[+ req +]})
                         (Bank.replies (BankSys.bank y) ⊎ {[+ reply +]}))
                      (BankSys.id_history y) →
  ids (move s t p m) y'.
Proof.
  intros [] (Hm1&Hm2&Hu1&Hu2&Hd&Hh1&Hh2) Hreq Hpn Hpa Hid ->.
  assert (answer (pc s t) = None) as Han by (destruct (pc s t); done).
  assert (pcid (pc s t) = Some (req_id req)) as Hpc by (unfold pcid; by rewrite Hreq).
  assert (∀ t', pcid (pc (move s t p m) t') = pcid (pc s t')) as Hi.
  { intros t'. rewrite pc_move. case_decide; [subst t'|done].
    unfold pcid. rewrite Hpn, Hpa, Hreq. cbn. by f_equal. }
  split; intros *; rewrite ?Hi; cbn [BankSys.bank BankSys.id_history Bank.requests Bank.replies next_id move]; eauto.
  - rewrite gms_diff_elem, i_req0 by done. split.
    + intros [[t' Ht'] ne]. exists t'. rewrite pc_move, decide_False; [done|]. intros ->. congruence.
    + intros [t' Ht']. rewrite pc_move in Ht'. case_decide as Et; [congruence|].
      split; [eauto|]. intros ->. apply Et. apply (i_own0 _ _ (req_id req)); [|done].
      unfold pcid. by rewrite Ht'.
  - rewrite gms_add_elem, i_rep0. split.
    + intros [[t' Ht']| ->].
      * exists t'. rewrite pc_move, decide_False; [done|]. intros ->. congruence.
      * exists t. by rewrite pc_move, decide_True.
    + intros [t' Ht']. rewrite pc_move in Ht'. case_decide; [right; congruence|left; eauto].
Qed.

Lemma hold_in p l : holds p = l → ∀ x, x ∈ holds p ↔ x ∈ l.
Proof. by intros ->. Qed.

Lemma prog_next n s s' l y :
  rel n s y → sys_inv y → next s s' l → (next_id s < u64_max + 1)%N →
  (∀ r, l = Client (RequestOp r) → (next_id s < u64_max)%N) →
  ∃ y', sys_steps y l y' ∧ rel n s' y'.
Proof.
  intros [Hc Hwf HL HI] Hinv [t Hstep] Hid Hid'.
  assert (∀ p m, pcwf n p → ∀ t', pcwf n (pc (move s t p m) t')) as Hwf'.
  { intros p m Hp t'. rewrite pc_move. case_decide; [done|apply Hwf]. }
  specialize (Hwf t) as Ht.
  destruct Hstep as [(i&Hpc&Hi&->&->)|[(i&upto&Hpc&Hi&->&->)|Hstep]].
  { (* receive *)
    set (req := mkRequest i (next_id s)).
    specialize (Hid' _ eq_refl).
    exists (BankSys.mk (Bank.mk (Bank.total_accounts (BankSys.bank y)) (Bank.total_amount (BankSys.bank y))
                         (Bank.account_map (BankSys.bank y))
                         (Bank.requests (BankSys.bank y) ⊎ {[+ req +]}) (Bank.replies (BankSys.bank y)))
                      ({[req_id req]} ∪ BankSys.id_history y)).
    split.
    { cbn [sys_steps]. apply sys_step_iff. constructor; [|done]. intros Hin. apply (i_old _ _ HI) in Hin.
      cbn in Hin. lia. }
    rewrite N.mod_small by lia.
    assert (∀ t', pc (mk (slots s) (count s) (<[t:=Received req]> (threads s)) (next_id s + 1)) t' =
              if decide (t' = t) then Received req else pc s t') as Hpc'.
    { intros t'. rewrite <- (pc_move s t _ (slots s)). done. }
    split; [done| | |].
    - intros t'. rewrite Hpc'. case_decide; [|apply Hwf]. cbn. by destruct Hi as (_&_&?).
    - pose proof (locks_same n s t (Received req) _ HL) as HL'. rewrite Hpc in HL'.
      specialize (HL' eq_refl eq_refl). destruct HL'. split; done.
    - destruct HI. split; intros *; rewrite ?Hpc';
        cbn [BankSys.bank BankSys.id_history Bank.requests Bank.replies next_id].
      + rewrite gms_add_elem, i_req0. setoid_rewrite Hpc'. split.
        * intros [[t' Ht']| ->].
          -- exists t'. rewrite decide_False; [done|]. intros ->. by rewrite Hpc in Ht'.
          -- exists t. by rewrite decide_True.
        * intros [t' Ht']. case_decide; [right; cbn in Ht'; congruence|left; eauto].
      + rewrite i_rep0. setoid_rewrite Hpc'. split; intros [t' Ht']; exists t'.
        * rewrite decide_False; [done|]. intros ->. by rewrite Hpc in Ht'.
        * by case_decide.
      + assert (∀ t1, pcid (pc s t1) ≠ Some (next_id s)) as Hfresh.
        { intros t1 Ht1. apply i_new0 in Ht1. lia. }
        repeat case_decide; cbn; intros; simplify_eq; try done; eauto.
        * by destruct (Hfresh t').
        * by destruct (Hfresh t0).
      + rewrite elem_of_union, elem_of_singleton. cbn. intros [->|Hk%i_old0]; lia.
      + case_decide; cbn.
        * intros [= <-]. lia.
        * intros Hk%i_new0. lia. }
  { (* start a sum *)
    exists y. split; [done|]. split; [done| | |].
    - apply Hwf'. cbn. lia.
    - apply locks_same; rewrite ?Hpc; done.
    - apply ids_same; rewrite ?Hpc; done. }
  destruct Hstep as [(req&Hpc&Hbad&->&->)|[(req&a&Hpc&Hok&Hsl&->&->)|[(req&a&b&Hpc&Hsl&->&->)|
    [(req&fa&ta&fa'&ta'&Hpc&Hen&Hnb&->&->)|[(req&fa&ta&Hpc&Hen&->&->)|[(req&fa&ta&reply&Hpc&->&->)|
    [(req&ta&reply&Hpc&->&->)|[(reply&Hpc&->&->)|[(i&upto&total&a&r&Hpc&Hlt&Hsl&->&->)|
    [(i&upto&total&a&r&Hpc&Hsl&->&->)|[(i&upto&total&Hpc&Hge&->&->)|(total&Hpc&->&->)]]]]]]]]]]];
    rewrite Hpc in Ht; cbn [pcwf] in Ht.
  - (* reject *)
    assert (req ∈ Bank.requests (BankSys.bank y)) as Hin.
    { apply (i_req _ _ HI). exists t. by rewrite Hpc. }
    eexists. split.
    { cbn [sys_steps]. apply sys_step_iff. eapply sv_execute; [done|done|done|reflexivity]. }
    split; [done| | |].
    + by apply Hwf'.
    + cbn [BankSys.bank Bank.account_map]. apply locks_same; rewrite ?Hpc; done.
    + eapply ids_execute; [done|done|by rewrite Hpc|done..].
  - (* lock_first *)
    exists y. split; [done|]. split; [done| | |].
    + apply Hwf'. cbn. unfold invalid in Hok. rewrite Hc in Hok. unfold req_ok. split_and!; lia.
    + eapply locks_acquire; [done|done| |by rewrite Hpc].
      intros i b. rewrite Hpc. cbn [holds]. rewrite elem_of_list_singleton, elem_of_nil. tauto.
    + apply ids_same; rewrite ?Hpc; done.
  - (* lock_second *)
    exists y. split; [done|].
    assert (∃ fa ta, (if (from (input req) <? to (input req))%N then HasBoth req a b else HasBoth req b a) =
              HasBoth req fa ta ∧
              (∀ i c, (i, c) ∈ [(from (input req), fa); (to (input req), ta)] ↔
                 (i, c) = (hi (input req), b) ∨ (i, c) ∈ [(lo (input req), a)])) as (fa&ta&Ep&Hh).
    { unfold lo, hi. destruct (_ <? _)%N; eexists _, _; (split; [done|]); intros i c;
        rewrite !elem_of_cons, !elem_of_nil; tauto. }
    rewrite Ep. split; [done| | |].
    + by apply Hwf'.
    + eapply locks_acquire; [done|done| |by rewrite Hpc]. rewrite Hpc. done.
    + apply ids_same; rewrite ?Hpc; done.
  - (* transfer *)
    destruct Ht as (ne&Hf&Hk&Ham).
    assert (req ∈ Bank.requests (BankSys.bank y)) as Hin.
    { apply (i_req _ _ HI). exists t. by rewrite Hpc. }
    unfold new_balances in Hnb. case_decide as Hdec; [|done]. simplify_eq.
    destruct (l_hold _ _ _ HL t (from (input req)) fa) as [_ Mf]; [rewrite Hpc; left|].
    destruct (l_hold _ _ _ HL t (to (input req)) ta) as [_ Mt]; [rewrite Hpc; right; left|].
    pose proof (l_max _ _ _ HL _ _ Mf) as Hmf.
    eexists. split.
    { cbn [sys_steps]. apply sys_step_iff. eapply sv_execute; [done|done| |reflexivity].
      cbn [succeeded]. exists fa, ta. split_and!; try done. lia. }
    split; [done| | |].
    + apply Hwf'. cbn. by split_and!.
    + cbn [BankSys.bank Bank.account_map]. eapply locks_transfer; [done|done|rewrite Hpc; done|done|by rewrite Hpc|lia|lia].
    + eapply ids_execute; [done|done|by rewrite Hpc|done..].
  - (* decline *)
    assert (req ∈ Bank.requests (BankSys.bank y)) as Hin.
    { apply (i_req _ _ HI). exists t. by rewrite Hpc. }
    eexists. split.
    { cbn [sys_steps]. apply sys_step_iff. eapply sv_execute; [done|done|done|reflexivity]. }
    split; [done| | |].
    + by apply Hwf'.
    + cbn [BankSys.bank Bank.account_map]. apply locks_same; rewrite ?Hpc; done.
    + eapply ids_execute; [done|done|by rewrite Hpc|done..].
  - (* release_from *)
    exists y. split; [done|]. split; [done| | |].
    + by apply Hwf'.
    + eapply locks_release; [done|rewrite Hpc; left| |by rewrite Hpc].
      intros i b. rewrite Hpc. cbn [holds]. rewrite !elem_of_cons, elem_of_nil. destruct Ht as (ne&_).
      split; [intros [[= -> ->]|[]]; auto|intros [[[= -> ->]|[[= -> ->]|[]]] ?]; auto]; done.
    + apply ids_same; rewrite ?Hpc; done.
  - (* release_to *)
    exists y. split; [done|]. split; [done| | |].
    + by apply Hwf'.
    + eapply locks_release; [done|rewrite Hpc; left| |by rewrite Hpc].
      intros i b. rewrite Hpc. cbn [holds]. rewrite !elem_of_cons, elem_of_nil.
      split; [done|intros [[[= -> ->]|[]] ?]; done].
    + apply ids_same; rewrite ?Hpc; done.
  - (* send *)
    assert (reply ∈ Bank.replies (BankSys.bank y)) as Hin.
    { apply (i_rep _ _ HI). exists t. by rewrite Hpc. }
    eexists. split.
    { cbn [sys_steps]. apply sys_step_iff. eapply sv_reply; [done|reflexivity]. }
    split; [done| | |].
    + by apply Hwf'.
    + cbn [BankSys.bank Bank.account_map]. apply locks_same; rewrite ?Hpc; done.
    + destruct Hinv as (Hm1&Hm2&Hu1&Hu2&Hd&Hh1&Hh2). destruct HI.
      assert (∀ t' k, pcid (pc (move s t Idle (slots s)) t') = Some k → t' ≠ t ∧ pcid (pc s t') = Some k) as Hi.
      { intros t' k. rewrite pc_move. case_decide; [done|auto]. }
      split; intros *; cbn [BankSys.bank BankSys.id_history Bank.requests Bank.replies next_id move]; eauto.
      * rewrite i_req0. split; intros [t' Ht']; exists t'; rewrite pc_move in *.
        -- rewrite decide_False; [done|]. intros ->. by rewrite Hpc in Ht'.
        -- by case_decide.
      * rewrite gms_diff_elem, i_rep0 by done. split.
        -- intros [[t' Ht'] ne]. exists t'. rewrite pc_move, decide_False; [done|]. intros ->.
           rewrite Hpc in Ht'. cbn in Ht'. congruence.
        -- intros [t' Ht']. rewrite pc_move in Ht'. case_decide as Et; [done|].
           split; [eauto|]. intros ->. apply Et. apply (i_own0 _ _ (reply_id reply)).
           ++ unfold pcid. rewrite Ht'. destruct (pc s t'); done.
           ++ by rewrite Hpc.
      * intros [_ ?]%Hi [_ ?]%Hi. eauto.
      * intros [_ ?]%Hi. eauto.
  - (* sum_acquire *)
    exists y. split; [done|]. split; [done| | |].
    + apply Hwf'. cbn. lia.
    + eapply locks_read; rewrite ?Hpc; done.
    + apply ids_same; rewrite ?Hpc; done.
  - (* sum_release *)
    exists y. split; [done|]. split; [done| | |].
    + apply Hwf'. case_decide; cbn; lia.
    + eapply locks_unread; rewrite ?Hpc; try done; by case_decide.
    + apply ids_same; rewrite ?Hpc; [done|by case_decide..].
  - (* sum_finish *)
    exists y. split; [done|]. split; [done| | |].
    + by apply Hwf'.
    + apply locks_same; rewrite ?Hpc; done.
    + apply ids_same; rewrite ?Hpc; done.
  - (* sum_return *)
    exists y. split; [done|]. split; [done| | |].
    + by apply Hwf'.
    + apply locks_same; rewrite ?Hpc; done.
    + apply ids_same; rewrite ?Hpc; done.
Qed.

(** ** Runs of the program *)
Lemma clients_snoc ls l :
  clients (ls ++ [l]) = clients ls ++ match l with Client b => [b] | _ => [] end.
Proof. unfold clients. rewrite omap_app. by destruct l. Qed.

Lemma next_id_step s s' l :
  next s s' l → (next_id s < u64_max)%N →
  next_id s' = (next_id s + N.of_nat (times is_request (match l with Client b => [b] | _ => [] end)))%N.
Proof.
  intros [t [(i&?&?&->&->)|[(i&upto&?&?&->&->)|H]]] Hlt.
  - cbn. rewrite N.mod_small; lia.
  - cbn. lia.
  - unfold progress, reject, lock_first, lock_second, transfer, decline, release_from, release_to, send,
      sum_acquire, sum_release, sum_finish, sum_return in H.
    repeat match goal with
           | H : ∃ _, _ |- _ => destruct H
           | H : _ ∧ _ |- _ => destruct H
           | H : _ ∨ _ |- _ => destruct H
           end; subst; cbn; lia.
Qed.

Lemma prog_refines n v ls s :
  (v ≤ u32_max)%N → run next (new n v) ls s →
  (N.of_nat (times is_request (clients ls)) ≤ u64_max)%N →
  ∃ y0 y, BankSys.initialize y0 n v ∧ run BankSys.next y0 (clients ls) y ∧ rel n s y ∧
    next_id s = N.of_nat (times is_request (clients ls)).
Proof.
  intros Hv Hr. remember (new n v) as s0 eqn:E0.
  induction Hr as [s|s ls s1 l s2 Hr IH Hn]; intros Hb; subst.
  - set (y0 := BankSys.mk (Bank.mk n (v * n) (new_accounts n v) ∅ ∅) ∅).
    assert (BankSys.initialize y0 n v) as Hi by done.
    exists y0, y0. split; [done|]. split; [constructor|]. split; [by apply rel_new|done].
  - rewrite clients_snoc, times_app in Hb |- *.
    destruct (IH eq_refl) as (y0&y&Hi&Hry&HR&Hid); [lia|].
    pose proof (sys_reach _ _ _ _ _ Hi Hry) as Hinv.
    destruct (prog_next n s1 s2 l y HR Hinv Hn) as (y'&Hs&HR').
    { lia. }
    { intros r ->. cbn in Hb. unfold times in Hid, Hb. cbn in Hb. lia. }
    exists y0, y'. split; [done|]. split; [|split; [done|]].
    + unfold sys_steps in Hs. destruct l; [by econstructor|subst y'; by rewrite app_nil_r..].
    + destruct (decide (next_id s1 < u64_max)%N) as [Hlt|Hge].
      { rewrite (next_id_step _ _ _ Hn Hlt), Hid. lia. }
      assert (times is_request (match l with Client b => [b] | _ => [] end) = 0) as E by lia.
      destruct Hn as [t [(i&?&?&->&->)|[(i&upto&?&?&->&->)|H]]].
      * cbn in E. done.
      * cbn. lia.
      * unfold progress, reject, lock_first, lock_second, transfer, decline, release_from, release_to, send,
          sum_acquire, sum_release, sum_finish, sum_return in H.
        repeat match goal with
           | H : ∃ _, _ |- _ => destruct H
           | H : _ ∧ _ |- _ => destruct H
           | H : _ ∨ _ |- _ => destruct H
           end; subst; cbn; lia.
Qed.

(** ** Balances *)
Lemma prog_stands n v ls s :
  (v ≤ u32_max)%N → run next (new n v) ls s →
  (N.of_nat (times is_request (clients ls)) ≤ u64_max)%N → no_writer s →
  stands_at s (balances n v (clients ls)) ∧ money (balances n v (clients ls)) = (v * n)%N.
Proof.
  intros Hv Hr Hb Hnw. destruct (prog_refines n v ls s Hv Hr Hb) as (y0&y&Hi&Hry&HR&_).
  rewrite <- (sys_balances _ _ _ _ _ Hi Hry).
  split; [|apply (sys_conserves _ _ _ _ _ Hi Hry)]. pose proof (rel_locks _ _ _ HR) as HL.
  intros i a. split.
  - intros Hm. pose proof (elem_of_dom_2 _ _ _ Hm) as Hd. rewrite (l_accts _ _ _ HL) in Hd.
    rewrite <- (l_slots _ _ _ HL) in Hd. apply elem_of_dom in Hd as [[b r|] Hs]; [|by apply Hnw in Hs].
    exists r. rewrite Hs. do 2 f_equal. apply (l_free _ _ _ HL) in Hs. congruence.
  - intros [r Hs]. by eapply l_free.
Qed.

Lemma prog_bounds n v ls s :
  (v ≤ u32_max)%N → run next (new n v) ls s →
  (N.of_nat (times is_request (clients ls)) ≤ u64_max)%N →
  (∀ i a r, slots s !! i = Some (Free a r) → (a ≤ u32_max)%N) ∧ ∀ t, ¬ panics s t.
Proof.
  intros Hv Hr Hb. destruct (prog_refines n v ls s Hv Hr Hb) as (y0&y&Hi&Hry&HR&_). split.
  - intros i a r Hs. eapply l_max; [by apply HR|]. eapply l_free; [by apply HR|done].
  - intros t (req&fa&ta&Hpc&[]&Hnb). pose proof (rel_wf _ _ _ HR t) as Ht. rewrite Hpc in Ht.
    destruct Ht as (?&?&?&?). unfold new_balances in Hnb. case_decide as Hd; [done|]. lia.
Qed.

Lemma prog_decides n v ls s s' req reply :
  (v ≤ u32_max)%N → run next (new n v) ls s →
  (N.of_nat (times is_request (clients ls)) ≤ u64_max)%N →
  next s s' (Client (ExecuteOp req reply)) →
  reply_id reply = req_id req ∧
  (succeeded reply = true ↔
   from (input req) ≠ to (input req) ∧
   ∃ fa ta, balances n v (clients ls) !! from (input req) = Some fa ∧
            balances n v (clients ls) !! to (input req) = Some ta ∧
            (amt (input req) ≤ fa)%N ∧ (ta + amt (input req) ≤ u32_max)%N).
Proof.
  intros Hv Hr Hb Hn. destruct (prog_refines n v ls s Hv Hr Hb) as (y0&y&Hi&Hry&HR&_).
  rewrite <- (sys_balances _ _ _ _ _ Hi Hry). set (m := Bank.account_map _).
  pose proof (rel_locks _ _ _ HR) as HL. pose proof (rel_count _ _ _ HR) as Hc.
  destruct Hn as [t [(i&?&?&?&->)|[(i&upto&?&?&?&->)|Hstep]]]; [done..|].
  pose proof (rel_wf _ _ _ HR t) as Ht.
  destruct Hstep as [(req'&Hpc&Hbad&El&->)|[(req'&a&Hpc&Hok&Hsl&El&->)|[(req'&a&b&Hpc&Hsl&El&->)|
    [(req'&fa&ta&fa'&ta'&Hpc&Hen&Hnb&El&->)|[(req'&fa&ta&Hpc&Hen&El&->)|[(req'&fa&ta&reply'&Hpc&El&->)|
    [(req'&ta&reply'&Hpc&El&->)|[(reply'&Hpc&El&->)|[(i&upto&total&a&r&Hpc&Hlt&Hsl&El&->)|
    [(i&upto&total&a&r&Hpc&Hsl&El&->)|[(i&upto&total&Hpc&Hge&El&->)|(total&Hpc&El&->)]]]]]]]]]]];
    simplify_eq El; intros; subst; rewrite Hpc in Ht; cbn [reply_id succeeded pcwf] in *; (split; [done|]).
  - split; [done|]. intros (ne&fa&ta&Hf&Hk&_).
    apply elem_of_dom_2 in Hf, Hk. unfold m in Hf, Hk. rewrite (l_accts _ _ _ HL), elem_of_below in Hf, Hk.
    unfold invalid in Hbad. lia.
  - split; [intros _|done]. destruct Ht as (ne&?&?&?). split; [done|].
    exists fa, ta. destruct Hen.
    destruct (l_hold _ _ _ HL t (from (input req')) fa) as [_ Mf]; [rewrite Hpc; left|].
    destruct (l_hold _ _ _ HL t (to (input req')) ta) as [_ Mt]; [rewrite Hpc; right; left|].
    split_and!; try done. lia.
  - split; [done|]. intros (ne&fa'&ta'&Hf&Hk&?&?). exfalso. apply Hen.
    destruct (l_hold _ _ _ HL t (from (input req')) fa) as [_ Mf]; [rewrite Hpc; left|].
    destruct (l_hold _ _ _ HL t (to (input req')) ta) as [_ Mt]; [rewrite Hpc; right; left|].
    unfold m in Hf, Hk. simplify_eq. unfold enough. lia.
Qed.

(** ** No deadlock, and every call can finish *)
Definition weight (p : PC) : N :=
  match p with
  | Idle => 0 | Received _ => 6 | HasFirst _ _ => 5 | HasBoth _ _ _ => 4 | Decided _ _ _ _ => 3
  | ReleasedFrom _ _ _ => 2 | Answered _ => 1
  | Summing i upto _ => 2 * (upto - i) + 2
  | SumHeld i upto _ _ => 2 * (upto - i) + 1
  | SumDone _ => 1
  end%N.

Lemma progress_weight n t s s' l :
  progress t s s' l → pcwf n (pc s t) →
  (msum weight (threads s') < msum weight (threads s))%N ∧
  times is_request (match l with Client b => [b] | _ => [] end) = 0.
Proof.
  intros H Hwf.
  assert (∃ p m, s' = move s t p m ∧ (weight p < weight (pc s t))%N ∧
            times is_request (match l with Client b => [b] | _ => [] end) = 0) as (p&m&->&Hw&?).
  { destruct H as [(req'&Hpc&Hbad&->&->)|[(req'&a&Hpc&Hok&Hsl&->&->)|[(req'&a&b&Hpc&Hsl&->&->)|
    [(req'&fa&ta&fa'&ta'&Hpc&Hen&Hnb&->&->)|[(req'&fa&ta&Hpc&Hen&->&->)|[(req'&fa&ta&reply'&Hpc&->&->)|
    [(req'&ta&reply'&Hpc&->&->)|[(reply'&Hpc&->&->)|[(i&upto&total&a&r&Hpc&Hlt&Hsl&->&->)|
    [(i&upto&total&a&r&Hpc&Hsl&->&->)|[(i&upto&total&Hpc&Hge&->&->)|(total&Hpc&->&->)]]]]]]]]]]];
    rewrite Hpc in *; cbn [pcwf] in Hwf; eexists _, _; (split; [reflexivity|]); (split; [|done]); cbn [weight]; try lia.
    - destruct (_ <? _)%N; cbn [weight]; lia.
    - case_decide; cbn [weight]; lia. }
  split; [|done]. pose proof (msum_pc weight (threads s) t p eq_refl) as E.
  cbn [threads move]. unfold pc in Hw. lia.
Qed.

Section deadlock.
  Context (n : N) (s : State) (y : BankSys.State) (HR : rel n s y).
  Definition can_step : Prop := ∃ t s' l, progress t s s' l.

  Lemma slot_status i :
    (i < n)%N →
    (∃ a, slots s !! i = Some (Free a 0)) ∨ can_step ∨
    (slots s !! i = Some Taken ∧ ∃ t req a, pc s t = HasFirst req a ∧ lo (input req) = i).
  Proof.
    intros Hi. pose proof (rel_locks _ _ _ HR) as HL.
    rewrite <- elem_of_below, <- (l_slots _ _ _ HL), elem_of_dom in Hi.
    destruct Hi as [[a [|r]|] Hs].
    - eauto.
    - right; left. pose proof (l_count _ _ _ HL _ _ _ Hs) as Hc.
      assert (∃ t p, threads s !! t = Some p ∧ readw i p ≠ 0%N) as (t&p&Ht&Hp).
      { destruct (decide (map_Exists (λ _ p, readw i p ≠ 0%N) (threads s))) as [(t&p&?&?)|Hno]; [eauto|].
        exfalso. assert (msum (readw i) (threads s) = 0%N); [|lia]. apply msum_zero.
        intros k q Hk. destruct (decide (readw i q = 0%N)) as [|ne]; [done|]. destruct Hno. by exists k, q. }
      assert (pc s t = p) as Hpc by (unfold pc; by rewrite Ht).
      destruct p as [| | | | | | | |i' upto total a'|]; try done. unfold readw in Hp. cbn in Hp.
      case_decide; [subst i'|done].
      destruct (l_held _ _ _ HL t i a') as [r' Hs']; [by rewrite Hpc|].
      exists t. eexists _, _. do 9 right; left. by exists i, upto, total, a', r'.
    - destruct (l_taken _ _ _ HL _ Hs) as (t&a&Hin). right.
      destruct (pc s t) as [| |req a'|req fa ta|req fa ta reply|req ta reply| | | |] eqn:Hpc; cbn in Hin;
        try (by apply elem_of_nil in Hin).
      + right. split; [done|]. exists t, req, a'. apply elem_of_list_singleton in Hin. by simplify_eq.
      + left. exists t. destruct (decide (amt (input req) ≤ fa ∧ ta ≤ u32_max - amt (input req))%N) as [He|He].
        * destruct (new_balances req fa ta) as [[fa' ta']|] eqn:Enb.
          -- eexists _, _. do 3 right; left. by exists req, fa, ta, fa', ta'.
          -- exfalso. pose proof (rel_wf _ _ _ HR t) as Hw. rewrite Hpc in Hw. destruct Hw as (_&_&_&?).
             unfold new_balances in Enb. case_decide as Hd; [done|]. lia.
        * eexists _, _. do 4 right; left. by exists req, fa, ta.
      + left. exists t. eexists _, _. do 5 right; left. by exists req, fa, ta, reply.
      + left. exists t. eexists _, _. do 6 right; left. by exists req, ta, reply.
  Qed.

  Lemma first_steps k :
    ∀ t req a, pc s t = HasFirst req a → N.to_nat (n - lo (input req)) ≤ k → can_step.
  Proof.
    induction k as [|k IH]; intros t req a Hpc Hk;
      pose proof (rel_wf _ _ _ HR t) as Hw; rewrite Hpc in Hw; destruct Hw as (ne&Hf&Ht&_);
      pose proof (lo_hi _ ne); destruct (lo_cases (input req)) as [[E1 E2]|[E1 E2]]; try lia.
    all: destruct (slot_status (hi (input req))) as [[b Hs]|[?|[_ (t'&req'&a'&Hpc'&E)]]]; [lia| |done|].
    all: try (exists t; eexists _, _; do 2 right; left; by exists req, a, b).
    all: apply (IH t' req' a' Hpc'); lia.
  Qed.

  Lemma busy_steps t : pc s t ≠ Idle → can_step.
  Proof.
    intros Hbusy. pose proof (rel_wf _ _ _ HR t) as Hw.
    destruct (pc s t) as [|req|req a|req fa ta|req fa ta reply|req ta reply|reply|i upto total|i upto total a|total] eqn:Hpc;
      cbn [pcwf] in Hw.
    - done.
    - destruct (decide (from (input req) = to (input req) ∨ (count s ≤ from (input req))%N ∨ (count s ≤ to (input req))%N)) as [Hb|Hb].
      { exists t. eexists _, _. left. by exists req. }
      assert (lo (input req) < n)%N as Hlo.
      { rewrite (rel_count _ _ _ HR) in Hb. destruct (lo_cases (input req)) as [[-> _]|[-> _]]; lia. }
      destruct (slot_status _ Hlo) as [[a Hs]|[?|[_ (t'&req'&a'&Hpc'&E)]]]; [|done|by eapply first_steps].
      exists t. eexists _, _. right; left. by exists req, a.
    - by eapply first_steps.
    - exists t. destruct (decide (amt (input req) ≤ fa ∧ ta ≤ u32_max - amt (input req))%N) as [He|He].
      * destruct (new_balances req fa ta) as [[fa' ta']|] eqn:Enb.
        -- eexists _, _. do 3 right; left. by exists req, fa, ta, fa', ta'.
        -- exfalso. destruct Hw as (_&_&_&?). unfold new_balances in Enb. case_decide as Hd; [done|]. lia.
      * eexists _, _. do 4 right; left. by exists req, fa, ta.
    - exists t. eexists _, _. do 5 right; left. by exists req, fa, ta, reply.
    - exists t. eexists _, _. do 6 right; left. by exists req, ta, reply.
    - exists t. eexists _, _. do 7 right; left. by exists reply.
    - destruct (decide (upto ≤ i)%N).
      { exists t. eexists _, _. do 10 right; left. by exists i, upto, total. }
      destruct (slot_status i) as [[a Hs]|[?|[_ (t'&req'&a'&Hpc'&E)]]]; [lia| |done|by eapply first_steps].
      exists t. eexists _, _. do 8 right; left. exists i, upto, total, a, 0. split_and!; try done. lia.
    - destruct (l_held _ _ _ (rel_locks _ _ _ HR) t i a) as [r Hs]; [by rewrite Hpc|].
      exists t. eexists _, _. do 9 right; left. by exists i, upto, total, a, r.
    - exists t. eexists _, _. do 11 right. by exists total.
  Qed.
End deadlock.

Lemma idle_or_busy s : all_idle s ∨ ∃ t, pc s t ≠ Idle.
Proof.
  destruct (decide (map_Exists (λ _ p, weight p ≠ 0%N) (threads s))) as [(t&p&Ht&Hp)|Hno].
  - right. exists t. unfold pc. rewrite Ht. cbn. by intros ->.
  - left. intros t. unfold pc. destruct (threads s !! t) as [p|] eqn:E; [|done]. cbn.
    destruct (decide (weight p = 0%N)) as [Hz|Hz]; [|destruct Hno; by exists t, p].
    destruct p; cbn in Hz; try lia. done.
Qed.

Lemma prog_finishes n v ls s :
  (v ≤ u32_max)%N → run next (new n v) ls s →
  (N.of_nat (times is_request (clients ls)) ≤ u64_max)%N →
  ∃ ls' s', run next s ls' s' ∧ all_idle s' ∧ times is_request (clients ls') = 0.
Proof.
  intros Hv. remember (N.to_nat (msum weight (threads s))) as k eqn:Ek.
  revert ls s Ek. induction k as [k IH] using lt_wf_ind. intros ls s -> Hr Hb.
  destruct (idle_or_busy s) as [?|[t Ht]].
  { exists [], s. split; [constructor|done]. }
  destruct (prog_refines n v ls s Hv Hr Hb) as (y0&y&Hi&Hry&HR&_).
  destruct (busy_steps n s y HR t Ht) as (t'&s'&l&Hs).
  destruct (progress_weight n _ _ _ _ Hs (rel_wf _ _ _ HR t')) as [Hlt Hz].
  assert (next s s' l) as Hn by (exists t'; auto).
  destruct (IH (N.to_nat (msum weight (threads s'))) ltac:(lia) (ls ++ [l]) s' eq_refl) as (ls'&s''&Hr'&?&Hz').
  { by econstructor. }
  { rewrite clients_snoc, times_app, Hz. lia. }
  exists (l :: ls'), s''. split; [by eapply run_cons|]. split; [done|].
  change (l :: ls') with ([l] ++ ls'). unfold clients in *. rewrite omap_app, times_app, Hz'.
  destruct l; cbn in *; lia.
Qed.

Lemma prog_idle_answered n v ls s k :
  (v ≤ u32_max)%N → run next (new n v) ls s →
  (N.of_nat (times is_request (clients ls)) ≤ u64_max)%N → all_idle s →
  times (decides k) (clients ls) = times (asks k) (clients ls) ∧
  times (answers k) (clients ls) = times (asks k) (clients ls) ∧ times (asks k) (clients ls) ≤ 1.
Proof.
  intros Hv Hr Hb Hidle. destruct (prog_refines n v ls s Hv Hr Hb) as (y0&y&Hi&Hry&HR&_).
  pose proof (rel_ids _ _ _ HR) as HI.
  destruct (sys_stage n v y0 _ y k Hi Hry) as [(->&->&->&_)|[(?&?&?&?&(r&Hq&_)&_)|[(?&?&?&?&_&(r&Hq&_))|(->&->&->&_)]]].
  - split_and!; lia.
  - apply (i_req _ _ HI) in Hq as [t Ht]. by rewrite Hidle in Ht.
  - apply (i_rep _ _ HI) in Hq as [t Ht]. by rewrite Hidle in Ht.
  - split_and!; lia.
Qed.

(** ** Reading balances *)
Lemma sum_of_S m i j : (i ≤ j)%N → sum_of m i (j + 1) = (sum_of m i j + default 0 (m !! j))%N.
Proof.
  intros Hij. unfold sum_of. replace (N.to_nat (j + 1 - i)) with (S (N.to_nat (j - i))) by lia.
  rewrite seq_S, foldr_app. cbn [foldr Nat.add].
  replace (i + N.of_nat (N.to_nat (j - i)))%N with j by lia.
  set (f := λ k s, (default 0 (m !! (i + N.of_nat k)%N) + s)%N).
  assert (∀ l x, foldr f x l = (foldr f 0 l + x)%N) as Hf.
  { intros l x. induction l as [|b l IHl]; cbn; [lia|]. rewrite IHl. unfold f. lia. }
  rewrite Hf. lia.
Qed.
Lemma sum_of_nil m i : sum_of m i i = 0%N.
Proof. unfold sum_of. by replace (N.to_nat (i - i)) with 0 by lia. Qed.
Lemma sum_of_mono m i j k : (i ≤ j ≤ k)%N → (sum_of m i j ≤ sum_of m i k)%N.
Proof.
  intros [Hij Hjk]. replace k with (j + (k - j))%N by lia. generalize (k - j)%N as d.
  induction d as [|d IH] using N.peano_ind; [by replace (j + 0)%N with j by lia|].
  replace (j + N.succ d)%N with ((j + d) + 1)%N by lia. rewrite sum_of_S by lia. lia.
Qed.

Definition summing (m : gmap N N) (i upto : N) (p : PC) : Prop :=
  match p with
  | Summing j upto' tot => upto' = upto ∧ (i ≤ j ≤ upto)%N ∧ tot = sum_of m i j
  | SumHeld j upto' tot a => upto' = upto ∧ (i ≤ j < upto)%N ∧ tot = sum_of m i j ∧ m !! j = Some a
  | SumDone tot => tot = sum_of m i upto
  | _ => False
  end.

Lemma clients_app l1 l2 : clients (l1 ++ l2) = clients l1 ++ clients l2.
Proof. apply omap_app. Qed.

Lemma prog_sum n v ls mid s t i upto w :
  (v ≤ u32_max)%N → run next (new n v) (ls ++ [StartSum t i upto] ++ mid ++ [EndSum t w]) s →
  (N.of_nat (times is_request (clients (ls ++ mid))) ≤ u64_max)%N →
  no_transfer mid → (∀ w', EndSum t w' ∉ mid) →
  (sum_of (balances n v (clients ls)) i upto ≤ u64_max)%N →
  w = sum_of (balances n v (clients ls)) i upto.
Proof.
  intros Hv Hr Hb Hnt Hne Hmax. set (m := balances n v (clients ls)) in *.
  rewrite !app_assoc in Hr. apply run_snoc_inv in Hr as (s1 & Hr & Hlast).
  assert (balances n v (clients ((ls ++ [StartSum t i upto]) ++ mid)) = m ∧ summing m i upto (pc s1 t)) as [Hm Hsum].
  { clear Hlast w s. revert s1 Hr. induction mid as [|l mid IH] using rev_ind; intros s1 Hr.
    - rewrite app_nil_r in *. apply run_snoc_inv in Hr as (s0 & Hr & Hs).
      rewrite clients_snoc, app_nil_r. split; [done|].
      destruct Hs as [t' [(i'&?&?&?&->)|[(i'&upto'&?&Hiu&?&->)|Hst]]]; [done| |].
      + simplify_eq. rewrite pc_move, decide_True by done. cbn. rewrite sum_of_nil. split_and!; lia.
      + unfold progress, reject, lock_first, lock_second, transfer, decline, release_from, release_to, send,
          sum_acquire, sum_release, sum_finish, sum_return in Hst.
        repeat match goal with
           | H : ∃ _, _ |- _ => destruct H
           | H : _ ∧ _ |- _ => destruct H
           | H : _ ∨ _ |- _ => destruct H
           end; done.
    - rewrite app_assoc in Hr. apply run_snoc_inv in Hr as (s0 & Hr & Hs).
      assert (N.of_nat (times is_request (clients (ls ++ mid))) ≤ u64_max)%N as Hb'.
      { rewrite !clients_app, !times_app in *. lia. }
      destruct (IH Hb') with (s1 := s0) as [Hm Hsum]; [|intros w' Hw; apply (Hne w')|done|].
      { intros req reply Hin. apply (Hnt req). apply elem_of_app. by left. }
      { apply elem_of_app. by left. }
      destruct (prog_refines n v _ s0 Hv Hr) as (y0&y&Hi&Hry&HR&_).
      { rewrite !clients_app, !times_app in *. cbn. lia. }
      pose proof (sys_balances _ _ _ _ _ Hi Hry) as Hacc. rewrite Hm in Hacc.
      rewrite app_assoc. split.
      { rewrite clients_snoc. unfold balances in *. rewrite fold_left_app, Hm.
        destruct l as [[]| | |]; try done. cbn. destruct req as [[]].
        assert (succeeded reply = false) as Hf. { eapply Hnt. apply elem_of_app. right. left. }
        destruct reply as [[]]; done. }
      assert (∀ t' p sl, s1 = move s0 t' p sl → t' ≠ t → pc s1 t = pc s0 t) as Hother.
      { intros t' p sl -> ne. by rewrite pc_move, decide_False. }
      destruct Hs as [t' [(i'&Hpc&?&->&E)|[(i'&upto'&Hpc&Hiu&->&E)|Hst]]].
      + destruct (decide (t = t')) as [<-|ne]; [by rewrite Hpc in Hsum|].
        assert (pc s1 t = pc s0 t) as ->; [|done]. rewrite E. unfold pc. cbn. by rewrite lookup_insert_ne.
      + destruct (decide (t = t')) as [<-|ne]; [by rewrite Hpc in Hsum|]. by erewrite Hother.
      + destruct (decide (t' = t)) as [->|ne].
        * destruct Hst as [(req'&Hpc&Hbad&El&->)|[(req'&a&Hpc&Hok&Hsl&El&->)|[(req'&a&b&Hpc&Hsl&El&->)|
            [(req'&fa&ta&fa'&ta'&Hpc&Hen&Hnb&El&->)|[(req'&fa&ta&Hpc&Hen&El&->)|[(req'&fa&ta&reply'&Hpc&El&->)|
            [(req'&ta&reply'&Hpc&El&->)|[(reply'&Hpc&El&->)|[(j&upto'&total&a&r&Hpc&Hlt&Hsl&El&->)|
            [(j&upto'&total&a&r&Hpc&Hsl&El&->)|[(j&upto'&total&Hpc&Hge&El&->)|(total&Hpc&El&->)]]]]]]]]]]];
            rewrite Hpc in Hsum; cbn [summing] in Hsum; try done; rewrite pc_move, decide_True by done.
          -- destruct Hsum as (->&?&->). cbn. split_and!; try done; try lia.
             rewrite <- Hacc. by eapply l_free; [apply HR|].
          -- destruct Hsum as (->&?&->&Hj).
             assert (sum_of m i (j + 1) = sum_of m i j + a)%N as E1 by (rewrite sum_of_S, Hj by lia; done).
             pose proof (sum_of_mono m i (j + 1) upto ltac:(lia)).
             rewrite decide_True by lia. cbn. split_and!; try done; lia.
          -- destruct Hsum as (->&?&->). cbn. f_equal. lia.
          -- subst l. destruct (Hne total). apply elem_of_app. right. left.
        * assert (pc s1 t = pc s0 t) as ->; [|done].
          unfold progress, reject, lock_first, lock_second, transfer, decline, release_from, release_to, send,
            sum_acquire, sum_release, sum_finish, sum_return in Hst.
          repeat match goal with
           | H : ∃ _, _ |- _ => destruct H
           | H : _ ∧ _ |- _ => destruct H
           | H : _ ∨ _ |- _ => destruct H
           end; eapply Hother; done. }
  destruct Hlast as [t' [(i'&?&?&?&->)|[(i'&upto'&?&Hiu&?&->)|Hst]]]; [done..|].
  unfold progress, reject, lock_first, lock_second, transfer, decline, release_from, release_to, send,
    sum_acquire, sum_release, sum_finish in Hst.
  repeat match goal with
     | H : ∃ _, _ |- _ => destruct H
     | H : _ ∧ _ |- _ => destruct H
     | H : _ ∨ _ |- _ => destruct H
     | H : sum_return _ _ _ _ |- _ => destruct H as (total&Hpc&El&_)
     end; try done.
  simplify_eq. rewrite Hpc in Hsum. cbn in Hsum. done.
Qed.
