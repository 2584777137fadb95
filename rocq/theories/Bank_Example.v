(** Concrete runs of the bank models, for the examples beside the theorems. *)
From Verif Require Export BankExec_Proof.
Import SimpleBank.

Global Instance Slot_eq_dec : EqDecision Slot. Proof. solve_decision. Defined.
Global Instance PC_eq_dec : EqDecision PC. Proof. solve_decision. Defined.
Global Instance BankLabel_eq_dec : EqDecision BankLabel. Proof. solve_decision. Defined.
Global Instance Label_eq_dec : EqDecision Label. Proof. solve_decision. Defined.
Global Instance State_eq_dec : EqDecision State. Proof. solve_decision. Defined.

(** A script of the program's steps, to compute runs with: a thread receives a
    request, starts a sum, or goes on with its call. *)
Inductive Cmd := Recv (t : N) (i : Input) | Sum (t i u : N) | Go (t : N).

Definition go (s : State) (t : N) : option (State * Label) :=
  match pc s t with
  | Idle => None
  | Received req =>
      if decide (from (input req) = to (input req) ∨ (count s ≤ from (input req))%N ∨ (count s ≤ to (input req))%N)
      then let r := mkReply false (req_id req) in
           Some (move s t (Answered r) (slots s), Client (ExecuteOp req r))
      else match slots s !! lo (input req) with
           | Some (Free a 0) => Some (move s t (HasFirst req a) (<[lo (input req) := Taken]> (slots s)), Silent)
           | _ => None
           end
  | HasFirst req a =>
      match slots s !! hi (input req) with
      | Some (Free b 0) =>
          Some (move s t (if (from (input req) <? to (input req))%N then HasBoth req a b else HasBoth req b a)
                  (<[hi (input req) := Taken]> (slots s)), Silent)
      | _ => None
      end
  | HasBoth req fa ta =>
      if decide (amt (input req) ≤ fa ∧ ta ≤ u32_max - amt (input req))%N
      then match new_balances req fa ta with
           | Some (fa', ta') => let r := mkReply true (req_id req) in
               Some (move s t (Decided req fa' ta' r) (slots s), Client (ExecuteOp req r))
           | None => None
           end
      else let r := mkReply false (req_id req) in
           Some (move s t (Decided req fa ta r) (slots s), Client (ExecuteOp req r))
  | Decided req fa ta r => Some (move s t (ReleasedFrom req ta r) (<[from (input req) := Free fa 0]> (slots s)), Silent)
  | ReleasedFrom req ta r => Some (move s t (Answered r) (<[to (input req) := Free ta 0]> (slots s)), Silent)
  | Answered r => Some (move s t Idle (slots s), Client (ReplyOp r))
  | Summing i upto total =>
      if decide (i < upto)%N
      then match slots s !! i with
           | Some (Free a r) => Some (move s t (SumHeld i upto total a) (<[i := Free a (S r)]> (slots s)), Silent)
           | _ => None
           end
      else Some (move s t (SumDone total) (slots s), Silent)
  | SumHeld i upto total a =>
      match slots s !! i with
      | Some (Free b (S r)) =>
          if decide (b = a)
          then Some (move s t (if decide (a ≤ u64_max - total)%N then Summing (i + 1) upto (total + a) else SumDone total)
                       (<[i := Free a r]> (slots s)), Silent)
          else None
      | _ => None
      end
  | SumDone total => Some (move s t Idle (slots s), EndSum t total)
  end.

Definition cmd (s : State) (c : Cmd) : option (State * Label) :=
  match c with
  | Recv t i =>
      match pc s t with
      | Idle => if decide (from i ≤ u64_max ∧ to i ≤ u64_max ∧ amt i ≤ u32_max)%N
                then let req := mkRequest i (next_id s) in
                     Some (mk (slots s) (count s) (<[t := Received req]> (threads s))
                              ((next_id s + 1) mod (u64_max + 1))%N, Client (RequestOp req))
                else None
      | _ => None
      end
  | Sum t i u =>
      match pc s t with
      | Idle => if decide (i = 0 ∧ u = count s ∨ i < count s ∧ u = i + 1)%N
                then Some (move s t (Summing i u 0) (slots s), StartSum t i u) else None
      | _ => None
      end
  | Go t => go s t
  end.

Fixpoint script (s : State) (cs : list Cmd) : option (State * list Label) :=
  match cs with
  | [] => Some (s, [])
  | c :: cs => match cmd s c with
               | Some (s', l) => match script s' cs with
                                 | Some (s'', ls) => Some (s'', l :: ls)
                                 | None => None
                                 end
               | None => None
               end
  end.

Lemma go_sound s t s' l : go s t = Some (s', l) → progress t s s' l.
Proof.
  unfold go. destruct (pc s t) as [|req|req a|req fa ta|req fa ta reply|req ta reply|reply|i upto total|i upto total a|total] eqn:Hpc;
    intros E.
  - done.
  - case_decide as Hd.
    + simplify_eq. left. by exists req.
    + destruct (slots s !! _) as [[a [|r]|]|] eqn:Hs; simplify_eq. right; left. by exists req, a.
  - destruct (slots s !! _) as [[b [|r]|]|] eqn:Hs; simplify_eq. do 2 right; left. by exists req, a, b.
  - case_decide as Hd.
    + destruct (new_balances req fa ta) as [[fa' ta']|] eqn:Hb; simplify_eq.
      do 3 right; left. by exists req, fa, ta, fa', ta'.
    + simplify_eq. do 4 right; left. by exists req, fa, ta.
  - simplify_eq. do 5 right; left. by exists req, fa, ta, reply.
  - simplify_eq. do 6 right; left. by exists req, ta, reply.
  - simplify_eq. do 7 right; left. by exists reply.
  - case_decide as Hd.
    + destruct (slots s !! _) as [[b r|]|] eqn:Hs; simplify_eq. do 8 right; left.
      exists i, upto, total, b, r. done.
    + simplify_eq. do 10 right; left. exists i, upto, total. split; [done|]. split; [lia|done].
  - destruct (slots s !! _) as [[b [|r]|]|] eqn:Hs; [done| |done..].
    destruct (decide (b = a)) as [->|]; [|done]. injection E as <- <-.
    do 9 right; left. by exists i, upto, total, a, r.
  - simplify_eq. do 11 right. by exists total.
Qed.

Lemma script_sound cs : ∀ s s' ls, script s cs = Some (s', ls) → run next s ls s'.
Proof.
  induction cs as [|c cs IH]; intros s s' ls E; cbn in E.
  - simplify_eq. constructor.
  - destruct (cmd s c) as [[s1 l]|] eqn:Ec; [|done].
    destruct (script s1 cs) as [[s2 ls']|] eqn:Es; [|done]. simplify_eq.
    eapply run_cons; [|by apply IH].
    destruct c as [t i|t i u|t]; cbn in Ec.
    + destruct (pc s t) eqn:Hpc; try done. case_decide as Hd; [|done]. simplify_eq.
      exists t. left. by exists i.
    + destruct (pc s t) eqn:Hpc; try done. case_decide as Hd; [|done]. simplify_eq.
      exists t. right; left. by exists i, u.
    + exists t. right; right. by apply go_sound.
Qed.

(** Three accounts with 10 each. Thread 1 sums all balances; after it has read
    account 0, thread 2 transfers 4 from account 2 to account 0; then thread 1 reads
    the rest. *)
Definition rq : Request := mkRequest (mkInput 2 0 4) 0.
Definition rp : Reply := mkReply true 0.
Definition story : list Cmd :=
  [Sum 1 0 3; Go 1; Go 1; Recv 2 (mkInput 2 0 4); Go 2; Go 2; Go 2; Go 2; Go 2; Go 2] ++ replicate 6 (Go 1).
Definition story_labels : list Label :=
  [StartSum 1 0 3] ++ [Silent; Silent;
   Client (RequestOp rq); Silent; Silent; Client (ExecuteOp rq rp); Silent; Silent; Client (ReplyOp rp);
   Silent; Silent; Silent; Silent; Silent] ++ [EndSum 1 26].
Definition story_end : State :=
  mk {[0%N := Free 14 0; 1%N := Free 10 0; 2%N := Free 6 0]} 3 {[1%N := Idle; 2%N := Idle]} 1.
(** Then a request that must be refused, while another thread reads all balances. *)
Definition rq2 : Request := mkRequest (mkInput 1 2 11) 1.
Definition rp2 : Reply := mkReply false 1.
Definition more : list Cmd :=
  [Sum 3 0 3; Recv 2 (mkInput 1 2 11); Go 2; Go 3; Go 3; Go 2; Go 2; Go 2; Go 2; Go 2] ++ replicate 6 (Go 3).
Definition more_mid : list Label :=
  [Client (RequestOp rq2); Silent; Silent; Silent; Silent; Client (ExecuteOp rq2 rp2); Silent; Silent;
   Client (ReplyOp rp2); Silent; Silent; Silent; Silent; Silent].
Definition more_end : State :=
  mk {[0%N := Free 14 0; 1%N := Free 10 0; 2%N := Free 6 0]} 3 {[1%N := Idle; 2%N := Idle; 3%N := Idle]} 2.

Lemma story_run : run next (new 3 10) story_labels story_end.
Proof. apply (script_sound story). apply (bool_decide_eq_true_1 _). vm_compute. reflexivity. Qed.
Lemma more_run : run next story_end ([StartSum 3 0 3] ++ more_mid ++ [EndSum 3 30]) more_end.
Proof. apply (script_sound more). apply (bool_decide_eq_true_1 _). vm_compute. reflexivity. Qed.
Lemma whole_run : run next (new 3 10) (story_labels ++ [StartSum 3 0 3] ++ more_mid ++ [EndSum 3 30]) more_end.
Proof. eapply run_app; [apply story_run|apply more_run]. Qed.
(** Two threads in each other's way: thread 1 has locked account 0 and wants 1,
    thread 2 has locked account 1 and wants 2, thread 3 reads account 2. *)
Definition jam : list Cmd :=
  [Recv 1 (mkInput 1 0 3); Recv 2 (mkInput 1 2 3); Sum 3 2 3; Go 3; Go 1; Go 2].
Definition jam_end : State :=
  mk {[0%N := Taken; 1%N := Taken; 2%N := Free 10 1]} 3
     {[1%N := HasFirst (mkRequest (mkInput 1 0 3) 0) 10; 2%N := HasFirst (mkRequest (mkInput 1 2 3) 1) 10;
       3%N := SumHeld 2 3 0 10]} 2.
Definition jam_labels : list Label :=
  [Client (RequestOp (mkRequest (mkInput 1 0 3) 0)); Client (RequestOp (mkRequest (mkInput 1 2 3) 1));
   StartSum 3 2 3; Silent; Silent; Silent].
Lemma jam_run : run next (new 3 10) jam_labels jam_end.
Proof. apply (script_sound jam). apply (bool_decide_eq_true_1 _). vm_compute. reflexivity. Qed.

(** The specification lets a transfer from an account to itself create money. *)
Definition self_rq : Request := mkRequest (mkInput 0 0 3) 7.
Definition self_rp : Reply := mkReply true 7.
Lemma self_run :
  run (BankSpec.next false) (BankSpec.mk (new_accounts 1 5) ∅ ∅)
    [RequestOp self_rq; ExecuteOp self_rq self_rp]
    (BankSpec.mk {[0%N := 8%N]} (({[self_rq]} ∪ ∅) ∖ {[self_rq]}) ({[self_rp]} ∪ ∅)).
Proof.
  eapply run_cons; [left; exists self_rq; split; [done|]; split; [set_solver|reflexivity]|].
  eapply run_cons; [|constructor]. right; left. exists self_rq, self_rp, 5%N, 5%N.
  repeat (split; [first [done|set_solver]|]). cbn [BankSpec.accounts BankSpec.requests BankSpec.replies].
  f_equal. apply (bool_decide_eq_true_1 _). vm_compute. reflexivity.
Qed.

(** The request counter wraps around: after 2^64 requests an id is used again. *)
Lemma one_refusal s :
  all_idle s → (next_id s ≤ u64_max)%N → ∃ ls s', run next s ls s' ∧ all_idle s' ∧ next_id s' = ((next_id s + 1) mod (u64_max + 1))%N ∧
    clients ls = [RequestOp (mkRequest (mkInput 0 0 0) (next_id s));
                  ExecuteOp (mkRequest (mkInput 0 0 0) (next_id s)) (mkReply false (next_id s));
                  ReplyOp (mkReply false (next_id s))].
Proof.
  intros Hi _. set (req := mkRequest (mkInput 0 0 0) (next_id s)). set (rep := mkReply false (next_id s)).
  set (s1 := mk (slots s) (count s) (<[0%N := Received req]> (threads s)) ((next_id s + 1) mod (u64_max + 1))).
  set (s2 := move s1 0 (Answered rep) (slots s1)). set (s3 := move s2 0 Idle (slots s2)).
  exists [Client (RequestOp req); Client (ExecuteOp req rep); Client (ReplyOp rep)], s3.
  assert (pc s1 0 = Received req) as H1 by (unfold pc, s1; cbn [threads]; by rewrite lookup_insert).
  assert (pc s2 0 = Answered rep) as H2 by (unfold s2; by rewrite pc_move, decide_True).
  split; [|split; [|done]].
  - eapply run_cons; [|eapply run_cons; [|eapply run_cons; [|constructor]]].
    + exists 0%N. left. exists (mkInput 0 0 0). split; [apply Hi|].
      split; [unfold input_ok; cbn; lia|]. split; reflexivity.
    + exists 0%N. right; right. left. exists req. split; [done|]. split; [by left|]. split; reflexivity.
    + exists 0%N. right; right. do 7 right; left. exists rep. split; [done|]. split; reflexivity.
  - intros t. unfold s3. rewrite pc_move. case_decide as E; [done|].
    unfold s2. rewrite pc_move, decide_False by done.
    unfold pc, s1. cbn [threads]. rewrite lookup_insert_ne by done. apply Hi.
Qed.
Lemma asks_once : times (asks 0)
    [RequestOp (mkRequest (mkInput 0 0 0) 0); ExecuteOp (mkRequest (mkInput 0 0 0) 0) (mkReply false 0);
     ReplyOp (mkReply false 0)] = 1.
Proof. reflexivity. Qed.
Lemma many_refusals k :
  (k ≤ u64_max)%N → ∃ ls s, run next (new 1 0) ls s ∧ all_idle s ∧ next_id s = k ∧
    ((0 < k)%N → 1 ≤ times (asks 0) (clients ls)).
Proof.
  induction k as [|k IH] using N.peano_ind; intros Hk.
  - exists [], (new 1 0). split; [constructor|]. split; [|split; [done|lia]].
    intros t. unfold pc. cbn [threads new]. by rewrite lookup_empty.
  - destruct IH as (ls&s&Hr&Hi&Hid&Hc); [lia|].
    destruct (one_refusal s Hi) as (ls'&s'&Hr'&Hi'&Hid'&Hc'); [lia|].
    exists (ls ++ ls'), s'. split; [by eapply run_app|]. split; [done|].
    split; [rewrite Hid', Hid, N.mod_small; lia|]. intros _.
    rewrite clients_app, times_app, Hc', Hid. destruct (decide (k = 0%N)) as [->|].
    + rewrite asks_once. lia.
    + assert (1 ≤ times (asks 0) (clients ls)) by (apply Hc; lia). lia.
Qed.
Lemma ids_wrap : ∃ ls s, run next (new 1 0) ls s ∧ 2 ≤ times (asks 0) (clients ls).
Proof.
  destruct (many_refusals u64_max) as (ls&s&Hr&Hi&Hid&Hc); [done|].
  destruct (one_refusal s Hi) as (ls1&s1&Hr1&Hi1&Hid1&Hc1); [lia|].
  rewrite Hid in Hid1. change ((u64_max + 1) mod (u64_max + 1))%N with 0%N in Hid1.
  destruct (one_refusal s1 Hi1) as (ls2&s2&Hr2&Hi2&Hid2&Hc2); [rewrite Hid1; unfold u64_max; lia|].
  exists (ls ++ ls1 ++ ls2), s2. split; [by eapply run_app; [|eapply run_app]|].
  rewrite !clients_app, !times_app, Hc2, Hid1.
  assert (1 ≤ times (asks 0) (clients ls)) by (apply Hc; unfold u64_max; lia).
  rewrite asks_once. lia.
Qed.
