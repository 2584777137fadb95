(** Proofs: the indexed journal refines the linked journal and its index
    locates every marshalled sequence number (C13). *)
From Verif Require Import Abs_Model Abs_Spec Abs_Proof Spec_Proof Journal_Model Journal_Spec Paged_Proof
  Linked_Proof AllocJournal_Model.

Lemma elem_of_values {V} `{Countable V} (m : gmap nat V) v : v ∈ values m ↔ ∃ k, m !! k = Some v.
Proof.
  unfold values. rewrite elem_of_list_to_set, elem_of_list_fmap. split.
  - intros ([k x]&->&Hin%elem_of_map_to_list). by exists k.
  - intros [k Hk]. exists (k, v). split; [done|]. by apply elem_of_map_to_list.
Qed.
Lemma lookup_singleton_index {V} (s e : LSN) (v : V) k w :
  singleton_index s e v !! k = Some w ↔ s ≤ k < e ∧ w = v.
Proof.
  unfold singleton_index. rewrite <- elem_of_list_to_map.
  - rewrite elem_of_list_fmap. split.
    + intros (x&[= -> ->]&Hin%elem_of_seq). split; [lia|done].
    + intros [? ->]. exists k. split; [done|]. apply elem_of_seq. lia.
  - rewrite <- list_fmap_compose.
    rewrite (list_fmap_ext _ id) by done. rewrite list_fmap_id. apply NoDup_seq.
Qed.
Lemma lookup_singleton_index_None {V} (s e : LSN) (v : V) k :
  singleton_index s e v !! k = None ↔ ¬ (s ≤ k < e).
Proof.
  rewrite eq_None_not_Some. split.
  - intros Hn ?. apply Hn. exists v. by apply lookup_singleton_index.
  - intros Hn [w Hw]. by apply lookup_singleton_index in Hw as [? _].
Qed.
Lemma lookup_union_singleton {V} s e (v : V) (m : gmap nat V) k w :
  (singleton_index s e v ∪ m) !! k = Some w ↔ (s ≤ k < e ∧ w = v) ∨ (¬ (s ≤ k < e) ∧ m !! k = Some w).
Proof. by rewrite lookup_union_Some_raw, lookup_singleton_index, lookup_singleton_index_None. Qed.
Lemma lookup_discard_up_to {V} (m : gmap LSN V) b k w :
  index_discard_up_to m b !! k = Some w ↔ b ≤ k ∧ m !! k = Some w.
Proof. unfold index_discard_up_to. rewrite map_filter_lookup_Some. simpl. naive_solver. Qed.
Lemma lookup_index_range {V} (m : gmap LSN V) lo hi k w :
  index_range m lo hi !! k = Some w ↔ lo ≤ k < hi ∧ m !! k = Some w.
Proof. unfold index_range. rewrite map_filter_lookup_Some. simpl. naive_solver. Qed.

(** ** Chain facts *)
Lemma path_chain dv ptr l : Linked.dv_wf dv → path dv ptr l → Linked.block_in_bounds dv ptr →
  ∀ a r, (a, r) ∈ l →
    boundary_lsn dv < seq_end (message_seq r) ≤ Linked.dv_seq_end dv ptr ∧
    seq_start (message_seq r) < seq_end (message_seq r).
Proof.
  intros Hw Hp. pose proof Hw as (Hew&Hnd&Hcc&Hlk). induction Hp as [|a r l He Hp IH]; intros Hb b q Hin.
  - by apply elem_of_nil in Hin.
  - pose proof (Hew _ _ He) as [[Hrw _] Hne]. unfold mh_is_empty in Hne.
    destruct Hb as [Hbn Hbb]. pose proof (Hbb _ _ eq_refl He) as Hlt. simpl. rewrite He.
    apply elem_of_cons in Hin as [Heq|Hin]; [simplify_eq; lia|].
    destruct (Linked.cropped_prior r (boundary_lsn dv)) as [p|] eqn:Ecp;
      [|inversion Hp; subst; by apply elem_of_nil in Hin].
    destruct (Hnd _ _ He p Ecp) as [rp Hrp].
    pose proof (Hcc _ _ He _ _ Ecp Hrp) as Hcan. unfold can_concat, can_follow in Hcan.
    assert (boundary_lsn dv < seq_start (message_seq r)) as Hs.
    { unfold Linked.cropped_prior in Ecp. by case_decide. }
    destruct (IH) with (a := b) (r := q) as [H1 H2]; [split|done|].
    + intros ? [= <-]. by eexists.
    + intros ?? [= <-] ?. simplify_eq. lia.
    + simpl in H1. rewrite Hrp in H1. lia.
Qed.
(** Every page behind the head ends at or before the head's start. *)
Lemma path_older dv a r l : Linked.dv_wf dv → path dv (Some a) ((a, r) :: l) → 
  ∀ b q, (b, q) ∈ l → seq_end (message_seq q) ≤ seq_start (message_seq r) ∧
    boundary_lsn dv < seq_start (message_seq r).
Proof.
  intros Hw Hp b q Hin. pose proof Hw as (Hew&Hnd&Hcc&Hlk). inversion Hp as [|? ? ? He Hp']; subst.
  destruct (Linked.cropped_prior r (boundary_lsn dv)) as [p|] eqn:Ecp;
    [|inversion Hp'; subst; by apply elem_of_nil in Hin].
  destruct (Hnd _ _ He p Ecp) as [rp Hrp].
  pose proof (Hcc _ _ He _ _ Ecp Hrp) as Hcan. unfold can_concat, can_follow in Hcan.
  assert (boundary_lsn dv < seq_start (message_seq r)) as Hs.
  { unfold Linked.cropped_prior in Ecp. by case_decide. }
  destruct (path_chain _ _ _ Hw Hp') with (a := b) (r := q) as [H1 H2]; [split|done|].
  - intros ? [= <-]. by eexists.
  - intros ?? [= <-] ?. simplify_eq. lia.
  - simpl in H1. rewrite Hrp in H1. lia.
Qed.
Lemma path_unique_lsn dv ptr l : Linked.dv_wf dv → path dv ptr l → 
  ∀ a r b q lsn, (a, r) ∈ l → (b, q) ∈ l → Linked.contains_lsn r (boundary_lsn dv) lsn →
    Linked.contains_lsn q (boundary_lsn dv) lsn → a = b ∧ r = q.
Proof.
  intros Hw Hp. induction Hp as [|a0 r0 l He Hp IH]; intros a r b q lsn Hin1 Hin2 [H1 H1'] [H2 H2'].
  - by apply elem_of_nil in Hin1.
  - assert (path dv (Some a0) ((a0, r0) :: l)) as Hfull by (by constructor).
    apply elem_of_cons in Hin1 as [Heq1|Hin1]; apply elem_of_cons in Hin2 as [Heq2|Hin2].
    + by simplify_eq.
    + simplify_eq. pose proof (path_older _ _ _ _ Hw Hfull _ _ Hin2). lia.
    + simplify_eq. pose proof (path_older _ _ _ _ Hw Hfull _ _ Hin1). lia.
    + eapply (IH a r b q lsn Hin1 Hin2); by split.
Qed.

(** ** Index of a path *)
Definition idx_ok {V} (f : Address → V) (idx : gmap LSN V) (bdy : LSN) (l : list (Address * JournalRecord)) : Prop :=
  ∀ lsn v, idx !! lsn = Some v ↔ ∃ a r, (a, r) ∈ l ∧ Linked.contains_lsn r bdy lsn ∧ f a = v.

Fixpoint idx_of {V} (f : Address → V) (bdy : LSN) (l : list (Address * JournalRecord)) : gmap LSN V :=
  match l with
  | [] => ∅
  | (a, r) :: l => singleton_index (bdy `max` seq_start (message_seq r)) (seq_end (message_seq r)) (f a) ∪ idx_of f bdy l
  end.
Lemma idx_of_ok {V} (f : Address → V) dv ptr l : Linked.dv_wf dv → path dv ptr l →
  idx_ok f (idx_of f (boundary_lsn dv) l) (boundary_lsn dv) l.
Proof.
  intros Hw Hp. induction Hp as [|a r l He Hp IH]; intros lsn v.
  - simpl. rewrite lookup_empty. split; [done|]. intros (a&r&Hin&_). by apply elem_of_nil in Hin.
  - assert (path dv (Some a) ((a, r) :: l)) as Hfull by (by constructor).
    simpl. rewrite lookup_union_singleton, (IH lsn v). split.
    + intros [[? ->]|[_ (b&q&Hin&Hc&<-)]].
      * exists a, r. split_and!; [by left|unfold Linked.contains_lsn; lia|done].
      * exists b, q. split_and!; [by right|done|done].
    + intros (b&q&[Heq|Hin]%elem_of_cons&Hc&<-).
      * simplify_eq. left. split; [unfold Linked.contains_lsn in Hc; lia|done].
      * right. split; [|by exists b, q]. destruct Hc as [? ?].
        pose proof (path_older _ _ _ _ Hw Hfull _ _ Hin). lia.
Qed.
Lemma build_index_path dv ptr l : path dv ptr l → ∀ n, length l ≤ n →
  Likes.build_index_fuel n dv ptr = idx_of id (boundary_lsn dv) l.
Proof.
  induction 1 as [|a r l He Hp IH]; intros n Hn; [by destruct n|].
  destruct n as [|n]; simpl in Hn; [lia|]. simpl. rewrite He. rewrite IH by lia. done.
Qed.
Lemma page_walk_path dv ptr l : path dv ptr l → ∀ n, length l ≤ n →
  page_walk n dv ptr = idx_of au (boundary_lsn dv) l.
Proof.
  induction 1 as [|a r l He Hp IH]; intros n Hn; [by destruct n|].
  destruct n as [|n]; simpl in Hn; [lia|]. simpl. rewrite He. rewrite IH by lia. done.
Qed.
Lemma idx_ok_eq {V} (f : Address → V) i j bdy l : idx_ok f i bdy l → idx_ok f j bdy l → i = j.
Proof. intros Hi Hj. apply map_eq. intros k. apply option_eq. intros v. by rewrite (Hi k v), (Hj k v). Qed.
(** The domain of such an index. *)
Lemma idx_ok_dom {V} (f : Address → V) idx dv ptr l : Linked.dv_wf dv → path dv ptr l →
  Linked.block_in_bounds dv ptr → idx_ok f idx (boundary_lsn dv) l →
  ∀ lsn, is_Some (idx !! lsn) ↔ boundary_lsn dv ≤ lsn < Linked.dv_seq_end dv ptr.
Proof.
  intros Hw Hp Hb Hok lsn. split.
  - intros [v (a&r&Hin&[H1 H2]&_)%Hok]. pose proof (path_chain _ _ _ Hw Hp Hb _ _ Hin). lia.
  - intros Hr. destruct (path_located _ _ _ Hw Hp Hb) as [_ Hl].
    destruct (Hl lsn Hr) as (a&r&Hin&Hc&_). exists (f a). apply Hok. exists a, r.
    split_and!; [done|unfold Linked.contains_lsn; lia|done].
Qed.

(** ** Truncating a path *)
Lemma path_discard_split dv ptr l lsn : Linked.dv_wf dv → path dv ptr l → Linked.block_in_bounds dv ptr →
  boundary_lsn dv ≤ lsn → lsn < Linked.dv_seq_end dv ptr →
  ∃ l' rest, path (Linked.dv_discard_old dv lsn) ptr l' ∧ l = l' ++ rest ∧
    (∀ a r, (a, r) ∈ rest → seq_end (message_seq r) ≤ lsn) ∧
    (∀ a r, (a, r) ∈ l' → lsn < seq_end (message_seq r)).
Proof.
  intros Hw Hp. pose proof Hw as (Hew&Hnd&Hcc&Hlk). induction Hp as [|a r l He Hp IH]; intros Hb Hle Hlt.
  - simpl in Hlt. lia.
  - simpl in Hlt. rewrite He in Hlt.
    assert (path dv (Some a) ((a, r) :: l)) as Hfull by (by constructor).
    destruct (decide (lsn < seq_start (message_seq r))) as [Hs|Hs].
    + assert (boundary_lsn dv < seq_start (message_seq r)) as Hs' by lia.
      destruct (Hlk _ _ He Hs') as [p Hcp]. destruct (Hnd _ _ He p Hcp) as [q Hq].
      pose proof (Hcc _ _ He _ _ Hcp Hq) as Hcan. unfold can_concat, can_follow in Hcan. rewrite Hcp in *.
      destruct IH as (l'&rest&Hp'&->&H1&H2).
      * split; [intros ? [= <-]; by eexists|]. intros ?? [= <-] ?. simplify_eq. lia.
      * done.
      * simpl. rewrite Hq. lia.
      * exists ((a, r) :: l'), rest. split_and!; [|done|done|].
        -- constructor; [done|]. simpl. unfold Linked.cropped_prior in *.
           rewrite decide_True in Hcp by done. rewrite decide_True by done. by rewrite Hcp.
        -- intros b r' [Heq|Hin]%elem_of_cons; [by simplify_eq|]. by eapply H2.
    + exists [(a, r)], l. split_and!; [|done| |].
      * constructor; [done|]. simpl. unfold Linked.cropped_prior. rewrite decide_False by lia. constructor.
      * intros b q Hin. pose proof (path_older _ _ _ _ Hw Hfull _ _ Hin). lia.
      * intros b q [Heq|Hin]%elem_of_cons; [by simplify_eq|]. by apply elem_of_nil in Hin.
Qed.
Definition tj_path (tj : TruncatedJournal) (l : list (Address * JournalRecord)) : Prop :=
  path (disk_view tj) (freshest_rec tj) l.
Lemma tj_discard_split tj l lsn : Linked.tj_wf tj → tj_path tj l → Linked.tj_can_discard_to tj lsn →
  ∃ l' rest, tj_path (Linked.tj_discard_old tj lsn) l' ∧ l = l' ++ rest ∧
    (∀ a r, (a, r) ∈ rest → seq_end (message_seq r) ≤ lsn) ∧
    (∀ a r, (a, r) ∈ l' → lsn < seq_end (message_seq r)).
Proof.
  intros [Hw Hb] Hp [Hl Hu]. unfold tj_path, Linked.tj_discard_old. simpl. case_decide as Hd.
  - exists [], l. split_and!; [constructor|done| |].
    + intros a r Hin. pose proof (path_chain _ _ _ Hw Hp Hb _ _ Hin) as [Hc _]. unfold Linked.tj_seq_end in Hd. lia.
    + intros a r Hin. by apply elem_of_nil in Hin.
  - apply path_discard_split; try done. unfold Linked.tj_seq_end in *. lia.
Qed.
Lemma tj_path_exists tj : Linked.tj_decodable tj → ∃ l, tj_path tj l.
Proof. intros [[Hw Hb] Hac]. apply path_exists; [done|done|apply Hb]. Qed.
Lemma discard_seq_end tj lsn : Linked.tj_wf tj → Linked.tj_can_discard_to tj lsn →
  Linked.tj_seq_end (Linked.tj_discard_old tj lsn) = Linked.tj_seq_end tj.
Proof.
  intros [Hw Hb] [Hl Hu]. unfold Linked.tj_discard_old, Linked.tj_seq_end in *. simpl. case_decide as Hd; [done|].
  destruct (freshest_rec tj) as [f|] eqn:Ef; simpl in *.
  - destruct Hb as [Hb _]. destruct (Hb f eq_refl) as [r ->]. done.
  - unfold Linked.tj_seq_start in Hl. lia.
Qed.
(** The discard condition of the indexed layers keeps the live pages. *)
Lemma discard_cond_valid tj lsn keep new l' :
  tj_path (Linked.tj_discard_old tj lsn) l' → discard_old_cond tj lsn keep new →
  (∀ a r, (a, r) ∈ l' → a ∈ keep) →
  Linked.valid_discard_old tj lsn new ∧ tj_path new l'.
Proof.
  intros Hp (Hw&Hb&Hsub&Hk&Hf) Hin.
  assert (∀ a r, (a, r) ∈ l' → entries (disk_view new) !! a = Some r) as Hnew.
  { intros a r Har. pose proof (Hk _ (Hin _ _ Har)) as [r' Hr']%elem_of_dom.
    pose proof (lookup_weaken _ _ _ _ Hr' Hsub). pose proof (path_entries _ _ _ Hp _ _ Har) as He.
    simpl in He. by simplify_eq. }
  split.
  - split_and!; [done|done|split; done|].
    split; [done|]. simpl. pose proof (build_tight_entries _ _ _ Hp) as Hbt. simpl in Hbt. rewrite Hbt.
    apply map_subseteq_spec. intros a r Ha. apply Hnew. by apply (path_in_map _ _ _ Hp).
  - unfold tj_path in *. rewrite Hf. eapply path_transfer; [exact Hp|done|done].
Qed.
Lemma idx_discard_ok {V} (f : Address → V) idx bdy lsn l' rest : idx_ok f idx bdy (l' ++ rest) → bdy ≤ lsn →
  (∀ a r, (a, r) ∈ rest → seq_end (message_seq r) ≤ lsn) → idx_ok f (index_discard_up_to idx lsn) lsn l'.
Proof.
  intros Hok Hle Hr k v. rewrite lookup_discard_up_to, (Hok k v). split.
  - intros (Hlk&a&r&[Hin|Hin]%elem_of_app&[H1 H2]&<-).
    + exists a, r. split_and!; [done|split; lia|done].
    + specialize (Hr _ _ Hin). lia.
  - intros (a&r&Hin&[H1 H2]&<-). split; [lia|]. exists a, r. split_and!; [apply elem_of_app; by left|split; lia|done].
Qed.
(** Appending a page. *)
Lemma path_append s a cut l : Linked.wf s → Linked.unused_addr s a →
  seq_start (Linked.unmarshalled_tail s) < cut → 
  tj_path (Linked.truncated_journal s) l →
  tj_path (Linked.append_record (Linked.truncated_journal s) a (discard_recent (Linked.unmarshalled_tail s) cut))
    ((a, mkRec (discard_recent (Linked.unmarshalled_tail s) cut) (freshest_rec (Linked.truncated_journal s))) :: l).
Proof.
  intros (Htw&Hmw&Hse&Hee) Hun Hcut Hp. destruct Htw as [Hw Hdb].
  set (tj := Linked.truncated_journal s) in *. set (m := discard_recent (Linked.unmarshalled_tail s) cut).
  assert (seq_start m = seq_start (Linked.unmarshalled_tail s)) as Hsm by done.
  constructor; [apply lookup_insert|].
  assert (Linked.cropped_prior (mkRec m (freshest_rec tj)) (boundary_lsn (disk_view tj)) = freshest_rec tj) as Ecp.
  { unfold Linked.cropped_prior. case_decide as Hd; [done|]. simpl in Hd.
    destruct (freshest_rec tj) as [f|] eqn:Ef; [|done]. exfalso.
    destruct Hdb as [Hdb1 Hdb2]. rewrite ?Ef in *. destruct (Hdb1 f eq_refl) as [rf Hrf].
    specialize (Hdb2 _ _ eq_refl Hrf).
    unfold Linked.tj_seq_end, Linked.dv_seq_end in Hee. rewrite Ef, Hrf in Hee. lia. }
  simpl. rewrite Ecp. eapply path_transfer; [done|done|]. intros b r Hin. simpl.
  pose proof (path_entries _ _ _ Hp _ _ Hin). rewrite lookup_insert_ne; [done|]. intros <-.
  unfold Linked.unused_addr in Hun. fold tj in Hun. congruence.
Qed.
Lemma idx_append_ok {V} (f : Address → V) idx s a cut l :
  Linked.wf s → tj_path (Linked.truncated_journal s) l →
  idx_ok f idx (boundary_lsn (disk_view (Linked.truncated_journal s))) l →
  idx_ok f (index_append_record idx (discard_recent (Linked.unmarshalled_tail s) cut) (f a))
    (boundary_lsn (disk_view (Linked.truncated_journal s)))
    ((a, mkRec (discard_recent (Linked.unmarshalled_tail s) cut) (freshest_rec (Linked.truncated_journal s))) :: l).
Proof.
  intros (Htw&Hmw&Hse&Hee) Hp Hok k v. unfold index_append_record.
  rewrite lookup_union_singleton, (Hok k v). simpl. destruct Htw as [Hw Hb].
  unfold Linked.tj_seq_start, Linked.tj_seq_end in *. split.
  - intros [[Hr ->]|[Hr (b&q&Hin&Hc&<-)]].
    + eexists a, _. split_and!; [by left| |done]. split; simpl; lia.
    + exists b, q. split_and!; [by right|done|done].
  - intros (b&q&[Heq|Hin]%elem_of_cons&[H1 H2]&<-).
    + simplify_eq. left. simpl in *. split; [lia|done].
    + right. pose proof (path_chain _ _ _ Hw Hp Hb _ _ Hin). split; [lia|]. exists b, q. split_and!; [done|split; lia|done].
Qed.

(** ** LikesJournal *)
Definition likes_inv (s : Likes.State) : Prop :=
  linked_inv (Likes.journal s) ∧ ∃ l, tj_path (Likes.tj s) l ∧
    idx_ok id (Likes.lsn_addr_index s) (boundary_lsn (disk_view (Likes.tj s))) l.

Lemma linked_inv_next pre post l : linked_inv pre → Linked.next pre post l → linked_inv post.
Proof.
  intros Hi Hn. destruct (ltj_rel_exists (Linked.truncated_journal pre)) as [p Hp].
  { destruct Hi as [[Htw _] Hac]. by split. }
  destruct (linked_next_sim pre post l (Paged.mkState p (Linked.unmarshalled_tail pre)) Hi) as [H _]; [by split|done|done].
Qed.
Lemma linked_wf_inv s : linked_inv s → Linked.tj_decodable (Linked.truncated_journal s).
Proof. intros [[Htw _] Hac]. by split. Qed.
(** Cropping newest pages off a journal keeps it well formed. *)
Lemma crop_facts tj l d : Linked.tj_wf tj → tj_path tj l →
  Linked.dv_can_crop (disk_view tj) (freshest_rec tj) d →
  Linked.tj_wf (Linked.tj_crop tj d) ∧ tj_path (Linked.tj_crop tj d) (drop d l).
Proof.
  intros [Hw Hb] Hp Hc. destruct (can_crop_path _ _ _ _ Hw Hp Hb Hc) as (H1&H2&_). split; [by split|done].
Qed.
Lemma idx_suffix_end dv ptr ptr' l d : Linked.dv_wf dv → path dv ptr l → Linked.block_in_bounds dv ptr →
  path dv ptr' (drop d l) → Linked.block_in_bounds dv ptr' →
  ∀ a r, (a, r) ∈ l → boundary_lsn dv ≤ seq_start (message_seq r) → 
    seq_start (message_seq r) < Linked.dv_seq_end dv ptr' → (a, r) ∈ drop d l.
Proof.
  intros Hw Hp Hb Hp' Hb' a r Hin Hle Hlt.
  destruct (path_located _ _ _ Hw Hp' Hb') as [_ Hl].
  destruct (Hl (seq_start (message_seq r))) as (b&q&Hin'&Hc&_); [lia|].
  assert ((b, q) ∈ l) as Hin2 by (rewrite <- (take_drop d l); apply elem_of_app; by right).
  pose proof (path_chain _ _ _ Hw Hp Hb _ _ Hin) as [_ Hne].
  destruct (path_unique_lsn _ _ _ Hw Hp a r b q (seq_start (message_seq r))) as [-> ->]; try done; split; lia.
Qed.

Lemma likes_next_sim pre post l : likes_inv pre → Likes.next pre post l →
  Linked.next (Likes.journal pre) (Likes.journal post) l ∧ likes_inv post.
Proof.
  intros [Hi (pl&Hp&Hok)] Hn. pose proof Hi as [(Htw&Hmw&Hse&Hee) Hac].
  assert (Linked.next (Likes.journal pre) (Likes.journal post) l ∧
    ∃ l', tj_path (Likes.tj post) l' ∧
    idx_ok id (Likes.lsn_addr_index post) (boundary_lsn (disk_view (Likes.tj post))) l') as [Hnext Hidx].
  2: { split; [done|]. split; [by eapply linked_inv_next|done]. }
  destruct Hn as [Hn|[[d Hn]|[Hn|[[nj Hn]|[[nj Hn]|[(cut&a&nj&Hn)|Hn]]]]]].
  - destruct Hn as (_&Hn&->). split; [done|by exists pl].
  - destruct Hn as (fj&->&Hfd&Hcc&Hbl&Hcd&Hdc&->). split; [|by exists pl].
    right; left. exists d. split; [apply Hi|]. exists fj.
    destruct (crop_facts _ _ _ Htw Hp Hcc) as [Hcw Hcp].
    destruct (tj_discard_split _ _ _ Hcw Hcp Hcd) as (l'&rest&Hp'&Heq&Hrest&Hl').
    split; [done|]. split; [done|]. split; [by split|]. split; [done|]. split; [done|]. split; [done|]. split; [|done].
    eapply discard_cond_valid; [exact Hp'|exact Hdc|].
    intros a r Hin. apply elem_of_values. specialize (Hl' _ _ Hin).
    assert ((a, r) ∈ pl) as Hpl.
    { rewrite <- (take_drop d pl), Heq. apply elem_of_app. right. apply elem_of_app. by left. }
    assert ((a, r) ∈ drop d pl) as Hdl by (rewrite Heq; apply elem_of_app; by left).
    destruct Hcw as [Hcw1 Hcb]. pose proof (path_chain _ _ _ Hcw1 Hcp Hcb _ _ Hdl) as [Hch Hne].
    exists (seq_start (message_seq r) `max` Linked.tj_seq_start fj). apply lookup_index_range. split.
    + split; [lia|]. rewrite discard_seq_end by done. unfold Linked.tj_seq_end.
      unfold Likes.tj in *. simpl in Hch |- *. lia.
    + apply Hok. exists a, r. unfold Likes.tj in *. split_and!; [done|split; lia|done].
  - destruct Hn as (_&Hn&->). split; [done|by exists pl].
  - destruct Hn as ([m ->]&Hn&->). split; [done|]. simpl. exists pl.
    destruct Hn as [[d' Hn]|[[d' Hn]|[Hn|[Hn|[[new Hn]|[(cut&b&Hn)|Hn]]]]]].
    + by destruct Hn as (_&?&?&_).
    + by destruct Hn as (_&?&?&_).
    + by destruct Hn as (_&?&_).
    + destruct Hn as (_&m'&_&_&_&->). done.
    + by destruct Hn as (_&?&?&?&_).
    + by destruct Hn as (_&_&?&_).
    + by destruct Hn as (_&?&_).
  - destruct Hn as (lsn&re&->&->&Hcd&Hdc&Hut&->). simpl.
    destruct (tj_discard_split _ _ _ Htw Hp Hcd) as (l'&rest&Hp'&->&Hrest&Hl').
    destruct (discard_cond_valid _ _ _ _ _ Hp' Hdc) as [Hvd Hnp].
    { intros a r Hin. apply elem_of_values. specialize (Hl' _ _ Hin).
      assert ((a, r) ∈ l' ++ rest) as Hin' by (apply elem_of_app; by left).
      destruct Htw as [Htw Hb].
      pose proof (path_chain _ _ _ Htw Hp Hb _ _ Hin') as [Hch Hne]. destruct Hcd as [Hc1 Hc2].
      exists (seq_start (message_seq r) `max` lsn). apply lookup_discard_up_to. split; [lia|].
      apply Hok. exists a, r. unfold Linked.tj_seq_start in *. split_and!; [done|split; unfold Likes.tj in *; lia|done]. }
    split.
    + do 4 right; left. exists (Linked.truncated_journal nj). split; [apply Hi|].
      exists lsn, (Linked.st_end (Likes.journal pre)). split; [done|]. split; [done|]. split; [done|]. split; [done|].
      destruct nj as [ntj nt]. simpl in *. by rewrite Hut.
    + exists l'. split; [done|]. destruct Hdc as (_&Hb&_). unfold Likes.tj. simpl. rewrite Hb.
      eapply idx_discard_ok; [done|apply Hcd|done].
  - destruct Hn as (->&Hn&->). simpl. split; [do 5 right; left; by exists cut, a|].
    destruct Hn as (Hun&Hwf&_&Hcut&Hcan&->). eexists. split; [by apply path_append|].
    simpl. unfold Likes.tj. simpl.
    by apply (idx_append_ok id).
  - destruct Hn as (->&->). split; [|by exists pl]. do 6 right. done.
Qed.
Lemma likes_init s tj : Likes.initialize s tj → Linked.initialize (Likes.journal s) tj ∧ likes_inv s.
Proof.
  intros [Hd ->]. assert (Linked.initialize (Linked.mkState tj (empty_history_at (Linked.tj_seq_end tj))) tj) as Hi by done.
  split; [done|]. split; [by apply (linked_init_sim _ tj)|]. destruct (tj_path_exists tj Hd) as [l Hl].
  exists l. split; [done|]. unfold Likes.tj. simpl. unfold Likes.build_lsn_addr_index.
  rewrite (build_index_path _ _ _ Hl) by (by eapply path_length).
  eapply idx_of_ok; [apply Hd|done].
Qed.
Lemma likes_run s0 tj0 ls s : Likes.initialize s0 tj0 → run Likes.next s0 ls s →
  Linked.initialize (Likes.journal s0) tj0 ∧ run Linked.next (Likes.journal s0) ls (Likes.journal s) ∧ likes_inv s.
Proof.
  intros Hi H. destruct (likes_init _ _ Hi) as [Hli Hinv]. split; [done|].
  clear Hi. induction H as [|s0 ls s1 l s2 H IH Hn]; [split; [constructor|done]|].
  destruct IH as [Hr1 Hi1]; [done|done|]. destruct (likes_next_sim _ _ _ Hi1 Hn) as [Hn1 Hi2].
  split; [by eapply run_snoc|done].
Qed.
Lemma likes_index s0 tj0 ls s : Likes.initialize s0 tj0 → run Likes.next s0 ls s →
  index_locates (Likes.lsn_addr_index s) (Linked.truncated_journal (Likes.journal s)).
Proof.
  intros Hi Hr. destruct (likes_run _ _ _ _ Hi Hr) as (_&_&[Hinv (l&Hp&Hok)]).
  pose proof (linked_wf_inv _ Hinv) as [[Hw Hb] Hac]. split.
  - intros lsn a. rewrite (Hok lsn a). split.
    + intros (b&r&Hin&[H1 H2]&Heq). unfold id in Heq. subst b. split; [unfold Likes.tj in *; lia|].
      split; [apply (path_reaches _ _ _ Hp); by eexists|]. exists r.
      split; [by eapply path_entries|lia].
    + intros (Hle&Hre&r&He&Hrr). destruct (proj1 (path_reaches _ _ _ Hp a) Hre) as [r' Hin].
      pose proof (path_entries _ _ _ Hp _ _ Hin) as He'. unfold Likes.tj in He'. simplify_eq.
      exists a, r. split_and!; [done|split; unfold Likes.tj; lia|done].
  - intros lsn. unfold Likes.tj in *. rewrite (idx_ok_dom id _ _ _ _ Hw Hp Hb Hok lsn).
    destruct Hinv as [(_&_&_&Hee) _]. unfold Linked.tj_seq_end in Hee. split.
    + intros Hlt. split; [lia|]. intros e He. unfold chain_ends_at in He. unfold Linked.dv_seq_end in Hlt.
      destruct (freshest_rec (Linked.truncated_journal (Likes.journal s))) as [f|].
      * destruct He as (r&Hr'&->). rewrite Hr' in Hlt. lia.
      * lia.
    + intros [Hle He]. split; [done|]. apply He. unfold chain_ends_at, Linked.dv_seq_end.
      destruct (freshest_rec (Linked.truncated_journal (Likes.journal s))) as [f|] eqn:Ef; [|done].
      destruct Hb as [Hb1 _]. destruct (Hb1 f eq_refl) as [r Hr']. exists r. by rewrite Hr'.
Qed.
