(** The assembled store acts as the coordination of a plain history and a plain
    map (C48). *)
From Verif Require Import Spec_Model Spec_Spec Spec_Proof Abs_Model Abs_Spec Abs_Proof Coord_Proof Coord_Live
  Betree_Model Betree_Spec Betree_Common Route_Proof Routed_Proof Betree_Facts LinkedBetree_Model LinkedBetree_Spec
  LinkedBetree_Proof LinkedBetree_Facts LikesBetree_Model LikesBetree_Proof LikesBetree_Facts
  Journal_Model Journal_Spec AllocJournal_Model CrashJournal_Model CrashJournal_Spec CrashJournal_Proof CrashJournal_Facts
  Store_Model Store_Spec Tree_Live.
From Verif Require PagedBetree_Proof PivotBetree_Proof FilteredBetree_Proof.
From Coq Require Import Lia.

(** ** What is needed of a tree *)
(** [room] holds of the states with room on the device for all it takes to freeze. *)
Definition works (M : MapLayer) (s s' : ml_state M) (_ : unit) : Prop := ml_next M s s' Internal.
Record map_ok (M : MapLayer) (ans : ml_image M → Key → Message → Prop) (room : ml_state M → Prop) := mkMapOk {
  mo_good : Stamped (ml_image M) → Prop;
  mo_sim : ml_state M → AbstractMap.State → Prop;
  mo_empty : mo_good (ml_empty M) ∧ holds ans (st_value (ml_empty M)) kmmap_empty ∧ st_seq_end (ml_empty M) = 0;
  mo_load s img m : mo_good img → ml_load M s img → holds ans (st_value img) m →
    mo_sim s (AbstractMap.mkState (mkStamped m (st_seq_end img)));
  mo_step s s' l a : mo_sim s a → ml_next M s s' l →
    ∃ a' al, AbstractMap.next a a' al ∧ betree_event ans l al ∧ mo_sim s' a';
  mo_freeze s s' img a : mo_sim s a → ml_next M s s' (FreezeAs img) → mo_good img;
  mo_can_load img : mo_good img → ∃ s, ml_load M s img;
  mo_can_put s a puts : mo_sim s a → mh_wf puts → can_follow puts (st_seq_end (AbstractMap.stamped_map a)) →
    ∃ s', ml_next M s s' (Put puts);
  mo_can_query s a k : mo_sim s a →
    ∃ s' v, ml_next M s s' (Query (st_seq_end (AbstractMap.stamped_map a)) k v);
  mo_can_freeze s a : mo_sim s a → room s → ∃ ls s1 img, run (works M) s ls s1 ∧ ml_next M s1 s1 (FreezeAs img) }.
Arguments mo_good {M ans room}. Arguments mo_sim {M ans room}. Arguments mo_empty {M ans room}. Arguments mo_load {M ans room}.
Arguments mo_step {M ans room}. Arguments mo_freeze {M ans room}. Arguments mo_can_load {M ans room}. Arguments mo_can_put {M ans room}.
Arguments mo_can_query {M ans room}. Arguments mo_can_freeze {M ans room}.

Lemma freeze_once (M : MapLayer) s :
  (∃ s1 img, ml_next M s s1 Internal ∧ ml_next M s1 s1 (FreezeAs img)) →
  ∃ ls s1 img, run (works M) s ls s1 ∧ ml_next M s1 s1 (FreezeAs img).
Proof. intros (s1&img&H1&H2). exists [tt], s1, img. split; [by apply run_one|done]. Qed.

Lemma state_holds_image {T} (ans : T → Key → Message → Prop) e (t : T) m :
  holds ans t m → state_holds ans (mkBS (empty_memtable e) t) m.
Proof. intros H. exists m. split; [done|]. intros k. cbn. by rewrite lookup_empty. Qed.

(** *** The trees without addresses *)
Lemma paged_ok : map_ok paged_layer paged_answers (λ _, True).
Proof.
  refine (mkMapOk paged_layer paged_answers (λ _, True) (λ _, True) (sim paged_answers) _ _ _ _ _ _ _ _).
  - split; [done|]. split; [|done]. intros k v. cbn. rewrite PagedBetree_Proof.answers_den. done.
  - intros s img m _ -> Hm. split; [|done]. by apply state_holds_image.
  - intros s s' l a Hs Hn. exact (PagedBetree_Proof.step_sim _ _ _ Hn a Hs).
  - done.
  - intros img _. eexists. reflexivity.
  - intros s a puts [_ He] Hw Hf. unfold can_follow in Hf. eexists. right; left. exists puts.
    split; [done|]. split; [done|]. split; [|done]. congruence.
  - intros s a k [_ He]. destruct (PagedBetree_Proof.one_answer s k) as (v&Hv&_). exists s, v. cbn. rewrite He. exact Hv.
  - intros s a _ _. apply (freeze_once paged_layer). apply paged_can_freeze.
Qed.
Lemma pivot_ok : map_ok pivot_layer pivot_answers (λ _, True).
Proof.
  refine (mkMapOk pivot_layer pivot_answers (λ _, True) (λ img, PivotBetree_Proof.inv (mkBS (empty_memtable 0) (st_value img)))
    (λ s a, PivotBetree_Proof.inv s ∧ sim pivot_answers s a) _ _ _ _ _ _ _ _).
  - split; [done|]. split; [|done]. apply (holds_den Pivot.dwf pivot_held Routed.Nil); done.
  - intros s img m Hg [Hw ->] Hm. split; [done|]. split; [|done]. by apply state_holds_image.
  - intros s s' l a [Hi Hs] Hn. destruct (PivotBetree_Proof.step_sim _ _ _ Hi Hn) as [Hi' Hst].
    destruct (Hst a Hs) as (a'&al&?&?&?). by exists a', al.
  - intros s s' img a [Hi _] Hn. cbn in *. destruct Hi as [Hw Hc].
    destruct Hn as [(r&e&k&v&res&?&_)|[(puts&?&_)|[(_&_&[= ->]&_)|[(?&_)|[(?&_)|Hn]]]]]; try done.
    exfalso. repeat destruct Hn as [Hn|Hn]; by repeat destruct Hn as [? Hn].
  - intros img [Hw _]. eexists. split; [exact Hw|reflexivity].
  - intros s a puts [_ [_ He]] Hw Hf. unfold can_follow in Hf. eexists. right; left. exists puts.
    split; [done|]. split; [done|]. split; [|done]. congruence.
  - intros s a k [Hi [_ He]]. destruct (PivotBetree_Proof.one_answer s k Hi) as (v&Hv&_). exists s, v. cbn. rewrite He. exact Hv.
  - intros s a [Hi _] _. apply (freeze_once pivot_layer). by apply pivot_can_freeze.
Qed.
Lemma filtered_ok : map_ok filtered_layer filtered_answers (λ _, True).
Proof.
  refine (mkMapOk filtered_layer filtered_answers (λ _, True) (λ img, FilteredBetree_Proof.inv (mkBS (empty_memtable 0) (st_value img)))
    (λ s a, FilteredBetree_Proof.inv s ∧ sim filtered_answers s a) _ _ _ _ _ _ _ _).
  - split; [done|]. split; [|done]. apply (holds_den Filtered.dwf filtered_held Routed.Nil); done.
  - intros s img m Hg [Hw ->] Hm. split; [done|]. split; [|done]. by apply state_holds_image.
  - intros s s' l a [Hi Hs] Hn. destruct (FilteredBetree_Proof.step_sim _ _ _ Hi Hn) as [Hi' Hst].
    destruct (Hst a Hs) as (a'&al&?&?&?). by exists a', al.
  - intros s s' img a [Hi _] Hn. cbn in *. destruct Hi as [Hw Hc].
    destruct Hn as [(r&e&k&v&res&?&_)|[(puts&?&_)|[(_&_&[= ->]&_)|[(?&_)|[(?&_)|Hn]]]]]; try done.
    exfalso. repeat destruct Hn as [Hn|Hn]; by repeat destruct Hn as [? Hn].
  - intros img [Hw _]. eexists. split; [exact Hw|reflexivity].
  - intros s a puts [_ [_ He]] Hw Hf. unfold can_follow in Hf. eexists. right; left. exists puts.
    split; [done|]. split; [done|]. split; [|done]. congruence.
  - intros s a k [Hi [_ He]]. destruct (FilteredBetree_Proof.one_answer s k Hi) as (v&Hv&_). exists s, v. cbn. rewrite He. exact Hv.
  - intros s a [Hi _] _. apply (freeze_once filtered_layer). by apply filtered_can_freeze.
Qed.

(** *** The trees on pages *)
Definition legal_image (img : Stamped SLB) : Prop := LinkedBetree_Model.Linked.initialize (linked_start img) (linked_start img).
Lemma legal_init s img : LinkedBetree_Model.Linked.initialize s (linked_start img) → s = linked_start img ∧ legal_image img.
Proof. intros (H1&H2&H3&H4&->). done. Qed.
Lemma empty_legal : legal_image LinkedBetree_Model.Linked.empty_image ∧ holds linked_answers (st_value LinkedBetree_Model.Linked.empty_image) kmmap_empty.
Proof.
  assert (legal_image LinkedBetree_Model.Linked.empty_image) as H.
  { exact r0_init. }
  split; [done|]. intros k v. cbn. split.
  - intros Ha. inversion Ha. done.
  - intros <-. constructor.
Qed.
Lemma linked_good s s' img : linv s → LinkedBetree_Model.Linked.strong_next s s' (FreezeAs img) → legal_image img.
Proof.
  intros Hi Hn. pose proof (linv_legal _ Hi) as (H1&H2&H3).
  destruct Hn as [(r&e&k&x&res&?&_)|[(puts&?&_)|[(_&[= ->]&_)|[(?&?&?&(?&_)&_)|[(?&(?&_)&_)|[(?&?&?&?&?&?&(?&_)&_)|
    [(?&?&?&?&?&?&?&(?&_)&_)|[(?&?&?&?&?&?&?&?&(?&_)&_)|[(?&?&_)|(?&_)]]]]]]]]]; try done.
  unfold legal_image, linked_start. cbn [st_value st_seq_end]. rewrite i_bdv_id. unfold LinkedBetree_Model.Linked.initialize. cbn [root memtable].
  split; [done|]. split; [done|]. split; [done|]. split; done.
Qed.
Lemma linked_load_sim img m : holds linked_answers (st_value img) m →
  sim linked_answers (linked_start img) (AbstractMap.mkState (mkStamped m (st_seq_end img))).
Proof. intros Hm. split; [|done]. by apply state_holds_image. Qed.
Lemma linked_can_answer s k : linv s → ∃ x, can_answer LinkedBetree_Model.Linked.strong_next s k x.
Proof.
  intros (Hw&t&Hr&Hc). destruct (FilteredBetree_Proof.one_answer (mkBS (memtable s) t) k) as (x&Hx&Hu).
  { split; [|done]. by eapply repr_wf; [apply Hw|]. }
  exists x. by apply (can_answer_iff _ _ _ _ Hw Hr).
Qed.
Lemma linked_query_next s s' e k v : LinkedBetree_Model.Linked.strong_next s s' (Query e k v) → LinkedBetree_Model.Linked.next s s' (Query e k v).
Proof.
  intros [H|[H|[H|[(?&?&?&(?&_)&_)|[(?&(?&_)&_)|[(?&?&?&?&?&?&(?&_)&_)|
    [(?&?&?&?&?&?&?&(?&_)&_)|[(?&?&?&?&?&?&?&?&(?&_)&_)|[(?&?&_)|(?&_)]]]]]]]]]; try done.
  - by left.
  - by right; left.
  - by right; right; left.
Qed.
Lemma linked_ok : map_ok linked_layer linked_answers (λ _, True).
Proof.
  refine (mkMapOk linked_layer linked_answers (λ _, True) legal_image (λ s a, linv s ∧ sim linked_answers s a) _ _ _ _ _ _ _ _).
  - split; [apply empty_legal|]. split; [apply empty_legal|done].
  - intros s img m _ Hl Hm. pose proof (linv_init _ _ Hl) as Hi. apply legal_init in Hl as [-> _]. split; [done|].
    by apply linked_load_sim.
  - intros s s' l a [Hi Hs] Hn. destruct (LinkedBetree_Facts.step_sim _ _ _ Hi Hn) as [Hi' Hst].
    destruct (Hst a Hs) as (a'&al&?&?&?). by exists a', al.
  - intros s s' img a [Hi _] Hn. exact (linked_good _ _ _ Hi Hn).
  - intros img H. by exists (linked_start img).
  - intros s a puts [_ [_ He]] Hw Hf. unfold can_follow in Hf. eexists. right; left. exists puts.
    split; [done|]. split; [done|]. split; [|done]. congruence.
  - intros s a k [Hi [_ He]]. destruct (linked_can_answer s k Hi) as (v&Hv). exists s, v. cbn. rewrite He. exact Hv.
  - intros s a [Hi _] _. apply (freeze_once linked_layer). by apply linked_can_freeze.
Qed.
Lemma counted_ok : map_ok counted_layer linked_answers (λ _, True).
Proof.
  refine (mkMapOk counted_layer linked_answers (λ _, True) legal_image
    (λ s a, sexact s ∧ sim linked_answers (LikesBetree.betree s) a) _ _ _ _ _ _ _ _).
  - split; [apply empty_legal|]. split; [apply empty_legal|done].
  - intros s img m _ Hl Hm. destruct (likes_init _ _ Hl) as [He Eb]. split; [done|]. rewrite Eb.
    by apply linked_load_sim.
  - intros s s' l a [Hi Hs] Hn. destruct (likes_strong _ _ _ Hi Hn) as [Hn' Hi'].
    destruct (LinkedBetree_Facts.step_sim _ _ _ (proj1 Hi) Hn') as [_ Hst].
    destruct (Hst a Hs) as (a'&al&?&?&?). by exists a', al.
  - intros s s' img a [Hi _] Hn. destruct (likes_strong _ _ _ Hi Hn) as [Hn' Hi']. eapply linked_good; [apply Hi|exact Hn'].
  - intros img H. pose proof H as ((_&rk&Hrk)&_). eexists. split; [exact H|]. eexists _, _. split; [|reflexivity].
    exists rk. done.
  - intros s a puts [_ [_ He]] Hw Hf. unfold can_follow in Hf. eexists. left. eexists. split; [done|]. split; [|reflexivity].
    right; left. exists puts. split; [done|]. split; [done|]. split; [|done]. congruence.
  - intros s a k [Hi [_ He]]. destruct (linked_can_answer (LikesBetree.betree s) k (proj1 Hi)) as (v&Hv).
    eexists _, v. left. eexists. split; [done|]. split; [|reflexivity]. apply linked_query_next.
    rewrite He. exact Hv.
  - intros s a [Hi _] _. apply (freeze_once counted_layer). by apply counted_can_freeze.
Qed.
Lemma units_ok : map_ok units_layer linked_answers (λ _, True).
Proof.
  refine (mkMapOk units_layer linked_answers (λ _, True) legal_image
    (λ x a, ∃ s, same x s ∧ sexact s ∧ sim linked_answers (AllocBetree.betree x) a) _ _ _ _ _ _ _ _).
  - split; [apply empty_legal|]. split; [apply empty_legal|done].
  - intros x img m _ (Hi&tl&bl&Ht&->) Hm. exists (LikesBetree.mkState (linked_start img) tl bl). split; [done|].
    split; [by eapply exact_init|]. by apply linked_load_sim.
  - intros x x' l a (s&Hsm&Hi&Hs) Hn. destruct (alloc_sim _ _ _ _ Hsm Hi Hn) as (s'&Hn1&Hsm').
    destruct (likes_strong _ _ _ Hi Hn1) as [Hn' Hi'].
    destruct (LinkedBetree_Facts.step_sim _ _ _ (proj1 Hi) Hn') as [_ Hst].
    rewrite (proj1 Hsm) in Hs. destruct (Hst a Hs) as (a'&al&?&?&?). exists a', al. split; [done|]. split; [done|].
    exists s'. split; [done|]. split; [done|]. by rewrite (proj1 Hsm').
  - intros x x' img a (s&Hsm&Hi&Hs) Hn. destruct (alloc_sim _ _ _ _ Hsm Hi Hn) as (s'&Hn1&Hsm').
    destruct (likes_strong _ _ _ Hi Hn1) as [Hn' Hi']. eapply linked_good; [apply Hi|exact Hn'].
  - intros img H. pose proof H as ((_&rk&Hrk)&_). eexists. split; [exact H|]. eexists _, _. split; [|reflexivity].
    exists rk. done.
  - intros x a puts (_&_&_&_&He) Hw Hf. unfold can_follow in Hf. eexists. left. eexists. split; [done|]. split; [|reflexivity].
    right; left. exists puts. split; [done|]. split; [done|]. split; [|done]. congruence.
  - intros x a k (s&Hsm&Hi&_&He). destruct (linked_can_answer (LikesBetree.betree s) k (proj1 Hi)) as (v&Hv).
    eexists _, v. left. eexists. split; [done|]. split; [|reflexivity]. apply linked_query_next.
    rewrite He. rewrite (proj1 Hsm). exact Hv.
  - intros x a (s&Hsm&Hi&_) _. apply (freeze_once units_layer). by eapply units_can_freeze.
Qed.
Definition tree_ok (t : Tree) : map_ok (tree_layer t) (tree_answers t) (λ _, True) :=
  match t with
  | PagedTree => paged_ok | PivotTree => pivot_ok | FilteredTree => filtered_ok
  | LinkedTree => linked_ok | CountedTree => counted_ok | UnitsTree => units_ok
  end.

(** ** The crash-tolerant map *)
Section Map.
  Context {M : MapLayer} {ans : ml_image M → Key → Message → Prop} {room : ml_state M → Prop} (ok : map_ok M ans room).
  Definition img_is (i : Stamped (ml_image M)) (c : StampedMap) : Prop :=
    mo_good ok i ∧ holds ans (st_value i) (st_value c) ∧ st_seq_end i = st_seq_end c.
  Definition map_is (s : TreeMap.State M) (c : CTMap.State) : Prop :=
    img_is (TreeMap.persistent s) (CTMap.persistent c) ∧
    opt_is (mo_sim ok) (TreeMap.ephemeral s) (CTMap.ephemeral c) ∧
    opt_is img_is (TreeMap.in_flight s) (CTMap.in_flight c).
  Lemma holds_det t m m' k : holds ans t m → holds ans t m' → m k = m' k.
  Proof. intros H H'. symmetry. apply H', H. done. Qed.
  Lemma map_start s : TreeMap.init s → ∃ c, CTMap.init c ∧ map_is s c.
  Proof.
    intros ->. eexists. split; [reflexivity|]. split; [|done]. destruct (mo_empty ok) as (H1&H2&H3). split; [done|].
    by split.
  Qed.
  Lemma opt_is_Some {A B} (R : A → B → Prop) x y a : opt_is R x y → x = Some a → ∃ b, y = Some b ∧ R a b.
  Proof. intros H ->. destruct y as [b|]; [|done]. by exists b. Qed.
  Lemma opt_is_None {A B} (R : A → B → Prop) x y : opt_is R x y → x = None → y = None.
  Proof. intros H ->. by destruct y. Qed.
  Lemma map_sim s s' l c : map_is s c → TreeMap.next s s' l → ∃ c', CTMap.next c c' l ∧ map_is s' c'.
  Proof.
    intros (Hp&He&Hf) Hn.
    destruct Hn as [(e&nm&->&E&->&Hl&->)|[(nm&r&v&->&E&Hx&->)|[(nm&e&k&x&v&->&E&Hx&->)|[(f&nm&v&->&E&Ef&Hx&->)|
      [(nm&v&->&E&Hx&->)|[(b&v&f&->&E&Ef&Hle&->&->)|[(f&->&Ef&->)|(keep&->&->)]]]]]]].
    - destruct Hp as (Hg&Hh&Hs). eexists. split.
      + left. eexists _, _. split; [reflexivity|]. split; [by eapply opt_is_None|]. split; [done|]. split; [reflexivity|reflexivity].
      + split; [done|]. split; [|done]. cbn. destruct (CTMap.persistent c) as [m n] eqn:Ec. cbn in *. rewrite <-Hs.
        by apply (mo_load ok).
    - destruct (opt_is_Some _ _ _ _ He E) as (a&Ea&Ha). destruct (mo_step ok _ _ _ _ Ha Hx) as (a'&al&Hn&Hev&Ha').
      cbn in Hev. subst al. eexists. split.
      + right; left. exists a', r, a. split; [done|]. split; [done|]. split; [done|reflexivity].
      + split; [done|]. by split.
    - destruct (opt_is_Some _ _ _ _ He E) as (a&Ea&Ha). destruct (mo_step ok _ _ _ _ Ha Hx) as (a'&al&Hn&Hev&Ha').
      cbn in Hev. subst al. exists c. split.
      + right; right; left. exists a', e, k, x, a. split; [done|]. split; [done|]. split; [done|reflexivity].
      + split; [done|]. by split.
    - destruct (opt_is_Some _ _ _ _ He E) as (a&Ea&Ha). destruct (mo_step ok _ _ _ _ Ha Hx) as (a'&al&Hn&Hev&Ha').
      destruct Hev as (m&Hm&->). eexists. split.
      + right; right; right; left. eexists _, a', a. split; [done|]. split; [done|]. split; [by eapply opt_is_None|].
        split; [exact Hn|reflexivity].
      + split; [done|]. split; [done|]. split; [|by split]. exact (mo_freeze ok _ _ _ _ Ha Hx).
    - destruct (opt_is_Some _ _ _ _ He E) as (a&Ea&Ha). destruct (mo_step ok _ _ _ _ Ha Hx) as (a'&al&Hn&Hev&Ha').
      cbn in Hev. subst al. eexists. split.
      + right; right; right; right; left. exists a', a. split; [done|]. split; [done|]. split; [done|reflexivity].
      + split; [done|]. by split.
    - destruct (opt_is_Some _ _ _ _ He E) as (a&Ea&Ha). destruct (opt_is_Some _ _ _ _ Hf Ef) as (g&Eg&Hg).
      exists c. split.
      + do 5 right; left. exists (st_seq_end f), a, g. destruct Hg as (_&_&Hg). destruct Hp as (_&_&Hp').
        split; [done|]. split; [done|]. split; [done|]. split; [lia|]. done.
      + split; [done|]. by split.
    - destruct (opt_is_Some _ _ _ _ Hf Ef) as (g&Eg&Hg). eexists. split.
      + do 6 right; left. exists g. split; [done|]. split; [done|reflexivity].
      + split; [done|]. by split.
    - eexists. split.
      + do 7 right. exists keep. split; [done|reflexivity].
      + split; [|done]. cbn. destruct keep; [|done].
        destruct (TreeMap.in_flight s), (CTMap.in_flight c); done.
  Qed.
  (** Steps that are not answers of the tree can be matched the other way round. *)
  Lemma map_can_load s c : map_is s c → TreeMap.ephemeral s = None →
    ∃ s', TreeMap.next s s' (CTMap.LoadEphemeralFromPersistentLabel (st_seq_end (CTMap.persistent c))).
  Proof.
    intros ((Hg&_&Hs)&_) E. destruct (mo_can_load ok _ Hg) as [v Hv]. eexists. left. eexists _, v. split; [reflexivity|].
    split; [done|]. split; [done|]. split; [done|reflexivity].
  Qed.
  Lemma map_can_put s c a r : map_is s c → CTMap.ephemeral c = Some a → mh_wf r →
    can_follow r (st_seq_end (AbstractMap.stamped_map a)) → ∃ s', TreeMap.next s s' (CTMap.PutRecordsLabel r).
  Proof.
    intros (_&He&_) E Hw Hf. rewrite E in He. destruct (TreeMap.ephemeral s) as [v|] eqn:Ev; [|done].
    destruct (mo_can_put ok _ _ _ He Hw Hf) as [v' Hv]. eexists. right; left. exists v', r, v.
    split; [done|]. split; [done|]. split; [done|reflexivity].
  Qed.
  Lemma map_can_query s c a k : map_is s c → CTMap.ephemeral c = Some a →
    ∃ x, TreeMap.next s s (CTMap.QueryLabel (st_seq_end (AbstractMap.stamped_map a)) k x).
  Proof.
    intros (_&He&_) E. rewrite E in He. destruct (TreeMap.ephemeral s) as [v|] eqn:Ev; [|done].
    destruct (mo_can_query ok _ _ k He) as (v'&x&Hv). exists x. right; right; left. exists v'. eexists _, k, x, v.
    split; [done|]. split; [done|]. split; [done|reflexivity].
  Qed.
End Map.

(** ** The journals *)
Record journal_ok (J : JournalLayer) (disk : jl_state J → MsgHistory → Prop) := mkJournalOk {
  jo_sim : jl_state J → CTJournal.State → Prop;
  jo_start s : jl_init J s → ∃ c, CTJournal.init c ∧ jo_sim s c;
  jo_step s s' l c : jo_sim s c → jl_next J s s' l → ∃ c', CTJournal.next c c' l ∧ jo_sim s' c';
  jo_in_flight s c : jo_sim s c → jl_in_flight J s = present (CTJournal.in_flight c);
  jo_disk s c h : jo_sim s c → disk s h ↔ h = CTJournal.persistent c }.
Arguments jo_sim {J disk}. Arguments jo_start {J disk}. Arguments jo_step {J disk}. Arguments jo_in_flight {J disk}.
Arguments jo_disk {J disk}.
Lemma outer_event l : outer_label l = crash_event l. Proof. by destruct l. Qed.
Lemma opt_is_present {A B} (R : A → B → Prop) x y : opt_is R x y → present x = present y.
Proof. by destruct x, y. Qed.
Lemma own_ok `{Geometry} : journal_ok (journal_layer OwnPages) (journal_on_disk OwnPages).
Proof.
  refine (mkJournalOk (journal_layer OwnPages) (journal_on_disk OwnPages) (λ s c, ac_inv s ∧ alloc_crash_is s c) _ _ _ _).
  - intros s Hs. destruct (ac_run s [] s Hs (run_nil _ _)) as (Hi&c0&c&Hc&Hr&Hsc). cbn in Hr. apply run_nil_inv in Hr. subst c. by exists c0.
  - intros s s' l c [Hi Hs] (l'&<-&Hn). destruct (ac_sim _ _ _ _ Hi Hs Hn) as (Hi'&c'&Hn'&Hs').
    exists c'. by rewrite outer_event.
  - intros s c (_&_&_&Hf). by eapply opt_is_present.
  - intros s c h (_&Hp&_). cbn. split; [|by intros ->]. intros Hh. by eapply linked_holds_det.
Defined.
Lemma shared_ok `{Geometry} : journal_ok (journal_layer SharedPages) (journal_on_disk SharedPages).
Proof.
  refine (mkJournalOk (journal_layer SharedPages) (journal_on_disk SharedPages) (λ s c, uni_inv s ∧ unified_is s c) _ _ _ _).
  - intros s Hs. destruct (uni_start s Hs) as (Hi&c0&Hc&Hsc). by exists c0.
  - intros s s' l c [Hi Hs] (l'&<-&Hn). destruct (uni_sim _ _ _ _ Hi Hs Hn) as (Hi'&c'&Hn'&Hs').
    exists c'. by rewrite outer_event.
  - intros s c (_&_&_&Hf). by eapply opt_is_present.
  - intros s c h (_&Hp&_). cbn. split; [|by intros ->]. intros Hh. by eapply linked_holds_det.
Defined.
Definition pages_ok `{Geometry} (p : Pages) : journal_ok (journal_layer p) (journal_on_disk p) :=
  match p with OwnPages => own_ok | SharedPages => shared_ok end.

(** ** The whole store *)
Section Whole.
  Context {J : JournalLayer} {disk : jl_state J → MsgHistory → Prop} (jok : journal_ok J disk).
  Context {M : MapLayer} {ans : ml_image M → Key → Message → Prop} {room : ml_state M → Prop} (mok : map_ok M ans room).
  Definition store_is (s : Store.State J M) (c : CoordSys.State) : Prop :=
    jo_sim jok (Store.journal s) (CoordSys.journal c) ∧ map_is mok (Store.mapadt s) (CoordSys.mapadt c) ∧
    Store.ephemeral s = CoordSys.ephemeral c ∧ Store.superblock_in_flight s = CoordSys.superblock_in_flight c.
  Lemma store_start s : Store.init s → ∃ c, CoordSys.init c ∧ store_is s c.
  Proof.
    intros (Hj&Hm&He&Hs). destruct (jo_start jok _ Hj) as (cj&Hcj&Hj'). destruct (map_start mok _ Hm) as (cm&Hcm&Hm').
    exists (CoordSys.mkState cj cm None false). done.
  Qed.
  Ltac store_split := repeat match goal with |- _ ∧ _ => split end.
  Ltac store_fin := first [eassumption | reflexivity | cbn; congruence | done].
  Lemma store_sim s s' l c : store_is s c → Store.next s s' l → ∃ c', CoordSys.next_fixed c c' l ∧ store_is s' c'.
  Proof.
    intros (Hj&Hm&He&Hs) Hn. destruct c as [cj cm ce cs]. cbn in Hj, Hm, He, Hs.
    destruct Hn as [(nj&nm&lsn&->&Hxj&Hxm&->)|[(nj&nm&r&e&->&Ee&Hw&Hxj&Hxm&->)|[(e&q&Ee&->&Hq&->)|
      [(nj&nm&e&q&y&k&x&Ee&->&E1&E2&E3&E4&E5&Hxj&Hxm&->)|[(nj&nm&e&q&y&k&x&Ee&->&E1&E2&E3&E4&E5&Hxj&Hxm&->)|
      [(e&y&Ee&->&Hy&->)|[(nj&e&Ee&->&Hxj&->)|[(nm&e&Ee&->&Hxm&->)|[(nj&e&id&Ee&->&Hid&Hxj&->)|
      [(nj&e&id&n&Ee&->&Hid&Hxj&->)|[(->&Esb&->)|[(b&nj&e&Ee&->&Hxj&Hxm&->)|[(nm&nj&e&Esb&Ee&->&Hxj&Hxm&->)|
      (nj&nm&->&Hxj&Hxm&->)]]]]]]]]]]]]];
      try (destruct (jo_step jok _ _ _ _ Hj Hxj) as (cj'&Hcj&Hj')); try (destruct (map_sim mok _ _ _ _ Hm Hxm) as (cm'&Hcm&Hm')).
    - exists (CoordSys.mkState cj' cm' (Some (CoordSys.mkKnown AsyncMap.init_ephemeral_state ∅ lsn)) cs). split; [|done].
      left. left. by exists cj', cm', lsn.
    - eexists. split; [left; right; left; exists cj', cm', r, e|]; [store_split; store_fin|].
      by split_and!.
    - eexists. split; [left; do 2 right; left; exists e, q|]; [store_split; store_fin|].
      by split_and!.
    - eexists. split; [left; do 3 right; left; exists cj', cm', e, q, y, k, x|]; [store_split; store_fin|].
      by split_and!.
    - eexists. split; [left; do 4 right; left; exists cj', cm', e, q, y, k, x|]; [store_split; store_fin|].
      by split_and!.
    - eexists. split; [left; do 5 right; left; exists e, y|]; [store_split; store_fin|].
      by split_and!.
    - eexists. split; [left; do 6 right; left; exists cj', e|]; [store_split; store_fin|].
      by split_and!.
    - eexists. split; [left; do 7 right; left; exists cm', e|]; [store_split; store_fin|].
      by split_and!.
    - eexists. split; [left; do 8 right; left; exists cj', e, id|]; [store_split; store_fin|].
      by split_and!.
    - eexists. split; [left; do 9 right; left; exists cj', e, id, n|]; [store_split; store_fin|].
      by split_and!.
    - eexists. split; [left; do 10 right; left; unfold CoordSys.superblock_write_lands|]; [store_split; store_fin|].
      by split_and!.
    - assert (cm' = cm ∧ CTMap.next cm cm (CTMap.CommitStartLabel b)) as [-> _].
      { assert (cm' = cm) as ->; [|done]. clear -Hcm.
        destruct Hcm as [(?&?&?&_)|[(?&?&?&?&_)|[(?&?&?&?&?&?&_)|[(?&?&?&?&_)|[(?&?&?&_)|[(?&?&?&?&?&?&?&?&->)|[(?&?&_)|(?&?&_)]]]]]]]; done. }
      eexists. split; [right; exists b, cj', e|]; [store_split; store_fin|].
      by split_and!.
    - eexists. split; [left; do 11 right; left; exists cm', cj', e|]; [store_split; store_fin|].
      by split_and!.
    - assert (Store.keep_in_flight _ _ s = CoordSys.keep_in_flight (CoordSys.mkState cj cm ce cs)) as Hk.
      { unfold Store.keep_in_flight, CoordSys.keep_in_flight. cbn. rewrite (jo_in_flight jok _ _ Hj), Hs.
        by destruct (CTJournal.in_flight cj). }
      rewrite Hk in Hcj, Hcm.
      eexists. split; [left; do 12 right; exists cj', cm'|]; [store_split; store_fin|].
      by split_and!.
  Qed.
  Lemma store_run_from s ls s' c : store_is s c → run Store.next s ls s' →
    ∃ c', run CoordSys.next_fixed c ls c' ∧ store_is s' c'.
  Proof.
    intros Hs Hr. induction Hr as [s|s ls s1 l s2 Hr IH Hn].
    - exists c. split; [constructor|done].
    - destruct (IH Hs) as (c1&Hc1&Hs1). destruct (store_sim _ _ _ _ Hs1 Hn) as (c2&Hn2&Hs2). exists c2.
      split; [by eapply run_snoc|done].
  Qed.
  Lemma store_run (s0 : Store.State J M) ls s : Store.init s0 → run Store.next s0 ls s →
    ∃ c0 c, CoordSys.init c0 ∧ run CoordSys.next_fixed c0 ls c ∧ store_is s c.
  Proof.
    intros H0 Hr. destruct (store_start _ H0) as (c0&Hc0&Hs0). destruct (store_run_from _ _ _ _ Hs0 Hr) as (c&Hc&Hs). by exists c0, c.
  Qed.
  Lemma store_allowed (s0 : Store.State J M) ls s : Store.init s0 → run Store.next s0 ls s →
    (∃ t, run CTAM.next CTAM.init ls t) ∧ ∃ logs, explained ls logs ∧ syncs_durable ls logs.
  Proof. intros H0 Hr. destruct (store_run _ _ _ H0 Hr) as (c0&c&Hc0&Hc&_). by eapply next_fixed_allowed. Qed.
End Whole.

(** ** What the disk holds *)
Lemma explained_cut ls ls' logs : explained (ls ++ ls') logs → Forall (λ l, l = CTAM.Noop) ls' →
  explained ls (take (S (length ls)) logs) ∧ ∀ a b, logs !! length ls = Some a → logs !! length (ls ++ ls') = Some b → a = b.
Proof.
  intros (Hl&H0&Hs) Hn. rewrite app_length in *. split.
  - split; [rewrite take_length; lia|]. split; [by rewrite lookup_take by lia|].
    intros i l Hi. pose proof (lookup_lt_Some _ _ _ Hi). destruct (Hs i l) as (a&b&?&?&?); [by apply lookup_app_l_Some|].
    exists a, b. by rewrite !lookup_take by lia.
  - assert (∀ k a b, k ≤ length ls' → logs !! length ls = Some a → logs !! (length ls + k) = Some b → a = b) as Hk; [|intros a b; by apply Hk].
    induction k as [|k IH]; intros a b Hk Ha Hb.
    + rewrite Nat.add_0_r in Hb. congruence.
    + destruct (lookup_lt_is_Some_2 ls' k) as [l El]; [lia|]. destruct (Hs (length ls + k) l) as (x&y&Hx&Hy&Hst).
      { rewrite lookup_app_r by lia. by replace (length ls + k - length ls) with k by lia. }
      rewrite Forall_lookup in Hn. rewrite (Hn _ _ El) in Hst. cbn in Hst. subst y.
      replace (S (length ls + k)) with (length ls + S k) in Hy by lia. rewrite Hb in Hy. injection Hy as ->.
      eapply (IH a x); [lia|done|done].
Qed.
Lemma syncs_cut ls ls' logs : syncs_durable (ls ++ ls') logs → syncs_durable ls (take (S (length ls)) logs).
Proof.
  intros H j id Hj. pose proof (lookup_lt_Some _ _ _ Hj). destruct (H j id) as (i&(Hij&Hi&_&Hm)&a&Ha&Hb); [by apply lookup_app_l_Some|].
  exists i. assert (i < length ls) by lia. rewrite lookup_app_l in Hi by lia. split.
  - split; [done|]. split; [done|]. split; [done|]. intros m Hmm. specialize (Hm m Hmm). by rewrite lookup_app_l in Hm by lia.
  - exists a. rewrite lookup_take by lia. split; [done|]. intros k b Hk Hkb. apply (Hb k b Hk).
    pose proof (lookup_lt_Some _ _ _ Hkb) as Hlt. rewrite take_length in Hlt. by rewrite lookup_take in Hkb by lia.
Qed.
Lemma recovery_noops s ls s' : run recovery_step s ls s' → Forall (λ l, l = CTAM.Noop) ls.
Proof.
  intros Hr. induction Hr as [s|s ls s1 l s2 Hr IH Hn]; [constructor|]. apply Forall_app. split; [done|]. constructor; [|constructor].
  destruct Hn as [(?&?&?&?&_)|(?&?&?&?&?&_)]; done.
Qed.
(** The durable state of the coordinated system is the state of the surviving log. *)
Lemma coord_disk c0 ls c l : CoordSys.init c0 → run CoordSys.next_fixed c0 ls c → CoordSys.ephemeral c = None →
  is_log (CTJournal.persistent (CoordSys.journal c)) l →
  ∃ logs log, explained ls logs ∧ syncs_durable ls logs ∧ logs !! length ls = Some log ∧
    ∀ k, after l k (st_value (CTMap.persistent (CoordSys.mapadt c)) k) = Define (last_write k log).
Proof.
  intros H0 Hr He Hl. destruct (recovery_possible _ _ _ H0 Hr He) as (ls'&c'&m&Hrec&Hr'&Hm).
  pose proof (recovery_exact _ _ _ _ _ _ _ H0 Hr He Hrec Hm Hl) as Hx.
  destruct (recovered_log _ _ _ _ H0 (run_app _ _ _ _ _ _ Hr Hr') Hm) as (logs&log&Hex&Hsy&Hlog&Hk).
  destruct (explained_cut _ _ _ Hex (recovery_noops _ _ _ Hrec)) as [Hex' Heq].
  exists (take (S (length ls)) logs), log. split; [done|]. split; [by eapply syncs_cut|]. split; [|intros k; by rewrite <-Hx].
  rewrite lookup_take by lia. destruct (lookup_lt_is_Some_2 logs (length ls)) as [a Ha].
  { destruct Hex as [Hlen _]. rewrite Hlen, app_length. lia. }
  rewrite Ha. f_equal. by eapply Heq.
Qed.
Lemma store_disk `{Geometry} p t s0 ls (s : Store.State (journal_layer p) (tree_layer t)) :
  Store.init s0 → run Store.next s0 ls s → Store.ephemeral s = None →
  ∃ logs log base l, explained ls logs ∧ syncs_durable ls logs ∧ logs !! length ls = Some log ∧
    on_disk p t s base l ∧ ∀ k, after l k (base k) = Define (last_write k log).
Proof.
  intros H0 Hr He. destruct (store_run (pages_ok p) (tree_ok t) _ _ _ H0 Hr) as (c0&c&Hc0&Hc&(Hj&(Hmp&_)&He'&_)).
  rewrite He in He'. destruct (durable_is_log _ _ _ Hc0 Hc) as (l&Hl&Hsq).
  destruct (coord_disk _ _ _ _ Hc0 Hc (eq_sym He') Hl) as (logs&log&H1&H2&H3&H4).
  exists logs, log, (st_value (CTMap.persistent (CoordSys.mapadt c))), l. split_and!; try done.
  split; [apply Hmp|]. exists (CTJournal.persistent (CoordSys.journal c)). split; [by apply (jo_disk (pages_ok p) _ _ _ Hj)|].
  split; [done|]. rewrite Hsq. symmetry. apply Hmp.
Qed.
Lemma is_log_det h l l' : is_log h l → is_log h l' → l = l'.
Proof.
  intros [E1 H1] [E2 H2]. apply list_eq. intros i. apply option_eq. intros km.
  specialize (H1 (seq_start h + i) km). specialize (H2 (seq_start h + i) km).
  replace (seq_start h + i - seq_start h) with i in * by lia. rewrite H1 in H2. clear -H2. destruct H2 as [H H'].
  split; intros E; [apply H|apply H']; split; auto; lia.
Qed.
