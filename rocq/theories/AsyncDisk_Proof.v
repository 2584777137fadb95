(** Proofs about the asynchronous disk (C21) and about bags used as maps (C35). *)
From Verif Require Import Spec_Model Spec_Spec Disk_Model System_Model System_Spec Spec_Proof.

Lemma lookup_snoc_Some {A} (l : list A) x i y :
  (l ++ [x]) !! i = Some y ↔ i < length l ∧ l !! i = Some y ∨ i = length l ∧ x = y.
Proof.
  split.
  - intros Hl. destruct (decide (i < length l)); [left|right].
    + by rewrite lookup_app_l in Hl.
    + rewrite lookup_app_r in Hl by lia. apply list_lookup_singleton_Some in Hl as [??]. split; [lia|done].
  - intros [[? Hl]|[-> ->]]; [by rewrite lookup_app_l|]. by rewrite lookup_app_r, Nat.sub_diag by lia.
Qed.

(** ** Bags as maps *)
Section multiset_map.
  Context {K V : Type} `{Countable K, Countable V}.
  Implicit Types m : gmultiset (K * V).

  Lemma unique_keys_cons p m :
    unique_keys ({[+ p +]} ⊎ m) ↔ unique_keys m ∧ ∀ p', p' ∈ m → p'.1 ≠ p.1.
  Proof.
    split.
    - intros [Hs Hu].
      assert (∀ p', p' ∈ m → p'.1 ≠ p.1) as Hp.
      { intros p' Hp'.
        destruct (Hu p' p) as [->|Hne]; [multiset_solver|multiset_solver| |exact Hne].
        assert (multiplicity p ({[+ p +]} ⊎ m) = 1) as Hm by (apply Hs; multiset_solver).
        rewrite multiplicity_disj_union, multiplicity_singleton in Hm.
        rewrite elem_of_multiplicity in Hp'. lia. }
      split; [|exact Hp]. split.
      + intros e He. assert (multiplicity e ({[+ p +]} ⊎ m) = 1) as Hm by (apply Hs; multiset_solver).
        rewrite multiplicity_disj_union, multiplicity_singleton_ne in Hm; [lia|].
        intros ->. by apply (Hp p).
      + intros p1 p2 ??. apply Hu; multiset_solver.
    - intros [[Hs Hu] Hp]. split.
      + intros e He. rewrite multiplicity_disj_union. destruct (decide (e = p)) as [->|Hne].
        * rewrite multiplicity_singleton. destruct (multiplicity p m) eqn:E; [done|].
          exfalso. apply (Hp p); [|done]. apply elem_of_multiplicity. lia.
        * rewrite multiplicity_singleton_ne by done. apply Hs. multiset_solver.
      + intros p1 p2 H1 H2.
        apply gmultiset_elem_of_disj_union in H1 as [H1|H1];
          apply gmultiset_elem_of_disj_union in H2 as [H2|H2];
          rewrite ?gmultiset_elem_of_singleton in *; subst; auto.
        right. apply not_eq_sym. auto.
  Qed.
  Lemma elements_NoDup_fst m : unique_keys m → NoDup (elements m).*1.
  Proof.
    induction m as [|p m IH] using gmultiset_ind.
    - intros _. rewrite gmultiset_elements_empty. constructor.
    - intros [Hm Hp]%unique_keys_cons.
      rewrite gmultiset_elements_disj_union, gmultiset_elements_singleton. simpl. constructor; [|auto].
      intros (p'&Heq&Hin)%elem_of_list_fmap. apply gmultiset_elem_of_elements in Hin.
      by apply (Hp p').
  Qed.
  Lemma multiset_to_map_lookup m k v :
    unique_keys m → multiset_to_map m !! k = Some v ↔ (k, v) ∈ m.
  Proof.
    intros Hu%elements_NoDup_fst. unfold multiset_to_map.
    rewrite <- elem_of_list_to_map by done. apply gmultiset_elem_of_elements.
  Qed.
  Lemma multiset_to_map_empty : multiset_to_map (∅ : gmultiset (K * V)) = ∅.
  Proof. unfold multiset_to_map. by rewrite gmultiset_elements_empty. Qed.
  Lemma multiset_to_map_singleton k v :
    multiset_to_map ({[+ (k, v) +]} : gmultiset (K * V)) = {[k := v]}.
  Proof. unfold multiset_to_map. rewrite gmultiset_elements_singleton. simpl. apply insert_empty. Qed.
  Lemma multiset_to_map_inj m m' :
    unique_keys m → unique_keys m' → multiset_to_map m = multiset_to_map m' → m = m'.
  Proof.
    intros Hu Hu' He. apply gmultiset_eq. intros [k v].
    assert ((k, v) ∈ m ↔ (k, v) ∈ m') as Hiff.
    { rewrite <- !multiset_to_map_lookup by done. by rewrite He. }
    destruct (decide ((k, v) ∈ m)) as [Hin|Hin].
    - rewrite (proj1 Hu _ Hin). symmetry. apply (proj1 Hu'). by apply Hiff.
    - assert ((k, v) ∉ m') as Hin' by (by rewrite <- Hiff).
      rewrite elem_of_multiplicity in Hin, Hin'. lia.
  Qed.
  Lemma multiset_to_map_size m : unique_keys m → size (multiset_to_map m) = size m.
  Proof.
    intros Hu. induction m as [|p m IH] using gmultiset_ind.
    - rewrite multiset_to_map_empty. by rewrite map_size_empty.
    - apply unique_keys_cons in Hu as Hu'. destruct Hu' as [Hm Hp].
      unfold multiset_to_map in *.
      rewrite gmultiset_size_disj_union, gmultiset_size_singleton, <- IH by done.
      assert (list_to_map (elements ({[+ p +]} ⊎ m)) = (<[p.1 := p.2]> (list_to_map (elements m)) : gmap K V)) as ->.
      { destruct p as [k v]; simpl. rewrite <- list_to_map_cons.
        apply list_to_map_proper; [by apply elements_NoDup_fst|].
        by rewrite gmultiset_elements_disj_union, gmultiset_elements_singleton. }
      rewrite map_size_insert_None; [done|]. apply not_elem_of_list_to_map_1.
      intros (p'&Heq&Hin)%elem_of_list_fmap. apply gmultiset_elem_of_elements in Hin.
      by apply (Hp p').
  Qed.
  Lemma multiset_to_map_dom m k : k ∈ dom (multiset_to_map m) ↔ ∃ v, (k, v) ∈ m.
  Proof.
    unfold multiset_to_map. rewrite dom_list_to_map, elem_of_list_to_set, elem_of_list_fmap.
    split.
    - intros ([k' v]&->&Hin). apply gmultiset_elem_of_elements in Hin. by exists v.
    - intros [v Hv]. exists (k, v). split; [done|]. by apply gmultiset_elem_of_elements.
  Qed.
  Lemma multiset_to_map_insert m k v :
    unique_keys m → multiset_to_map m !! k = None →
    unique_keys (m ⊎ {[+ (k, v) +]}) ∧
    multiset_to_map (m ⊎ {[+ (k, v) +]}) = <[k := v]> (multiset_to_map m).
  Proof.
    intros Hu Hk. rewrite (comm_L (⊎)).
    assert (∀ p', p' ∈ m → p'.1 ≠ k) as Hp.
    { intros [k' v'] Hin Hx. cbn in Hx. subst k'. apply not_elem_of_dom in Hk. apply Hk, multiset_to_map_dom. by exists v'. }
    assert (unique_keys ({[+ (k, v) +]} ⊎ m)) as Hu' by (by apply unique_keys_cons).
    split; [exact Hu'|]. apply map_eq. intros k'. apply option_eq. intros v'.
    rewrite multiset_to_map_lookup by done.
    rewrite gmultiset_elem_of_disj_union, gmultiset_elem_of_singleton.
    destruct (decide (k' = k)) as [->|Hne].
    - rewrite lookup_insert. split; [|intros [= ->]; by left].
      intros [[= ->]|Hin]; [done|]. by destruct (Hp _ Hin).
    - rewrite lookup_insert_ne, multiset_to_map_lookup by done.
      split; [intros [[= -> ->]|?]; done|by right].
  Qed.
  Lemma multiset_to_map_surj (f : gmap K V) : ∃ m, unique_keys m ∧ multiset_to_map m = f.
  Proof.
    induction f as [|k v f Hk (m&Hu&Hm)] using map_ind.
    - exists ∅. split; [split; [intros e He; multiset_solver|intros p1 p2 He; multiset_solver]|apply multiset_to_map_empty].
    - exists (m ⊎ {[+ (k, v) +]}). rewrite <- Hm in Hk. destruct (multiset_to_map_insert m k v Hu Hk) as [Hu' He].
      split; [done|]. by rewrite He, Hm.
  Qed.
  Lemma multiset_to_map_remove m k v :
    unique_keys m → (k, v) ∈ m →
    unique_keys (m ∖ {[+ (k, v) +]}) ∧
    multiset_to_map (m ∖ {[+ (k, v) +]}) = delete k (multiset_to_map m).
  Proof.
    intros Hu Hin. assert (m = {[+ (k, v) +]} ⊎ m ∖ {[+ (k, v) +]}) as Heq by multiset_solver.
    pose proof Hu as Hu'. rewrite Heq in Hu'. apply unique_keys_cons in Hu' as [Hu' Hp].
    split; [exact Hu'|].
    assert (multiset_to_map (m ∖ {[+ (k, v) +]}) !! k = None) as Hn.
    { apply not_elem_of_dom. intros [v' Hv']%multiset_to_map_dom. by apply Hp in Hv'. }
    destruct (multiset_to_map_insert _ k v Hu' Hn) as [_ Hi].
    rewrite (comm_L (⊎)), <- Heq in Hi. rewrite Hi. by rewrite delete_insert.
  Qed.
End multiset_map.

(** ** The disk *)
Section disk.
  Context `{Geometry}.
  Import AsyncDisk.

  Lemma disk_step_inv s s' e :
    disk_step s s' e →
    match e with
    | EOps reqs resps =>
        dom reqs ## dom (requests s) ∧ dom reqs ## dom (responses s) ∧ resps ⊆ responses s ∧
        s' = mkState (reqs ∪ requests s) (responses s ∖ resps) (content s)
    | ERead id a d =>
        requests s !! id = Some (ReadReq a) ∧ (∀ d', content s !! a = Some d' → d = d') ∧
        s' = mkState (delete id (requests s)) (<[id := ReadResp d]> (responses s)) (content s)
    | EWrite id a d =>
        requests s !! id = Some (WriteReq a d) ∧
        s' = mkState (delete id (requests s)) (<[id := WriteResp]> (responses s)) (<[a := d]> (content s))
    | ECrash => s' = mkState ∅ ∅ (content s)
    end.
  Proof.
    intros [Hn He]. destruct e as [reqs resps|id a d|id a d|]; simpl in Hn.
    - destruct Hn as [(?&?&[= <- <-]&?&?&?&->)|[[? [[=] _]]|[[? [[=] _]]|[[=] _]]]]. done.
    - destruct He as (Hq&Hq'&Hr).
      destruct Hn as [(?&?&[=]&_)|[[i [_ (a'&d'&Hi&Hw&Hd&->)]]|[[i [_ (a'&d'&Hi&Hw&->)]]|[[=] _]]]];
        simpl in *.
      + destruct (decide (i = id)) as [->|Hne]; [|rewrite lookup_delete_ne in Hq' by done; congruence].
        rewrite lookup_insert in Hr. rewrite Hq in Hi. injection Hi as ->. injection Hr as ->. done.
      + destruct (decide (i = id)) as [->|Hne]; [|rewrite lookup_delete_ne in Hq' by done; congruence].
        congruence.
    - destruct He as (Hq&Hq').
      destruct Hn as [(?&?&[=]&_)|[[i [_ (a'&d'&Hi&Hw&Hd&->)]]|[[i [_ (a'&d'&Hi&Hw&->)]]|[[=] _]]]];
        simpl in *.
      + destruct (decide (i = id)) as [->|Hne]; [|rewrite lookup_delete_ne in Hq' by done; congruence].
        congruence.
      + destruct (decide (i = id)) as [->|Hne]; [|rewrite lookup_delete_ne in Hq' by done; congruence].
        rewrite Hq in Hi. injection Hi as -> ->. done.
    - destruct Hn as [(?&?&[=]&_)|[[? [[=] _]]|[[? [[=] _]]|[_ ->]]]]. done.
  Qed.
  (** Nothing is hidden by the event view. *)
  Lemma disk_step_complete s s' l :
    next s s' l → ∃ e, disk_step s s' e ∧ disk_label e = l.
  Proof.
    intros Hn. pose proof Hn as Hn0.
    destruct Hn as [(reqs&resps&->&?)|[[id [-> (a&d&Hq&Hw&Hd&->)]]|[[id [-> (a&d&Hq&Hw&->)]]|[-> ->]]]].
    - exists (EOps reqs resps). done.
    - exists (ERead id a d). split; [split|]; [done| |done].
      cbn [requests responses]. by rewrite lookup_delete, lookup_insert.
    - exists (EWrite id a d). split; [split|]; [done| |done].
      cbn [requests responses]. by rewrite lookup_delete.
    - exists ECrash. done.
  Qed.
  Lemma disk_run_events s0 ls s :
    run next s0 ls s ↔ ∃ tr, run disk_step s0 tr s ∧ disk_label <$> tr = ls.
  Proof.
    split.
    - induction 1 as [s|s ls s' l s'' _ (tr&Hr&<-) Hn].
      + exists []. split; [constructor|done].
      + apply disk_step_complete in Hn as (e&He&<-). exists (tr ++ [e]).
        split; [by eapply run_snoc|]. by rewrite fmap_app.
    - intros (tr&Hr&<-). induction Hr as [s|s tr s' e s'' _ IH [Hn _]]; [constructor|].
      rewrite fmap_app. by eapply run_snoc.
  Qed.

  Definition calm (e : disk_event) (id : ID) : Prop := e ≠ ECrash ∧ ∀ q, ¬ submits e id q.
  Definition right_data (c0 : gmap Address RawPage) (tr : list disk_event) (m : nat)
      (q : DiskRequest) (r : DiskResponse) : Prop :=
    ∀ a d, q = ReadReq a →
      match last_page (take m tr) a with Some x => Some x | None => c0 !! a end = Some d →
      r = ReadResp d.
  Definition dinv (c0 : gmap Address RawPage) (tr : list disk_event) (s : State) : Prop :=
    (∀ a, content s !! a = match last_page tr a with Some d => Some d | None => c0 !! a end) ∧
    (∀ id q, requests s !! id = Some q → ∃ i e, tr !! i = Some e ∧ submits e id q ∧
       (∀ r, ¬ answers e id r) ∧
       ∀ m e', i < m → tr !! m = Some e' → calm e' id ∧ (∀ r, ¬ answers e' id r) ∧
         ∀ q' r', ¬ performs e' id q' r') ∧
    (∀ id r, responses s !! id = Some r → ∃ i m q e e1, i < m ∧ tr !! i = Some e ∧ submits e id q ∧
       tr !! m = Some e1 ∧ performs e1 id q r ∧ right_data c0 tr m q r ∧ (∀ r, ¬ answers e id r) ∧
       ∀ n e', i < n → tr !! n = Some e' → calm e' id ∧ (∀ r, ¬ answers e' id r)) ∧
    (∀ id, requests s !! id = None ∨ responses s !! id = None).

  Lemma last_page_snoc tr e a :
    last_page (tr ++ [e]) a =
      match e with EWrite _ a' d => if decide (a' = a) then Some d else last_page tr a
                 | _ => last_page tr a end.
  Proof. unfold last_page. by rewrite fold_left_app. Qed.
  Lemma right_data_snoc c0 tr e m q r :
    m ≤ length tr → right_data c0 tr m q r → right_data c0 (tr ++ [e]) m q r.
  Proof. intros Hm Hr a d. rewrite take_app_le by done. apply Hr. Qed.

  Lemma dinv_init c0 : dinv c0 [] (mkState ∅ ∅ c0).
  Proof.
    split_and!.
    - intros a. done.
    - intros id q. cbn. rewrite lookup_empty. done.
    - intros id r. cbn. rewrite lookup_empty. done.
    - intros id. left. cbn. by rewrite lookup_empty.
  Qed.
  Lemma dinv_step c0 tr s s' e : dinv c0 tr s → disk_step s s' e → dinv c0 (tr ++ [e]) s'.
  Proof.
    intros (Hc&Hq&Hr&Hd) Hs%disk_step_inv. destruct e as [reqs resps|id0 a0 d0|id0 a0 d0|].
    - destruct Hs as (Hd1&Hd2&Hsub&->). split_and!; cbn [content requests responses].
      + intros a. rewrite last_page_snoc. apply Hc.
      + intros id q. rewrite lookup_union_Some_raw. intros [Hn|[Hn Ho]].
        * exists (length tr), (EOps reqs resps). rewrite lookup_app_r, Nat.sub_diag by lia.
          split_and!; [done|by exists reqs, resps| |].
          -- intros r (?&?&[= <- <-]&Ha). eapply lookup_weaken in Ha; [|exact Hsub].
             apply (Hd2 id); apply elem_of_dom; eauto.
          -- intros m e' Hm Hl%lookup_lt_Some. rewrite app_length in Hl; simpl in Hl. lia.
        * destruct (Hq id q Ho) as (i&e&Hi&Hsb&Hna&Hrest). exists i, e.
          split_and!; [by apply lookup_app_l_Some|done|done|].
          intros m e' Hm [[_ Hl]|[-> <-]]%lookup_snoc_Some; [by eapply Hrest|]. split_and!.
          -- split; [done|]. intros q' (?&?&[= <- <-]&Hx). congruence.
          -- intros r (?&?&[= <- <-]&Ha). eapply lookup_weaken in Ha; [|exact Hsub].
             destruct (Hd id); congruence.
          -- intros q' r' Hp. destruct q'; [destruct Hp as (?&?&?); done|destruct Hp; done].
      + intros id r Hl. apply lookup_difference_Some in Hl as [Hl Hn].
        destruct (Hr id r Hl) as (i&m&q&e&e1&Him&Hi&Hsb&Hm&Hp&Hrd&Hna&Hrest).
        exists i, m, q, e, e1. split_and!; [done|by apply lookup_app_l_Some|done|by apply lookup_app_l_Some|done| |done|].
        * apply right_data_snoc; [|done]. apply lookup_lt_Some in Hm. lia.
        * intros n e' Hin [[_ He]|[-> <-]]%lookup_snoc_Some; [by eapply Hrest|]. split; [split; [done|]|].
          -- intros q' (?&?&[= <- <-]&Hx). apply (Hd2 id); apply elem_of_dom; eauto.
          -- intros r' (?&?&[= <- <-]&Ha). congruence.
      + intros id. destruct (responses s !! id) eqn:E.
        * destruct (reqs !! id) eqn:E1.
          { exfalso. apply (Hd2 id); apply elem_of_dom; eauto. }
          destruct (Hd id) as [Hx|Hx]; [|congruence]. left. rewrite lookup_union_None. done.
        * right. apply lookup_difference_None. by left.
    - destruct Hs as (Hreq&Hdat&->). split_and!; cbn [content requests responses].
      + intros a. rewrite last_page_snoc. apply Hc.
      + intros id q [Hne Hl]%lookup_delete_Some.
        destruct (Hq id q Hl) as (i&e&Hi&Hsb&Hna&Hrest). exists i, e.
        split_and!; [by apply lookup_app_l_Some|done|done|].
        intros m e' Hm [[_ He]|[-> <-]]%lookup_snoc_Some; [by eapply Hrest|]. split_and!.
        * split; [done|]. intros ? (?&?&[=]&_).
        * intros ? (?&?&[=]&_).
        * intros [a'|a' d'] r'; simpl; [intros (?&[=]&_)|intros [[=] _]]. congruence.
      + intros id r. destruct (decide (id = id0)) as [->|Hne].
        * rewrite lookup_insert. intros [= <-].
          destruct (Hq id0 _ Hreq) as (i&e&Hi&Hsb&Hna&Hrest).
          exists i, (length tr), (ReadReq a0), e, (ERead id0 a0 d0).
          split_and!; [by apply lookup_lt_Some in Hi|by apply lookup_app_l_Some|done| | | |done|].
          -- by rewrite lookup_app_r, Nat.sub_diag by lia.
          -- simpl. eauto.
          -- intros a d [= ->] Hlast. rewrite take_app in Hlast. rewrite <- Hc in Hlast.
             by rewrite (Hdat d Hlast).
          -- intros n e' Hin [[_ He]|[-> <-]]%lookup_snoc_Some.
             ++ destruct (Hrest n e' Hin He) as (?&?&?). done.
             ++ split; [split; [done|]|]; [intros ? (?&?&[=]&_)|intros ? (?&?&[=]&_)].
        * rewrite lookup_insert_ne by done. intros Hl.
          destruct (Hr id r Hl) as (i&m&q&e&e1&Him&Hi&Hsb&Hm&Hp&Hrd&Hna&Hrest).
          exists i, m, q, e, e1. split_and!; [done|by apply lookup_app_l_Some|done|by apply lookup_app_l_Some|done| |done|].
          -- apply right_data_snoc; [|done]. apply lookup_lt_Some in Hm. lia.
          -- intros n e' Hin [[_ He]|[-> <-]]%lookup_snoc_Some; [by eapply Hrest|].
             split; [split; [done|]|]; [intros ? (?&?&[=]&_)|intros ? (?&?&[=]&_)].
      + intros id. destruct (decide (id = id0)) as [->|Hne]; [left; apply lookup_delete|].
        rewrite lookup_delete_ne, lookup_insert_ne by done. apply Hd.
    - destruct Hs as (Hreq&->). split_and!; cbn [content requests responses].
      + intros a. rewrite last_page_snoc. case_decide as Ha.
        * subst a. apply lookup_insert.
        * rewrite lookup_insert_ne by done. apply Hc.
      + intros id q [Hne Hl]%lookup_delete_Some.
        destruct (Hq id q Hl) as (i&e&Hi&Hsb&Hna&Hrest). exists i, e.
        split_and!; [by apply lookup_app_l_Some|done|done|].
        intros m e' Hm [[_ He]|[-> <-]]%lookup_snoc_Some; [by eapply Hrest|]. split_and!.
        * split; [done|]. intros ? (?&?&[=]&_).
        * intros ? (?&?&[=]&_).
        * intros [a'|a' d'] r'; simpl; [intros (?&[=]&_)|intros [[=] _]]. congruence.
      + intros id r. destruct (decide (id = id0)) as [->|Hne].
        * rewrite lookup_insert. intros [= <-].
          destruct (Hq id0 _ Hreq) as (i&e&Hi&Hsb&Hna&Hrest).
          exists i, (length tr), (WriteReq a0 d0), e, (EWrite id0 a0 d0).
          split_and!; [by apply lookup_lt_Some in Hi|by apply lookup_app_l_Some|done| | | |done|].
          -- by rewrite lookup_app_r, Nat.sub_diag by lia.
          -- simpl. eauto.
          -- intros a d [=].
          -- intros n e' Hin [[_ He]|[-> <-]]%lookup_snoc_Some.
             ++ destruct (Hrest n e' Hin He) as (?&?&?). done.
             ++ split; [split; [done|]|]; [intros ? (?&?&[=]&_)|intros ? (?&?&[=]&_)].
        * rewrite lookup_insert_ne by done. intros Hl.
          destruct (Hr id r Hl) as (i&m&q&e&e1&Him&Hi&Hsb&Hm&Hp&Hrd&Hna&Hrest).
          exists i, m, q, e, e1. split_and!; [done|by apply lookup_app_l_Some|done|by apply lookup_app_l_Some|done| |done|].
          -- apply right_data_snoc; [|done]. apply lookup_lt_Some in Hm. lia.
          -- intros n e' Hin [[_ He]|[-> <-]]%lookup_snoc_Some; [by eapply Hrest|].
             split; [split; [done|]|]; [intros ? (?&?&[=]&_)|intros ? (?&?&[=]&_)].
      + intros id. destruct (decide (id = id0)) as [->|Hne]; [left; apply lookup_delete|].
        rewrite lookup_delete_ne, lookup_insert_ne by done. apply Hd.
    - subst s'. split_and!; cbn [content requests responses].
      + intros a. rewrite last_page_snoc. apply Hc.
      + intros id q. by rewrite lookup_empty.
      + intros id r. by rewrite lookup_empty.
      + intros id. left. apply lookup_empty.
  Qed.
  Lemma dinv_run c0 tr s : run disk_step (mkState ∅ ∅ c0) tr s → dinv c0 tr s.
  Proof.
    intros Hr. remember (mkState ∅ ∅ c0) as s0 eqn:E0. revert E0.
    induction Hr as [s|s ls s' l s'' _ IH Hn]; intros ->; [apply dinv_init|].
    eapply dinv_step; eauto.
  Qed.
  (** The state before the [n]-th event of a run. *)
  Lemma run_at {S L} (nx : S → S → L → Prop) s0 (tr : list L) s n e :
    run nx s0 tr s → tr !! n = Some e →
    ∃ s1 s2, run nx s0 (take n tr) s1 ∧ nx s1 s2 e.
  Proof.
    intros Hr. revert n e. induction Hr as [s|s ls s' l s'' Hr IH Hn]; intros n e Hl.
    - done.
    - apply lookup_snoc_Some in Hl as [[Hlt Hl]|[-> <-]].
      + destruct (IH n e Hl) as (s1&s2&Hr1&Hn1). exists s1, s2.
        rewrite take_app_le by lia. done.
      + exists s', s''. rewrite take_app. done.
  Qed.

  Lemma disk_content c0 tr s a :
    run disk_step (mkState ∅ ∅ c0) tr s →
    content s !! a = match last_page tr a with Some d => Some d | None => c0 !! a end.
  Proof. intros Hr%dinv_run. apply Hr. Qed.

  Lemma take_lookup_lt {A} (l : list A) n m x : take n l !! m = Some x → m < n ∧ l !! m = Some x.
  Proof.
    intros Hl. assert (m < n) as Hm.
    { apply lookup_lt_Some in Hl. rewrite take_length in Hl. lia. }
    split; [done|]. by rewrite lookup_take in Hl.
  Qed.

  Lemma disk_answer c0 tr s n e id r :
    run disk_step (mkState ∅ ∅ c0) tr s → tr !! n = Some e → answers e id r →
    ∃ i m q e1 e2, i < m < n ∧ tr !! i = Some e1 ∧ submits e1 id q ∧
      tr !! m = Some e2 ∧ performs e2 id q r ∧ undisturbed tr id i n ∧
      ∀ a d, q = ReadReq a →
        match last_page (take m tr) a with Some x => Some x | None => c0 !! a end = Some d →
        r = ReadResp d.
  Proof.
    intros Hr Hn (reqs&resps&->&Ha). destruct (run_at _ _ _ _ _ _ Hr Hn) as (s1&s2&Hr1&Hs).
    apply dinv_run in Hr1 as (_&_&Hresp&_). apply disk_step_inv in Hs as (_&_&Hsub&_).
    eapply lookup_weaken in Ha; [|exact Hsub].
    destruct (Hresp id r Ha) as (i&m&q&e1&e2&Him&Hi&Hsb&Hm&Hp&Hrd&Hna&Hrest).
    apply take_lookup_lt in Hi as [Hi1 Hi]. apply take_lookup_lt in Hm as [Hm1 Hm].
    exists i, m, q, e1, e2. split_and!; try done.
    - intros n' e' Hn' He'. destruct (Hrest n' e') as [Hcalm _]; [lia| |done].
      rewrite lookup_take by lia. done.
    - intros a d Hq Hl. apply (Hrd a d Hq). rewrite take_take. by rewrite Nat.min_l by lia.
  Qed.
  Lemma disk_perform c0 tr s n e id q r :
    run disk_step (mkState ∅ ∅ c0) tr s → tr !! n = Some e → performs e id q r →
    ∃ i e1, i < n ∧ tr !! i = Some e1 ∧ submits e1 id q ∧ undisturbed tr id i n ∧
      ∀ m e' q' r', i < m < n → tr !! m = Some e' → ¬ performs e' id q' r'.
  Proof.
    intros Hr Hn Hp. destruct (run_at _ _ _ _ _ _ Hr Hn) as (s1&s2&Hr1&Hs).
    apply dinv_run in Hr1 as (_&Hreq&_&_). apply disk_step_inv in Hs.
    assert (requests s1 !! id = Some q) as Hq.
    { destruct q as [a|a d]; simpl in Hp.
      - destruct Hp as (d&->&_). apply Hs.
      - destruct Hp as [-> _]. apply Hs. }
    destruct (Hreq id q Hq) as (i&e1&Hi&Hsb&_&Hrest). apply take_lookup_lt in Hi as [Hi1 Hi].
    exists i, e1. split_and!; try done.
    - intros n' e' Hn' He'. destruct (Hrest n' e') as [Hcalm _]; [lia| |done].
      rewrite lookup_take by lia. done.
    - intros m e' q' r' Hm He'. apply (Hrest m e'); [lia|]. rewrite lookup_take by lia. done.
  Qed.
  Lemma disk_answer_once c0 tr s n n' e e' id r r' :
    run disk_step (mkState ∅ ∅ c0) tr s → n < n' →
    tr !! n = Some e → answers e id r → tr !! n' = Some e' → answers e' id r' →
    ∃ i e1 q, n < i < n' ∧ tr !! i = Some e1 ∧ submits e1 id q.
  Proof.
    intros Hr Hlt Hn Ha Hn' (reqs&resps&->&Ha').
    destruct (run_at _ _ _ _ _ _ Hr Hn') as (s1&s2&Hr1&Hs).
    apply dinv_run in Hr1 as (_&_&Hresp&_). apply disk_step_inv in Hs as (_&_&Hsub&_).
    eapply lookup_weaken in Ha'; [|exact Hsub].
    destruct (Hresp id r' Ha') as (i&m&q&e1&e2&Him&Hi&Hsb&Hm&Hp&_&Hna&Hrest).
    apply take_lookup_lt in Hi as [Hi1 Hi].
    exists i, e1, q. split_and!; try done.
    destruct (decide (i = n)) as [->|]; [|destruct (decide (i < n)); [|lia]].
    - rewrite Hi in Hn. injection Hn as ->. by apply Hna in Ha.
    - destruct (Hrest n e) as [_ Hx]; [lia|rewrite lookup_take by lia; done|]. by apply Hx in Ha.
  Qed.
  Lemma disk_kept s0 tr s i e id q :
    run disk_step s0 tr s → tr !! i = Some e → submits e id q →
    (∀ m e', i < m → tr !! m = Some e' → e' ≠ ECrash ∧ ∀ q' r', ¬ performs e' id q' r') →
    requests s !! id = Some q.
  Proof.
    intros Hr. induction Hr as [s|s ls s' l s'' Hr IH Hn]; intros Hi Hs Hno; [done|].
    apply disk_step_inv in Hn. apply lookup_snoc_Some in Hi as [[Hlt Hi]|[-> ->]].
    - assert (requests s' !! id = Some q) as Hq.
      { apply IH; [done|done|]. intros m e' Hm He'. apply (Hno m); [done|]. apply lookup_snoc_Some. left.
        split; [by apply lookup_lt_Some in He'|done]. }
      destruct (Hno (length ls) l) as [Hnc Hnp]; [done|by apply lookup_snoc_Some; right|].
      destruct l as [reqs resps|id' a d|id' a d|]; [| | |done].
      + destruct Hn as (Hd1&_&_&->). cbn [requests]. rewrite lookup_union_r; [done|].
        apply not_elem_of_dom. intros Hx. apply (Hd1 id); [done|]. apply elem_of_dom. by eexists.
      + destruct Hn as (Hrq&Hrest). destruct (decide (id' = id)) as [->|Hne].
        * exfalso. apply (Hnp (ReadReq a) (ReadResp d)). by exists d.
        * destruct Hrest as (_&->). cbn [requests]. by rewrite lookup_delete_ne.
      + destruct Hn as (Hrq&Hrest). destruct (decide (id' = id)) as [->|Hne].
        * exfalso. by apply (Hnp (WriteReq a d) WriteResp).
        * rewrite Hrest. cbn [requests]. by rewrite lookup_delete_ne.
    - destruct Hs as (reqs&resps&->&Hq). destruct Hn as (_&_&_&->). cbn [requests].
      by apply lookup_union_Some_l.
  Qed.
  Lemma disk_crash s s' : disk_step s s' ECrash → s' = mkState ∅ ∅ (content s).
  Proof. apply disk_step_inv. Qed.
End disk.
