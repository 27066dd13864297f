(** * Unit propagation preserves the invariant. *)
From Verif Require Export SatInv.

Lemma res_bind_ok {A B} (a : A) (f : A → res B) : (Ok a ≫= f) = f a.
Proof. done. Qed.

Lemma opp_eq x y : - x = y ↔ x = - y.
Proof. lia. Qed.

Section prop.
  Context (F : list (list Z)) (Extra : gset Z) (D : list Z → Z → Prop).
  Notation HeapOk := (HeapOk F Extra).
  Notation core := (core F Extra D).
  Notation Core := (Core F Extra D).
  Notation Inv := (Inv F Extra D).
  Notation AsgOk := (AsgOk F Extra).
  Notation univ := (univ F Extra).

  Lemma core_consistent s l : core s → l ∈ s_trail s → - l ∉ s_trail s.
  Proof. intros C. eapply tr_consistent, (co_tr _ _ _ _ _ _ _ _ _ _ C). Qed.

  (** ** find_watch / rewatch *)
  Lemma find_watch_spec a neg r :
    (∃ r1 w r2, r = r1 ++ w :: r2 ∧ aset_value a w ≠ Some false ∧
                find_watch a neg r = Some (w, r1 ++ neg :: r2)) ∨
    (find_watch a neg r = None ∧ ∀ w, w ∈ r → aset_value a w = Some false).
  Proof.
    induction r as [|o r IH]; cbn.
    - right. split; [done|]. intros w Hw. by apply elem_of_nil in Hw.
    - case_decide as Ho.
      + destruct IH as [(r1 & w & r2 & -> & Hw & ->)|[-> Hall]].
        * left. exists (o :: r1), w, r2. done.
        * right. split; [done|]. intros w [->|Hw]%elem_of_cons; [done|]. by apply Hall.
      + left. by exists [], o, r.
  Qed.

  Definition ordered (lits : list Z) (o n : Z) (r : list Z) : Prop :=
    lits = o :: n :: r ∨ lits = n :: o :: r.

  Lemma rewatch_spec a lits lit : watches_lit lits lit →
    ∃ o r, ordered lits o (- lit) r ∧
      ((rewatch a lits lit = Ok (o :: - lit :: r, None) ∧ aset_value a o = Some true) ∨
       (∃ r1 w r2, r = r1 ++ w :: r2 ∧ aset_value a w ≠ Some false ∧
          rewatch a lits lit = Ok (o :: w :: r1 ++ - lit :: r2, None)) ∨
       (rewatch a lits lit = Ok (o :: - lit :: r, Some o) ∧ aset_value a o ≠ Some true ∧
          ∀ w, w ∈ r → aset_value a w = Some false)).
  Proof.
    intros (x & y & r & -> & Hxy).
    assert (∃ o, (if decide (x = - lit) then (y, - lit) else (x, y)) = (o, - lit) ∧
                 ordered (x :: y :: r) o (- lit) r) as (o & Eo & Hord).
    { case_decide as E.
      - exists y. split; [done|]. right. by rewrite E.
      - assert (y = - lit) as -> by lia. exists x. split; [done|]. by left. }
    exists o, r. split; [done|]. unfold rewatch.
    rewrite decide_True by lia. rewrite Eo. clear Eo.
    case_decide as Ho; [left; done|]. right.
    destruct (find_watch_spec a (- lit) r) as [(r1 & w & r2 & -> & Hw & ->)|[-> Hall]].
    - left. eauto 10.
    - right. done.
  Qed.

  (** ** enqueue *)
  Lemma enqueue_spec s lit c :
    AsgOk (s_asg s) (s_trail s) → lit ∉ s_trail s → - lit ∉ s_trail s → lit ≠ 0 →
    univ (Z.abs lit) →
    ∃ a', enqueue lit c s = Ok (true,
      Solver (s_heap s) (s_clauses s) (s_watches s) a' (s_ctrails s)
            (<[Z.abs lit := decision_level s]> (s_levels s)) (s_queue s ++ [lit])
            (lit :: s_trail s) (s_lims s) (<[Z.abs lit := c]> (s_reasons s)) (s_status s)) ∧
      AsgOk a' (lit :: s_trail s) ∧ a_seen a' = {[Z.abs lit]} ∪ a_seen (s_asg s).
  Proof.
    intros A H1 H2 Hnz Hu. unfold enqueue.
    assert (aset_value (s_asg s) lit = None) as -> by by apply (asg_none _ _ _ _ _ A).
    destruct (aset_set_spec (s_asg s) (Z.abs lit) (Some (0 <? lit)) (ao_wf _ _ _ _ A))
      as (a' & -> & W & Hd & Hs & _); [lia|].
    rewrite (Z.abs_eq (Z.abs lit)) in Hs by lia.
    exists a'. split; [done|]. split; [|done]. split; [done| |].
    - intros l. unfold aset_value. rewrite Hd, elem_of_cons, <-(ao_val _ _ _ _ A).
      destruct (decide (0 < lit)).
      + rewrite (Z.abs_eq lit) by lia. destruct (Z.ltb_spec 0 lit); [|lia].
        destruct (decide (l = lit)) as [->|]; [naive_solver|].
        destruct (decide (l = - lit)) as [->|]; [|naive_solver].
        cbn. rewrite (ao_val _ _ _ _ A). naive_solver.
      + rewrite (Z.abs_neq lit) by lia. destruct (Z.ltb_spec 0 lit); [lia|].
        destruct (decide (l = - lit)) as [->|].
        * rewrite (ao_val _ _ _ _ A). split; [done|]. intros [?|?]; [lia|done].
        * destruct (decide (l = - - lit)) as [->|].
          -- rewrite Z.opp_involutive. cbn. naive_solver.
          -- split; [by right|]. intros [->|?]; [lia|done].
    - intros v. rewrite Hs. intros [->%elem_of_singleton|?]%elem_of_union; [done|].
      by apply (ao_seen _ _ _ _ A).
  Qed.

  Lemma abs_fresh (t : list Z) lit : lit ∉ t → - lit ∉ t → Z.abs lit ∉ Z.abs <$> t.
  Proof.
    intros H1 H2 (x & E & Hx)%elem_of_list_fmap.
    assert (x = lit ∨ x = - lit) as [->| ->] by lia; done.
  Qed.
  Lemma abs_ne_in (t : list Z) lit x : lit ∉ t → - lit ∉ t → x ∈ t → Z.abs x ≠ Z.abs lit.
  Proof.
    intros H1 H2 Hx E. assert (x = lit ∨ x = - lit) as [->| ->] by lia; done.
  Qed.

  Lemma lvl_insert lv v n : lvl (<[v := n]> lv) v = n.
  Proof. unfold lvl. by rewrite lookup_insert. Qed.
  Lemma lvl_insert_ne lv v w n : v ≠ w → lvl (<[v := n]> lv) w = lvl lv w.
  Proof. intros. unfold lvl. by rewrite lookup_insert_ne. Qed.

  (** Core is preserved when a literal is pushed with a proper reason. *)
  Lemma core_push h cls a lv tr lims rs lit i a' :
    Core h cls a lv tr lims rs → lit ∉ tr → - lit ∉ tr → lit ≠ 0 →
    i ≠ 0%nat → (i < length h)%nat → lit ∈ hl h i →
    (∀ x, x ∈ hl h i → x ≠ lit → - x ∈ tr) →
    AsgOk a' (lit :: tr) →
    Core h cls a' (<[Z.abs lit := Z.of_nat (length lims)]> lv) (lit :: tr) lims
         (<[Z.abs lit := i]> rs).
  Proof.
    intros [Hh Hc Ht Ha] H1 H2 Hnz Hi Hil Hin Hrest Ha'. split; try done.
    - destruct Hc as [? ? Hu]. split; try done. intros j l Hj E. destruct (Hu j l Hj E) as [Hl Hlv].
      split; [by right|]. rewrite lvl_insert_ne; [done|]. intros E'.
      by eapply (abs_ne_in tr lit l).
    - apply (tr_prop _ _ _ _ _ _ _ i); try done.
      + eapply tr_ext; try done. intros l Hl.
        assert (Z.abs l ≠ Z.abs lit) by by eapply (abs_ne_in tr lit l).
        rewrite lvl_insert_ne, lookup_insert_ne by done. done.
      + by apply abs_fresh.
      + apply lookup_insert.
      + by rewrite lvl_insert.
  Qed.

  (** ** Changing the order of the literals of one clause *)
  Lemma hl_alter h i f j : (i < length h)%nat →
    hl (alter f i h) j = if decide (j = i) then match h !! i with Some c => c_lits (f c) | None => [] end
                         else hl h j.
  Proof.
    intros Hi. unfold hl. case_decide as E.
    - subst. rewrite list_lookup_alter. destruct (h !! i); done.
    - rewrite list_lookup_alter_ne by done. done.
  Qed.

  Definition relit (i : nat) (lits : list Z) (h : list clause) : list clause :=
    alter (λ c, Clause lits (c_learned c) (c_rule c)) i h.
  Lemma hl_relit h i lits j : (i < length h)%nat →
    hl (relit i lits h) j = if decide (j = i) then lits else hl h j.
  Proof.
    intros Hi. unfold relit. rewrite hl_alter by done. case_decide; [|done].
    destruct (lookup_lt_is_Some_2 h i Hi) as [c ->]. done.
  Qed.
  Lemma hl_relit' h i lits j : (i < length h)%nat →
    hl (alter (λ c, Clause lits (c_learned c) (c_rule c)) i h) j = if decide (j = i) then lits else hl h j.
  Proof. apply hl_relit. Qed.
  Lemma relit_length i lits h : length (relit i lits h) = length h.
  Proof. apply alter_length. Qed.
  Lemma relit_mem h i lits : (i < length h)%nat → lits ≡ₚ hl h i →
    ∀ j x, x ∈ hl (relit i lits h) j ↔ x ∈ hl h j.
  Proof.
    intros Hi Hp j x. rewrite hl_relit by done. case_decide; [|done]. subst. by rewrite Hp.
  Qed.

  Lemma core_relit h cls a lv tr lims rs i lits :
    Core h cls a lv tr lims rs → (i < length h)%nat → lits ≡ₚ hl h i →
    Core (relit i lits h) cls a lv tr lims rs.
  Proof.
    intros [[Hz Hn Hnd Hv He] [Hr Hne Hu] Ht Ha] Hi Hp.
    pose proof (relit_mem h i lits Hi Hp) as Hmem.
    split; [split|split| |done]; rewrite ?relit_length; try done.
    - rewrite hl_relit by done. case_decide; [|done]. subst. rewrite Hz in Hp.
      by apply Permutation_nil_r in Hp.
    - intros j. rewrite hl_relit by done. case_decide; [|done]. rewrite Hp. done.
    - intros j x Hx%Hmem. by eapply Hv.
    - intros j ?? Hjn. intros f Hf. assert (Hjn' : hl h j ≠ []).
      { destruct (hl (relit i lits h) j) as [|z zs] eqn:Ej; [done|].
        assert (z ∈ hl h j) as Hz' by (apply Hmem; rewrite Ej; left). intros E'. rewrite E' in Hz'.
        by apply elem_of_nil in Hz'. }
      destruct (He j ltac:(done) ltac:(done) Hjn' f Hf) as (l & Hl & ?).
      exists l. split; [by apply Hmem|done].
    - intros j Hj E. apply (Hne j Hj). rewrite hl_relit in E by done. case_decide; [|done].
      subst. by apply Permutation_nil_l in Hp.
    - intros j l Hj E. apply (Hu j l Hj). rewrite hl_relit in E by done. case_decide; [|done].
      subst. symmetry. by apply Permutation_singleton_l.
    - eapply (tr_ext _ h); [done| |by rewrite relit_length|done]. intros. apply Hmem.
  Qed.

  (** ** The relation between the states before and after *)
  Definition meta (h : list clause) (i : nat) : option (bool * option rule) :=
    (λ c, (c_learned c, c_rule c)) <$> h !! i.
  Record Fr (s s' : solver) : Prop := {
    fr_cls : s_clauses s' = s_clauses s;
    fr_lims : s_lims s' = s_lims s;
    fr_ctr : s_ctrails s' = s_ctrails s;
    fr_len : length (s_heap s') = length (s_heap s);
    fr_mem : ∀ i x, x ∈ hl (s_heap s') i ↔ x ∈ hl (s_heap s) i;
    fr_meta : ∀ i, meta (s_heap s') i = meta (s_heap s) i;
    fr_tr : ∃ t, s_trail s' = t ++ s_trail s;
    fr_seen : a_seen (s_asg s) ⊆ a_seen (s_asg s');
    fr_rs : ∀ v i, s_reasons s' !! v = Some i → s_reasons s !! v = Some i ∨ i ∈ s_clauses s }.
  Lemma fr_refl s : Fr s s.
  Proof. split; try done; [by exists []|by left]. Qed.
  Lemma fr_trans s1 s2 s3 : Fr s1 s2 → Fr s2 s3 → Fr s1 s3.
  Proof.
    intros H H'. split.
    - by rewrite (fr_cls _ _ H'), (fr_cls _ _ H).
    - by rewrite (fr_lims _ _ H'), (fr_lims _ _ H).
    - by rewrite (fr_ctr _ _ H'), (fr_ctr _ _ H).
    - by rewrite (fr_len _ _ H'), (fr_len _ _ H).
    - intros i x. by rewrite (fr_mem _ _ H'), (fr_mem _ _ H).
    - intros i. by rewrite (fr_meta _ _ H'), (fr_meta _ _ H).
    - destruct (fr_tr _ _ H) as [t1 E1], (fr_tr _ _ H') as [t2 E2].
      exists (t2 ++ t1). rewrite E2, E1. by rewrite (assoc_L (++)).
    - etrans; [apply (fr_seen _ _ H)|apply (fr_seen _ _ H')].
    - intros v i Hi. apply (fr_rs _ _ H') in Hi as [Hi|Hi]; [by apply (fr_rs _ _ H) in Hi|].
      right. by rewrite <-(fr_cls _ _ H).
  Qed.

  Lemma meta_relit h i lits j : meta (relit i lits h) j = meta h j.
  Proof.
    unfold meta, relit. destruct (decide (j = i)) as [->|].
    - rewrite list_lookup_alter. destruct (h !! i); done.
    - by rewrite list_lookup_alter_ne by done.
  Qed.

  (** What holds when propagation stops on a conflict in clause [i]. *)
  Record Conf (i : nat) (s : solver) : Prop := {
    cf_core : core s;
    cf_wat : WatOk (s_heap s) (s_clauses s) (s_watches s) 0 [];
    cf_w5 : W5 (s_heap s) (s_clauses s) (s_levels s) (s_trail s)
               (λ _ w, lvl (s_levels s) (Z.abs w) = decision_level s);
    cf_queue : s_queue s = [];
    cf_in : i ∈ s_clauses s;
    cf_false : ∀ x, x ∈ hl (s_heap s) i → - x ∈ s_trail s;
    cf_dl : ∃ x, x ∈ hl (s_heap s) i ∧ lvl (s_levels s) (Z.abs x) = decision_level s }.

  Lemma ordered_perm lits o n r : ordered lits o n r → lits ≡ₚ o :: n :: r.
  Proof. intros [->| ->]; [done|]. constructor. Qed.
  Lemma ordered_watch lits o n r l : ordered lits o n r → watches_lit lits l ↔ l = - o ∨ l = - n.
  Proof.
    intros Ho. unfold watches_lit. split.
    - intros (x & y & r' & -> & Hl). destruct Ho as [E|E]; injection E as -> -> ->; tauto.
    - intros Hl. destruct Ho as [->| ->]; eexists _, _, _; (split; [done|]); tauto.
  Qed.
  Lemma cons2_watch x y (r : list Z) l : watches_lit (x :: y :: r) l ↔ l = - x ∨ l = - y.
  Proof. apply (ordered_watch _ _ _ r). by left. Qed.

  Lemma default_insert (w : gmap Z (list nat)) k v l :
    default [] (<[k := v]> w !! l) = if decide (l = k) then v else default [] (w !! l).
  Proof.
    case_decide; [subst; by rewrite lookup_insert|]. by rewrite lookup_insert_ne.
  Qed.

  (** The clause goes back to the watch list it came from. *)
  Lemma wat_back h cls w cur i rest o r :
    WatOk h cls w cur (i :: rest) → (i < length h)%nat → ordered (hl h i) o (- cur) r →
    WatOk (relit i (o :: - cur :: r) h) cls
          (<[- - cur := default [] (w !! (- - cur)) ++ [i]]> w) cur rest.
  Proof.
    intros [Wn Wi] Hi Ho. rewrite Z.opp_involutive.
    assert (E : ∀ l, ewatch (<[cur := default [] (w !! cur) ++ [i]]> w) cur rest l
                     = ewatch w cur (i :: rest) l).
    { intros l. unfold ewatch. rewrite default_insert. case_decide; [subst|done].
      by rewrite <-(assoc_L (++)). }
    split; intros l; rewrite E; [done|]. intros j. rewrite Wi. f_equiv.
    rewrite hl_relit by done. case_decide as Ej; [subst|done].
    rewrite cons2_watch. by rewrite (ordered_watch _ o (- cur) r).
  Qed.

  (** The clause moves to the watch list of another literal. *)
  Lemma wat_move h cls w cur i rest o v r r' :
    WatOk h cls w cur (i :: rest) → (i < length h)%nat → ordered (hl h i) o (- cur) r →
    i ∈ cls → NoDup (hl h i) → v ∈ r → 
    WatOk (relit i (o :: v :: r') h) cls
          (<[- v := default [] (w !! (- v)) ++ [i]]> w) cur rest.
  Proof.
    intros [Wn Wi] Hi Ho Hic Hnd Hv.
    assert (Hnd' : NoDup (o :: - cur :: r)) by by rewrite <-(ordered_perm _ _ _ _ Ho).
    apply NoDup_cons in Hnd' as [Hno [Hnc Hnr]%NoDup_cons].
    rewrite elem_of_cons in Hno.
    assert (Hvo : v ≠ o) by naive_solver. assert (Hvc : v ≠ - cur) by congruence.
    assert (Hoc : o ≠ - cur) by naive_solver.
    assert (Hvcur : - v ≠ cur) by lia.
    assert (Hni : i ∉ default [] (w !! (- v))).
    { intros Hin. assert (Hin' : i ∈ ewatch w cur (i :: rest) (- v)).
      { unfold ewatch. apply elem_of_app. by left. }
      apply Wi in Hin' as [_ Hw]. rewrite (ordered_watch _ o (- cur) r) in Hw by done. lia. }
    assert (Hnc2 : NoDup (default [] (w !! cur) ++ i :: rest)).
    { specialize (Wn cur). unfold ewatch in Wn. by rewrite decide_True in Wn. }
    split.
    - intros l. unfold ewatch. rewrite default_insert.
      destruct (decide (l = - v)) as [->|].
      + rewrite decide_False, app_nil_r by done. apply NoDup_app. split.
        * specialize (Wn (- v)). unfold ewatch in Wn. rewrite decide_False, app_nil_r in Wn by done. done.
        * split; [|by apply NoDup_singleton].
          intros x Hx ->%elem_of_list_singleton. done.
      + specialize (Wn l). unfold ewatch in Wn. case_decide; [subst|done].
        apply NoDup_app in Wn as (N1 & N2 & N3). apply NoDup_app. split; [done|]. split.
        * intros x Hx Hx'. apply (N2 x Hx). by right.
        * by apply NoDup_cons in N3 as [_ ?].
    - intros l j. rewrite hl_relit by done. specialize (Wi l j). unfold ewatch in *.
      rewrite default_insert. destruct (decide (j = i)) as [->|Hji].
      + rewrite cons2_watch. rewrite (ordered_watch _ o (- cur) r) in Wi by done.
        destruct (decide (l = - v)) as [->|Hlv].
        * rewrite !elem_of_app, elem_of_list_singleton. naive_solver.
        * destruct (decide (l = cur)) as [->|Hlc].
          -- split; [|intros [_ [?|?]]; lia]. intros Hin. exfalso.
             apply NoDup_app in Hnc2 as (_ & N2 & N3). apply NoDup_cons in N3 as [N3 _].
             apply elem_of_app in Hin as [Hin|Hin]; [|done]. apply (N2 i Hin). by left.
          -- rewrite Wi. split; [|naive_solver]. intros [? [?|?]]; [naive_solver|lia].
      + rewrite <-Wi. repeat case_decide; subst; rewrite ?elem_of_app, ?elem_of_cons, ?elem_of_nil; naive_solver.
  Qed.

  (** What the step does to the current clause. *)
  Lemma pw_facts cur i rest s :
    Inv cur (i :: rest) s → 
    i ∈ s_clauses s ∧ i ≠ 0%nat ∧ (i < length (s_heap s))%nat ∧ NoDup (hl (s_heap s) i) ∧
    watches_lit (hl (s_heap s) i) cur.
  Proof.
    intros [C W _ _].
    assert (Hin : i ∈ ewatch (s_watches s) cur (i :: rest) cur).
    { unfold ewatch. rewrite decide_True by done. apply elem_of_app. right. left. }
    apply (wa_iff _ _ _ _ _ W) in Hin as [Hc Hw].
    destruct (cl_range _ _ _ _ (co_cls _ _ _ _ _ _ _ _ _ _ C) i Hc).
    split_and!; try done. apply (h_nodup _ _ _ (co_heap _ _ _ _ _ _ _ _ _ _ C)).
  Qed.

  Lemma w5_old_o s cur i rest o r :
    Inv cur (i :: rest) s → cur ∈ s_trail s → ordered (hl (s_heap s) i) o (- cur) r →
    - o ∈ s_trail s → - o ∈ s_queue s.
  Proof.
    intros I Hcur Ho Hneg. destruct (pw_facts _ _ _ _ I) as (Hic & _ & _ & Hnd & _).
    pose proof (iv_w5 _ _ _ _ _ _ I) as HW.
    rewrite (ordered_perm _ _ _ _ Ho) in Hnd. apply NoDup_cons in Hnd as [Hn _].
    rewrite elem_of_cons in Hn.
    assert (Hx : ex_prop (s_queue s) cur (i :: rest) i o ∨
      (- cur ∈ s_trail s ∧ lvl (s_levels s) (Z.abs (- cur)) ≤ lvl (s_levels s) (Z.abs o))).
    { destruct Ho as [E|E]; eapply HW; try done; eauto. }
    destruct Hx as [[?|[E _]]|[Hc _]]; [done| |].
    - exfalso. apply Hn. left. lia.
    - exfalso. eapply core_consistent; [apply (iv_core _ _ _ _ _ _ I)| |done]. done.
  Qed.

  Lemma prop_watch_spec cur pend : ∀ s,
    Inv cur pend s → cur ∈ s_trail s → lvl (s_levels s) (Z.abs cur) = decision_level s →
    (∃ s', prop_watch cur pend s = Ok (None, s') ∧ Inv cur [] s' ∧ Fr s s' ∧
       (length (s_queue s') + length (s_trail s) = length (s_queue s) + length (s_trail s'))%nat) ∨
    (∃ i s', prop_watch cur pend s = Ok (Some i, s') ∧ Conf i s' ∧ Fr s s').
  Proof.
    induction pend as [|i rest IH]; intros s I Hcur Hlv.
    { left. exists s. split; [done|]. split; [done|]. split; [apply fr_refl|done]. }
    destruct (pw_facts _ _ _ _ I) as (Hic & Hi0 & Hi & Hnd & Hw).
    pose proof (iv_core _ _ _ _ _ _ I) as C.
    pose proof (co_asg _ _ _ _ _ _ _ _ _ _ C) as A.
    pose proof (co_tr _ _ _ _ _ _ _ _ _ _ C) as T.
    cbn [prop_watch]. change (lits_of s i) with (hl (s_heap s) i).
    destruct (rewatch_spec (s_asg s) (hl (s_heap s) i) cur Hw) as (o & r & Hord & Hcases).
    pose proof (ordered_perm _ _ _ _ Hord) as Hperm.
    assert (Hnd2 := Hnd). rewrite Hperm in Hnd2.
    apply NoDup_cons in Hnd2 as [Hno [Hnc Hnr]%NoDup_cons]. rewrite elem_of_cons in Hno.
    assert (Hoc : o ≠ - cur) by naive_solver.
    destruct Hcases as [[Ew Ho]|[(r1 & w & r2 & -> & Hwf & Ew)|(Ew & Ho & Hall)]];
      rewrite Ew; rewrite res_bind_ok; cbn [lookup list_lookup of_option]; rewrite res_bind_ok; cbn zeta.
    - (* satisfied clause *)
      set (s1 := push_watch _ _ _).
      assert (I1 : Inv cur rest s1).
      { split; cbn.
        - apply core_relit; done.
        - apply wat_back; [apply (iv_wat _ _ _ _ _ _ I)|done|done].
        - intros j x y r' u o' Hj E Huo Hu. rewrite hl_relit' in E by done.
          destruct (decide (j = i)) as [->|Hji].
          + injection E as <- <- <-. apply (ao_val _ _ _ _ A) in Ho. destruct Huo as [[-> ->]|[-> ->]].
            * exfalso. by eapply (core_consistent s o).
            * right. split; [done|]. rewrite Z.abs_opp, Hlv.
              pose proof (tr_level _ _ _ _ T Ho). unfold decision_level. cbn. lia.
          + destruct (iv_w5 _ _ _ _ _ _ I j x y r' u o') as [Hex|?]; try done; [|by right].
            left. destruct Hex as [?|[? [?|?]%elem_of_cons]]; [by left|done|by right].
        - apply (iv_queue _ _ _ _ _ _ I). }
      assert (F1 : Fr s s1).
      { split; cbn; try done.
        - apply relit_length.
        - by apply relit_mem.
        - intros. apply meta_relit.
        - by exists [].
        - by left. }
      destruct (IH s1 I1) as [(s' & -> & I' & F' & Hm)|(j & s' & -> & I' & F')]; try done.
      + left. exists s'. split; [done|]. split; [done|]. split; [by eapply fr_trans|done].
      + right. exists j, s'. split; [done|]. split; [done|]. by eapply fr_trans.
    - (* another literal to watch *)
      set (s1 := push_watch _ _ _).
      assert (Hperm' : o :: w :: r1 ++ - cur :: r2 ≡ₚ hl (s_heap s) i).
      { rewrite Hperm. constructor. rewrite <-!Permutation_middle. constructor. }
      assert (I1 : Inv cur rest s1).
      { split; cbn.
        - by apply core_relit.
        - eapply wat_move; [apply (iv_wat _ _ _ _ _ _ I)|done|done|done|done|].
          apply elem_of_app. right. left.
        - intros j x y r' u o' Hj E Huo Hu. rewrite hl_relit' in E by done.
          destruct (decide (j = i)) as [->|Hji].
          + injection E as <- <- <-. destruct Huo as [[-> ->]|[-> ->]].
            * left. left. by eapply w5_old_o.
            * exfalso. apply Hwf. by apply (asg_false _ _ _ _ _ A).
          + destruct (iv_w5 _ _ _ _ _ _ I j x y r' u o') as [Hex|?]; try done; [|by right].
            left. destruct Hex as [?|[? [?|?]%elem_of_cons]]; [by left|done|by right].
        - apply (iv_queue _ _ _ _ _ _ I). }
      assert (F1 : Fr s s1).
      { split; cbn; try done.
        - apply relit_length.
        - by apply relit_mem.
        - intros. apply meta_relit.
        - by exists [].
        - by left. }
      destruct (IH s1 I1) as [(s' & -> & I' & F' & Hm)|(j & s' & -> & I' & F')]; try done.
      + left. exists s'. split; [done|]. split; [done|]. split; [by eapply fr_trans|done].
      + right. exists j, s'. split; [done|]. split; [done|]. by eapply fr_trans.
    - (* unit or conflict *)
      set (s1 := push_watch _ _ _).
      assert (C1 : core s1) by by apply core_relit.
      assert (Wt1 : WatOk (s_heap s1) (s_clauses s1) (s_watches s1) cur rest).
      { apply wat_back; [apply (iv_wat _ _ _ _ _ _ I)|done|done]. }
      assert (F1 : Fr s s1).
      { split; cbn; try done.
        - apply relit_length.
        - by apply relit_mem.
        - intros. apply meta_relit.
        - by exists [].
        - by left. }
      assert (Hhl : hl (s_heap s1) i = o :: - cur :: r).
      { cbn. change (hl (relit i (o :: - cur :: r) (s_heap s)) i = o :: - cur :: r).
        rewrite hl_relit by done. by rewrite decide_True. }
      change (s_asg s1) with (s_asg s).
      destruct (decide (aset_value (s_asg s) o = Some false)) as [Hof|Hof].
      + (* conflict *)
        apply (asg_false _ _ _ _ _ A) in Hof.
        right. exists i. eexists. split; [done|].
        assert (Hoq : - o ∈ s_queue s) by by eapply w5_old_o.
        destruct (iv_queue _ _ _ _ _ _ I) as [_ HQ].
        pose proof (HQ _ Hoq) as [_ Hol]. rewrite Z.abs_opp in Hol.
        split.
        * split; cbn [s_heap s_clauses s_watches s_asg s_ctrails s_levels s_queue s_trail s_lims s_reasons set_queue set_watch]; try done.
          -- destruct Wt1 as [Wn Wi].
             assert (E : ∀ l, ewatch (<[cur := watch_list s1 cur ++ rev rest]> (s_watches s1)) 0 [] l
                              ≡ₚ ewatch (s_watches s1) cur rest l).
             { intros l. unfold ewatch. rewrite default_insert. case_decide; [subst|].
               - unfold watch_list.
                 replace (if decide _ then [] else []) with ([] : list nat) by (by destruct decide).
                 rewrite app_nil_r. by rewrite <-Permutation_rev.
               - by destruct decide. }
             split; intros l; [|intros j]; rewrite E; done.
          -- intros j x y r' u o' Hj E Huo Hu.
             destruct (decide (j = i)) as [->|Hji].
             ++ rewrite Hhl in E. injection E as <- <- <-. left.
                destruct Huo as [[-> ->]|[-> ->]]; [done|]. by rewrite Z.abs_opp.
             ++ assert (E' : hl (s_heap s) j = x :: y :: r').
                { change (hl (relit i (o :: - cur :: r) (s_heap s)) j = x :: y :: r') in E.
                  rewrite hl_relit in E by done. by rewrite decide_False in E. }
                destruct (iv_w5 _ _ _ _ _ _ I j x y r' u o') as [Hex|?]; try done; [|by right].
                left. destruct Hex as [Hq|[<- _]].
                ** apply HQ in Hq as [_ Hq]. by rewrite Z.abs_opp in Hq.
                ** by rewrite Z.abs_opp in Hlv.
          -- intros x Hx. rewrite Hhl in Hx. rewrite !elem_of_cons in Hx.
             destruct Hx as [->|[->|Hx]]; [done|by rewrite Z.opp_involutive|].
             apply (asg_false _ _ _ _ _ A). by apply Hall.
          -- exists o. split; [rewrite Hhl; left|done].
        * eapply fr_trans; [exact F1|]. split; cbn; try done; [by exists []|by left].
      + (* unit *)
        assert (Hon : aset_value (s_asg s) o = None) by (destruct (aset_value (s_asg s) o) as [[]|]; done).
        apply (asg_none _ _ _ _ _ A) in Hon as [Ho1 Ho2].
        destruct (h_var _ _ _ (co_heap _ _ _ _ _ _ _ _ _ _ C) i o) as [Hnz Hvar].
        { rewrite Hperm. left. }
        destruct (enqueue_spec s1 o i) as (a' & -> & A' & Hseen); try done.
        rewrite res_bind_ok. cbn beta iota zeta.
        set (s2 := Solver _ _ _ _ _ _ _ _ _ _ _).
        assert (Hlvl : ∀ x, x ∈ s_trail s → lvl (s_levels s2) (Z.abs x) = lvl (s_levels s) (Z.abs x)).
        { intros x Hx. cbn. rewrite lvl_insert_ne; [done|]. intros E. by eapply (abs_ne_in (s_trail s) o x). }
        assert (C2 : core s2).
        { apply (core_push (s_heap s1) _ (s_asg s1)); try done.
          - by rewrite (fr_len _ _ F1).
          - rewrite Hhl. left.
          - intros x Hx Hxo. rewrite Hhl, !elem_of_cons in Hx.
            destruct Hx as [->|[->|Hx]]; [done|by rewrite Z.opp_involutive|].
            apply (asg_false _ _ _ _ _ A). by apply Hall. }
        assert (I2 : Inv cur rest s2).
        { split; try done.
          - intros j x y r' u o' Hj E Huo Hu.
            cbn [s2 s_trail] in Hu. apply elem_of_cons in Hu as [Hu|Hu].
            { left. left. cbn. rewrite Hu. apply elem_of_app. right. left. }
            assert (Hu' : lvl (s_levels s2) (Z.abs u) = lvl (s_levels s) (Z.abs u)).
            { rewrite <-(Z.abs_opp u). by apply Hlvl. }
            destruct (decide (j = i)) as [->|Hji].
            + change (hl (s_heap s1) i = x :: y :: r') in E. rewrite Hhl in E. injection E as <- <- <-.
              destruct Huo as [[-> ->]|[-> ->]]; [done|].
              right. split; [left|]. rewrite Hu'. cbn. rewrite lvl_insert, Z.abs_opp, Hlv. done.
            + assert (E' : hl (s_heap s) j = x :: y :: r').
              { change (hl (relit i (o :: - cur :: r) (s_heap s)) j = x :: y :: r') in E.
                rewrite hl_relit in E by done. by rewrite decide_False in E. }
              destruct (iv_w5 _ _ _ _ _ _ I j x y r' u o') as [Hex|[Hot Hol]]; try done.
              * left. destruct Hex as [?|[? [?|?]%elem_of_cons]]; [|done|by right].
                left. cbn. apply elem_of_app. by left.
              * right. split; [by right|]. rewrite Hu', Hlvl by done. done.
          - destruct (iv_queue _ _ _ _ _ _ I) as [HQ1 HQ2]. split.
            + cbn. rewrite app_length. cbn. lia.
            + cbn. intros l [Hl| ->%elem_of_list_singleton]%elem_of_app.
              * destruct (HQ2 l Hl) as [Hl1 Hl2]. split; [by right|].
                rewrite <-Hl2. by apply Hlvl.
              * split; [left|]. by rewrite lvl_insert. }
        assert (F2 : Fr s s2).
        { eapply fr_trans; [exact F1|]. split; cbn; try done.
          - by exists [o].
          - cbn in Hseen. rewrite Hseen. set_solver.
          - intros v j. destruct (decide (v = Z.abs o)) as [->|Hv].
            + rewrite lookup_insert. intros [= <-]. by right.
            + rewrite lookup_insert_ne by done. by left. }
        destruct (IH s2 I2) as [(s' & -> & I' & F' & Hm)|(j & s' & -> & I' & F')].
        { by right. }
        { by rewrite Hlvl. }
        * left. exists s'. split; [done|]. split; [done|]. split; [by eapply fr_trans|].
          cbn in Hm. rewrite app_length in Hm. cbn in Hm. lia.
        * right. exists j, s'. split; [done|]. split; [done|]. by eapply fr_trans.
  Qed.
End prop.
