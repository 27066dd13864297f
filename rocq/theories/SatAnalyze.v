(** * Propagation to fixpoint, conflict analysis, backtracking. *)
From Verif Require Export SatProp.

Lemma filter_iff_in {A} (P Q : A → Prop) `{∀ x, Decision (P x), ∀ x, Decision (Q x)} (l : list A) :
  Forall (λ x, P x ↔ Q x) l → filter P l = filter Q l.
Proof.
  induction 1 as [|x l Hx _ IH]; [done|].
  destruct (decide (P x)).
  - rewrite !filter_cons_True by naive_solver. by f_equal.
  - rewrite !filter_cons_False by naive_solver. done.
Qed.

Section analyze.
  Context (F : list (list Z)) (Extra : gset Z) (D : list Z → Z → Prop).
  Notation HeapOk := (HeapOk F Extra).
  Notation core := (core F Extra D).
  Notation Core := (Core F Extra D).
  Notation Inv := (Inv F Extra D).
  Notation AsgOk := (AsgOk F Extra).
  Notation univ := (univ F Extra).
  Notation Conf := (Conf F Extra D).
  Notation TrOk := (TrOk D).

  (** ** The universe of variables is finite *)
  Definition uset : gset Z := list_to_set (Z.abs <$> mjoin F) ∪ Extra.
  Lemma univ_uset v : univ v ↔ v ∈ uset.
  Proof.
    unfold SatInv.univ, is_var, uset.
    rewrite elem_of_union, elem_of_list_to_set, elem_of_list_fmap. f_equiv. split.
    - intros (c & l & Hc & Hl & ->). exists l. split; [done|]. apply elem_of_list_join. eauto.
    - intros (l & -> & Hl). apply elem_of_list_join in Hl as (c & ? & ?). eauto 10.
  Qed.

  Lemma trail_univ s l : core s → l ∈ s_trail s → univ (Z.abs l).
  Proof.
    intros C Hl. pose proof (co_asg _ _ _ _ _ _ _ _ _ _ C) as A.
    apply (ao_seen _ _ _ _ A). apply (awf_seen _ (ao_wf _ _ _ _ A)).
    rewrite (asg_assigned _ _ _ _ _ A).
    - apply elem_of_list_fmap. eauto.
    - intros. by eapply tr_nonzero, H; apply (co_tr _ _ _ _ _ _ _ _ _ _ C).
  Qed.

  Lemma trail_bound s : core s → (length (s_trail s) ≤ size uset)%nat.
  Proof.
    intros C. pose proof (co_tr _ _ _ _ _ _ _ _ _ _ C) as T.
    pose proof (tr_nodup _ _ _ T) as Hnd.
    rewrite <-(fmap_length Z.abs (s_trail s)).
    change (size uset) with (length (elements uset)).
    apply NoDup_incl_length.
    - by apply NoDup_ListNoDup.
    - intros v Hv%elem_of_list_In. apply elem_of_list_In, elem_of_elements, univ_uset.
      apply elem_of_list_fmap in Hv as (l & -> & Hl). by eapply trail_univ.
  Qed.

  (** ** propagate *)
  Definition Ready (s : solver) : Prop := Inv 0 [] s.
  Lemma inv_nil cur cur' s : Inv cur [] s → Inv cur' [] s.
  Proof.
    intros [C [Wn Wi] H5 Q]. split; [done| | |done].
    - assert (E : ∀ l, ewatch (s_watches s) cur' [] l = ewatch (s_watches s) cur [] l).
      { intros l. unfold ewatch. by repeat case_decide. }
      split; intros l; rewrite E; [done|apply Wi].
    - intros i x y r w o Hi E Hwo Hw. destruct (H5 i x y r w o) as [[?|[_ Hn]]|?]; try done.
      + left. by left.
      + by apply elem_of_nil in Hn.
      + by right.
  Qed.

  Lemma inv_detach s lit q : Ready s → s_queue s = lit :: q →
    Inv lit (rev (watch_list s lit)) (set_watch lit [] (set_queue q s)).
  Proof.
    intros [C [Wn Wi] H5 [Q1 Q2]] Eq. rewrite Eq in *.
    assert (E : ∀ l, ewatch (<[lit := []]> (s_watches s)) lit (rev (watch_list s lit)) l
                     ≡ₚ ewatch (s_watches s) 0 [] l).
    { intros l. unfold ewatch. rewrite default_insert.
      replace (if decide (l = 0) then [] else []) with ([] : list nat) by (by destruct decide).
      rewrite app_nil_r. case_decide; [|by rewrite app_nil_r]. subst.
      cbn. unfold watch_list. by rewrite <-Permutation_rev. }
    split; cbn; try done.
    - split; intros l; [|intros j]; rewrite E; [done|apply Wi].
    - intros i x y r w o Hi Ex Hwo Hw. destruct (H5 i x y r w o) as [[Hq|[_ Hn]]|?]; try done.
      + left. apply elem_of_cons in Hq as [Hq|Hq]; [|by left]. right. split; [done|].
        assert (Hin : i ∈ ewatch (s_watches s) 0 [] lit).
        { apply Wi. split; [done|]. exists x, y, r. split; [done|]. naive_solver. }
        unfold ewatch in Hin. rewrite elem_of_app in Hin.
        replace (if decide (lit = 0) then [] else []) with ([] : list nat) in Hin by (by destruct decide).
        rewrite elem_of_nil in Hin. destruct Hin as [Hin|[]].
        rewrite <-Permutation_rev. done.
      + by apply elem_of_nil in Hn.
      + by right.
    - split; [cbn in Q1; lia|]. intros l Hl. apply Q2. by right.
  Qed.

  Lemma propagate_spec fuel : ∀ s, Ready s →
    (length (s_queue s) + (size uset - length (s_trail s)) ≤ fuel)%nat →
    (∃ s', propagate fuel s = Ok (None, s') ∧ Ready s' ∧ s_queue s' = [] ∧ Fr s s') ∨
    (∃ i s', propagate fuel s = Ok (Some i, s') ∧ Conf i s' ∧ Fr s s').
  Proof.
    induction fuel as [|fuel IH]; intros s R Hf.
    - left. exists s. cbn. destruct (s_queue s) eqn:Eq; [|cbn in Hf; lia].
      split; [done|]. split; [done|]. split; [done|]. apply fr_refl.
    - cbn. destruct (s_queue s) as [|lit q] eqn:Eq.
      { left. exists s. split; [done|]. split; [done|]. split; [done|]. apply fr_refl. }
      pose proof (inv_detach s lit q R Eq) as I1.
      set (s1 := set_watch lit [] (set_queue q s)) in *.
      assert (F1 : Fr s s1) by (split; cbn; try done; [by exists []|by left]).
      destruct (iv_queue _ _ _ _ _ _ R) as [Q1 Q2]. rewrite Eq in Q2, Q1.
      destruct (Q2 lit) as [Hl1 Hl2]; [left|].
      destruct (prop_watch_spec F Extra D lit _ s1 I1) as [(s2 & -> & I2 & F2 & Hm)|(i & s2 & -> & C2 & F2)]; try done.
      + rewrite res_bind_ok. cbn beta iota.
        apply (inv_nil lit 0) in I2.
        pose proof (trail_bound _ (iv_core _ _ _ _ _ _ I2)) as B2.
        cbn in Hm. destruct (IH s2 I2) as [(s' & -> & R' & Hq & F')|(i & s' & -> & C' & F')].
        * cbn in Hf. lia.
        * left. exists s'. split; [done|]. split; [done|]. split; [done|].
          eapply fr_trans; [|done]. by eapply fr_trans.
        * right. exists i, s'. split; [done|]. split; [done|].
          eapply fr_trans; [|done]. by eapply fr_trans.
      + rewrite res_bind_ok. cbn beta iota. right. exists i, s2. split; [done|]. split; [done|].
        by eapply fr_trans.
  Qed.

  (** ** Entailment along the trail *)
  Lemma tr_entail h lv rs t lims f k : HeapOk h → TrOk h lv rs t lims → model f (nonempty F) →
    (∀ d, d ∈ t → rs !! Z.abs d = Some 0%nat → lvl lv (Z.abs d) ≤ k → lit_true f d) →
    ∀ l, l ∈ t → lvl lv (Z.abs l) ≤ k → lit_true f l.
  Proof.
    intros Hh T Hf.
    induction T as [|l t lims i T IH Hnz Hfr Hr Hi Hi' Hl Hx Hlv|l t lims T IH Hnz Hfr Hr HD Hlv];
      intros Hd l' Hl' Hk.
    - by apply elem_of_nil in Hl'.
    - assert (IH' : ∀ l, l ∈ t → lvl lv (Z.abs l) ≤ k → lit_true f l).
      { apply IH. intros d Hd1. apply Hd. by right. }
      apply elem_of_cons in Hl' as [->|Hl']; [|by apply IH'].
      destruct (h_ent _ _ _ Hh i Hi Hi' (elem_of_not_nil _ _ Hl) f Hf) as (x & Hxi & Hxt).
      destruct (decide (x = l)) as [->|Hne]; [done|]. exfalso.
      pose proof (Hx x Hxi Hne) as Hxin.
      assert (lit_true f (- x)) as Hcon.
      { apply IH'; [done|]. pose proof (tr_level _ _ _ _ T Hxin). lia. }
      apply lit_true_opp in Hcon; [done|]. by apply (h_var _ _ _ Hh i x).
    - apply elem_of_cons in Hl' as [->|Hl']; [by apply Hd; [left| |]|].
      apply IH; try done. intros d Hd1. apply Hd. by right.
  Qed.

  Lemma no_dec_level0 h lv rs t d : TrOk h lv rs t [] → d ∈ t → rs !! Z.abs d ≠ Some 0%nat.
  Proof.
    remember [] as lims eqn:El. induction 1; subst; intros Hd; [by apply elem_of_nil in Hd| |done].
    apply elem_of_cons in Hd as [->|Hd]; [congruence|]. by apply IHTrOk.
  Qed.

  Lemma conf_unsat i s : Conf i s → s_lims s = [] → ¬ satisfiable (nonempty F).
  Proof.
    intros Cf El [f Hf]. pose proof (cf_core _ _ _ _ _ Cf) as C.
    pose proof (co_heap _ _ _ _ _ _ _ _ _ _ C) as Hh.
    pose proof (co_tr _ _ _ _ _ _ _ _ _ _ C) as T. rewrite El in T.
    destruct (cl_range _ _ _ _ (co_cls _ _ _ _ _ _ _ _ _ _ C) i (cf_in _ _ _ _ _ Cf)) as [Hi Hi'].
    destruct (h_ent _ _ _ Hh i Hi Hi' (cl_ne _ _ _ _ (co_cls _ _ _ _ _ _ _ _ _ _ C) i (cf_in _ _ _ _ _ Cf)) f Hf) as (x & Hxi & Hxt).
    pose proof (cf_false _ _ _ _ _ Cf x Hxi) as Hx.
    assert (lit_true f (- x)) as Hcon.
    { eapply (tr_entail _ _ _ _ _ f (lvl (s_levels s) (Z.abs (- x))) Hh T Hf); [|done|done].
      intros d Hd1 Hd2. by eapply no_dec_level0 in Hd2. }
    apply lit_true_opp in Hcon; [done|]. by apply (h_var _ _ _ Hh i x).
  Qed.

  (** ** undo_one *)
  Lemma undo_one_spec s p t : s_trail s = p :: t → AsgOk (s_asg s) (p :: t) → p ≠ 0 →
    Z.abs p ∉ Z.abs <$> t →
    ∃ a', undo_one s = Ok (Solver (s_heap s) (s_clauses s) (s_watches s) a' (s_ctrails s)
            (<[Z.abs p := -1]> (s_levels s)) (s_queue s) t (s_lims s) (s_reasons s) (s_status s)) ∧
      AsgOk a' t ∧ a_seen a' = a_seen (s_asg s).
  Proof.
    intros Et A Hnz Hfr. unfold undo_one. rewrite Et.
    destruct (aset_set_spec (s_asg s) (Z.abs p) None (ao_wf _ _ _ _ A)) as (a' & -> & W & Hd & Hs & _); [lia|].
    assert (Hin : Z.abs p ∈ a_seen (s_asg s)).
    { apply (awf_seen _ (ao_wf _ _ _ _ A)). rewrite <-awf_abs by apply (ao_wf _ _ _ _ A).
      pose proof (proj2 (ao_val _ _ _ _ A p) ltac:(left)) as Hv. unfold aset_value in Hv. eauto. }
    rewrite (Z.abs_eq (Z.abs p)) in Hs by lia.
    assert (a_seen a' = a_seen (s_asg s)) as Hs' by (rewrite Hs; set_solver).
    exists a'. split; [done|]. split; [|done]. split; [done| |].
    - intros l. unfold aset_value. rewrite Hd.
      destruct (decide (Z.abs l = Z.abs p)) as [E|E].
      + assert (l ∉ t) by (intros Hl; apply Hfr, elem_of_list_fmap; exists l; done).
        repeat case_decide; cbn; try (split; [done|tauto]); lia.
      + repeat case_decide; try lia. fold (aset_value (s_asg s) l). rewrite (ao_val _ _ _ _ A), elem_of_cons.
        split; [|tauto]. intros [->|?]; [lia|done].
    - intros v. rewrite Hs'. apply (ao_seen _ _ _ _ A).
  Qed.

  (** ** trace_reason *)
  Section trace.
    Context (lv : Z → Z) (dl : Z) (t : list Z).
    Context (Hnd : NoDup (Z.abs <$> t)) (Hlev : ∀ l, l ∈ t → 0 ≤ lv (Z.abs l)).
    Definition cur_lits (t : list Z) (seen : gset Z) : list Z :=
      filter (λ l, Z.abs l ∈ seen ∧ lv (Z.abs l) = dl) t.
    Definition resolvent (t : list Z) (st : astate) : list Z :=
      an_learned st ++ (Z.opp <$> cur_lits t (an_seen st)).

    Record AnInv (st : astate) : Prop := {
      an1 : an_counter st = Z.of_nat (length (cur_lits t (an_seen st)));
      an2 : ∀ l, l ∈ t → Z.abs l ∈ an_seen st → lv (Z.abs l) = dl ∨ - l ∈ an_learned st;
      an3 : ∀ x, x ∈ an_learned st → - x ∈ t ∧ lv (Z.abs x) ≠ dl;
      an4 : 0 ≤ an_bt st;
      an5 : ∀ x, x ∈ an_learned st → lv (Z.abs x) ≤ an_bt st;
      an6 : an_bt st = 0 ∨ ∃ x, x ∈ an_learned st ∧ lv (Z.abs x) = an_bt st }.
  End trace.

  Lemma cur_lits_add lv dl t seen l : NoDup (Z.abs <$> t) → l ∈ t → Z.abs l ∉ seen →
    lv (Z.abs l) = dl →
    length (cur_lits lv dl t ({[Z.abs l]} ∪ seen)) = S (length (cur_lits lv dl t seen)).
  Proof.
    unfold cur_lits. intros Hnd Hl Hs Hlv. induction t as [|x t IH]; [by apply elem_of_nil in Hl|].
    cbn in Hnd. apply NoDup_cons in Hnd as [Hx Hnd].
    destruct (decide (x = l)) as [->|Hne].
    - rewrite filter_cons_True by (split; [set_solver|done]).
      rewrite filter_cons_False by (intros [? _]; done). cbn. f_equal.
      f_equal. apply filter_iff_in. apply Forall_forall. intros y Hy. 
      assert (Z.abs y ≠ Z.abs l).
      { intros E. apply Hx. rewrite <-E. apply elem_of_list_fmap. eauto. }
      set_solver.
    - apply elem_of_cons in Hl as [->|Hl]; [done|].
      assert (Z.abs x ≠ Z.abs l).
      { intros E. apply Hx. rewrite E. apply elem_of_list_fmap. eauto. }
      destruct (decide (Z.abs x ∈ seen ∧ lv (Z.abs x) = dl)).
      + rewrite !filter_cons_True by set_solver. cbn. rewrite IH by done. done.
      + rewrite !filter_cons_False by set_solver. by apply IH.
  Qed.
  Lemma cur_lits_other lv dl t seen l : l ∈ t → NoDup (Z.abs <$> t) → lv (Z.abs l) ≠ dl →
    cur_lits lv dl t ({[Z.abs l]} ∪ seen) = cur_lits lv dl t seen.
  Proof.
    intros Hl Hnd Hlv. unfold cur_lits. apply filter_iff_in. apply Forall_forall.
    intros y Hy. rewrite elem_of_union, elem_of_singleton.
    split; [|tauto]. intros [[E|?] ?]; [congruence|done].
  Qed.

  Lemma resolvent_mono lv dl t st st' x :
    an_seen st ⊆ an_seen st' → (∀ y, y ∈ an_learned st → y ∈ an_learned st') →
    x ∈ resolvent lv dl t st → x ∈ resolvent lv dl t st'.
  Proof.
    intros Hs Hl. unfold resolvent, cur_lits. rewrite !elem_of_app, !elem_of_list_fmap.
    setoid_rewrite elem_of_list_filter. set_solver.
  Qed.

  Lemma trace_lit_spec s t st lit : let lv := lvl (s_levels s) in let dl := decision_level s in
    NoDup (Z.abs <$> t) → (∀ l, l ∈ t → 0 ≤ lv (Z.abs l)) →
    AnInv lv dl t st → lit ∈ t →
    let st' := trace_lit s st lit in
    AnInv lv dl t st' ∧ an_trail st' = an_trail st ∧ an_seen st ⊆ an_seen st' ∧
    (∀ y, y ∈ an_learned st → y ∈ an_learned st') ∧ - lit ∈ resolvent lv dl t st' ∧
    Z.abs lit ∈ an_seen st'.
  Proof.
    intros lv dl Hnd Hlev [A1 A2 A3 A4 A5 A6] Hl st'. unfold st', trace_lit.
    change (level_of s (Z.abs lit)) with (lv (Z.abs lit)). change (decision_level s) with dl.
    case_decide as Hs; [|case_decide as Hlv].
    - split; [done|]. split; [done|]. split; [done|]. split; [done|]. split; [|done].
      unfold resolvent. apply elem_of_app. destruct (A2 lit Hl Hs) as [E|?]; [right|by left].
      apply elem_of_list_fmap. exists lit. split; [done|]. by apply elem_of_list_filter.
    - split; [split|]; cbn; try done.
      + rewrite A1, (cur_lits_add lv dl t (an_seen st) lit) by done. lia.
      + intros x Hx. rewrite elem_of_union, elem_of_singleton. intros [E|?]; [left; congruence|]. by apply A2.
      + split; [done|]. split; [set_solver|]. split; [done|]. split; [|set_solver].
        unfold resolvent. cbn. apply elem_of_app. right. apply elem_of_list_fmap. exists lit. split; [done|].
        apply elem_of_list_filter. set_solver.
    - split; [split|]; cbn; try done.
      + rewrite A1, cur_lits_other by done. done.
      + intros x Hx. rewrite elem_of_union, elem_of_singleton, elem_of_app, elem_of_list_singleton.
        intros [E|Hxs].
        * destruct (decide (x = lit)) as [->|]; [tauto|]. exfalso.
          apply NoDup_fmap_1 in Hnd as Hnd'.
          apply elem_of_list_split in Hl as (t1 & t2 & ->).
          rewrite fmap_app, fmap_cons in Hnd. apply NoDup_app in Hnd as (_ & N2 & N3%NoDup_cons).
          apply elem_of_app in Hx as [Hx|[?|Hx]%elem_of_cons]; [|done|].
          -- apply (N2 (Z.abs x)); [apply elem_of_list_fmap; eauto|]. rewrite E. left.
          -- apply N3. rewrite <-E. apply elem_of_list_fmap; eauto.
        * destruct (A2 x Hx Hxs); tauto.
      + intros x. rewrite elem_of_app, elem_of_list_singleton. intros [Hx| ->]; [by apply A3|].
        rewrite Z.opp_involutive, Z.abs_opp. done.
      + lia.
      + intros x. rewrite elem_of_app, elem_of_list_singleton. intros [Hx| ->].
        * pose proof (A5 x Hx). change (level_of s (Z.abs lit)) with (lv (Z.abs lit)). lia.
        * rewrite Z.abs_opp. change (level_of s (Z.abs lit)) with (lv (Z.abs lit)). lia.
      + change (level_of s (Z.abs lit)) with (lv (Z.abs lit)).
        destruct (Z.max_spec (an_bt st) (lv (Z.abs lit))) as [[_ ->]|[Hle ->]].
        * right. exists (- lit). rewrite elem_of_app, elem_of_list_singleton, Z.abs_opp. tauto.
        * destruct A6 as [?|(x & ? & ?)]; [by left|]. right. exists x. rewrite elem_of_app. tauto.
      + split; [done|]. split; [set_solver|]. split; [set_solver|]. split; [|set_solver].
        unfold resolvent. cbn. rewrite !elem_of_app, elem_of_list_singleton. tauto.
  Qed.

  Lemma trace_reason_spec s t reason : let lv := lvl (s_levels s) in let dl := decision_level s in
    NoDup (Z.abs <$> t) → (∀ l, l ∈ t → 0 ≤ lv (Z.abs l)) → ∀ st,
    AnInv lv dl t st → (∀ l, l ∈ reason → l ∈ t) →
    let st' := trace_reason s st reason in
    AnInv lv dl t st' ∧ an_trail st' = an_trail st ∧ an_seen st ⊆ an_seen st' ∧
    (∀ y, y ∈ an_learned st → y ∈ an_learned st') ∧
    (∀ l, l ∈ reason → - l ∈ resolvent lv dl t st') ∧
    (∀ l, l ∈ reason → Z.abs l ∈ an_seen st').
  Proof.
    intros lv dl Hnd Hlev. induction reason as [|l reason IH]; intros st A Hr; cbn.
    - split; [done|]. split; [done|]. split; [done|]. split; [done|].
      split; intros l Hl; by apply elem_of_nil in Hl.
    - destruct (trace_lit_spec s t st l Hnd Hlev A) as (A' & E' & S' & L' & R' & V').
      { apply Hr. left. }
      destruct (IH (trace_lit s st l)) as (A2 & E2 & S2 & L2 & R2 & V2); [done|..].
      { intros x Hx. apply Hr. by right. }
      unfold trace_reason in *.
      split; [done|]. split; [congruence|]. split; [set_solver|]. split; [auto|]. split.
      + intros x [->|Hx]%elem_of_cons; [|by apply R2]. by eapply resolvent_mono.
      + intros x [->|Hx]%elem_of_cons; [set_solver|by apply V2].
  Qed.
End analyze.
