(** * Recording a learned clause and taking a decision re-establish the invariant. *)
From Verif Require Export SatLearn.

Lemma ewatch0 w l : ewatch w 0 [] l = default [] (w !! l).
Proof. unfold ewatch. destruct (decide _); by rewrite app_nil_r. Qed.

(** ** Adding a clause to the watch lists *)
Lemma wat_add h h' cls w i x y r :
  WatOk h cls w 0 [] → i ∉ cls → (∀ j, j ∈ cls → hl h' j = hl h j) →
  hl h' i = x :: y :: r → x ≠ y →
  WatOk h' (cls ++ [i])
    (<[- y := default [] (<[- x := default [] (w !! (- x)) ++ [i]]> w !! (- y)) ++ [i]]>
       (<[- x := default [] (w !! (- x)) ++ [i]]> w)) 0 [].
Proof.
  intros [Wn Wi] Hi Hh Ei Hxy.
  setoid_rewrite ewatch0 in Wn. setoid_rewrite ewatch0 in Wi.
  assert (Hni : ∀ l, i ∉ default [] (w !! l)) by (intros l [? _]%Wi; done).
  assert (- x ≠ - y) by lia.
  assert (Hl : ∀ l, default [] (<[- y := default [] (<[- x := default [] (w !! (- x)) ++ [i]]> w !! (- y)) ++ [i]]>
       (<[- x := default [] (w !! (- x)) ++ [i]]> w) !! l) =
       default [] (w !! l) ++ if decide (l = - x ∨ l = - y) then [i] else []).
  { intros l. rewrite !default_insert. repeat case_decide; subst; try lia; try by rewrite app_nil_r. done. done. }
  split; intros l; rewrite ewatch0, Hl.
  - case_decide; [|by rewrite app_nil_r]. apply NoDup_app. split; [done|].
    split; [|by apply NoDup_singleton]. intros j Hj ->%elem_of_list_singleton. by apply (Hni l).
  - intros j. rewrite !elem_of_app, Wi, elem_of_list_singleton. split.
    + intros [[Hj Hw]|Hj].
      * rewrite Hh by done. auto.
      * case_decide; [|by apply elem_of_nil in Hj]. apply elem_of_list_singleton in Hj as ->.
        split; [by right|]. exists x, y, r. done.
    + intros [[Hj| ->] Hw].
      * left. rewrite Hh in Hw by done. done.
      * right. rewrite Ei in Hw. destruct Hw as (x' & y' & r' & [= -> -> ->] & Hw).
        rewrite decide_True by done. by left.
Qed.

Lemma wat_add_unit h h' cls w i x :
  WatOk h cls w 0 [] → i ∉ cls → (∀ j, j ∈ cls → hl h' j = hl h j) →
  hl h' i = [x] → WatOk h' (cls ++ [i]) w 0 [].
Proof.
  intros [Wn Wi] Hi Hh Ei. split; [done|]. intros l j. rewrite Wi, elem_of_app, elem_of_list_singleton.
  split.
  - intros [Hj Hw]. rewrite Hh by done. auto.
  - intros [[Hj| ->] Hw]; [rewrite Hh in Hw by done; done|].
    rewrite Ei in Hw. by destruct Hw as (? & ? & ? & ? & _).
Qed.

Section record.
  Context (F : list (list Z)) (Extra : gset Z) (D : list Z → Z → Prop).
  Notation HeapOk := (HeapOk F Extra).
  Notation core := (core F Extra D).
  Notation Core := (Core F Extra D).
  Notation Inv := (Inv F Extra D).
  Notation AsgOk := (AsgOk F Extra).
  Notation univ := (univ F Extra).
  Notation Conf := (Conf F Extra D).
  Notation TrOk := (TrOk D).
  Notation Ready := (Ready F Extra D).

  (** What learning from a conflict does. *)
  Record Learned (s s' : solver) (i : nat) (b : nat) : Prop := {
    ln_i : i = length (s_heap s);
    ln_cls : s_clauses s' = s_clauses s ++ [i];
    ln_len : length (s_heap s') = S (length (s_heap s));
    ln_old : ∀ j, (j < length (s_heap s))%nat → s_heap s' !! j = s_heap s !! j;
    ln_new : ∃ c, s_heap s' !! i = Some c ∧ c_learned c = true ∧ c_rule c = None;
    ln_seen : a_seen (s_asg s) ⊆ a_seen (s_asg s');
    ln_b : (b < length (s_lims s))%nat;
    ln_lims : length (s_lims s') = b;
    ln_ctr : ∃ ctr, s_ctrails s' = <[i := ctr]> (s_ctrails s) ∧
               ∀ j, j ∈ ctr → j ∈ s_clauses s ∨ ∃ v, s_reasons s !! v = Some j;
    ln_rs : ∃ v, s_reasons s' = <[v := i]> (s_reasons s);
    ln_tr : ∃ p t1 tb, s_trail s = t1 ++ tb ∧ s_trail s' = p :: tb ∧
        (∀ x, x ∈ t1 → Z.of_nat b < lvl (s_levels s) (Z.abs x)) ∧
        (∀ x, x ∈ tb → lvl (s_levels s') (Z.abs x) = lvl (s_levels s) (Z.abs x)) ∧
        lvl (s_levels s') (Z.abs p) = Z.of_nat b }.

  Lemma record_spec s s2 i p L b lims :
    (* the conflict state *)
    Conf i s → 
    (* what analyze and cancel_until did *)
    ∀ t1 tb,
    s_trail s = t1 ++ tb →
    (∀ x, x ∈ t1 → Z.of_nat b < lvl (s_levels s) (Z.abs x)) →
    p ∈ t1 → (b < length (s_lims s))%nat →
    s_heap s2 = s_heap s ++ [Clause (L ++ [- p]) true None] →
    s_clauses s2 = s_clauses s → s_watches s2 = s_watches s → s_queue s2 = [] →
    s_lims s2 = lims → length lims = b → s_trail s2 = tb → AsgOk (s_asg s2) tb →
    TrOk (s_heap s2) (s_levels s2) (s_reasons s2) tb lims →
    (∀ x, x ∈ tb → lvl (s_levels s2) (Z.abs x) = lvl (s_levels s) (Z.abs x)) →
    lvl (s_levels s2) (Z.abs p) = -1 →
    NoDup (L ++ [- p]) → entails (nonempty F) (L ++ [- p]) →
    (∀ x, x ∈ L → - x ∈ tb ∧ lvl (s_levels s) (Z.abs x) ≤ Z.of_nat b) →
    ((b = 0)%nat ∨ ∃ x, x ∈ L ∧ lvl (s_levels s) (Z.abs x) = Z.of_nat b) →
    ∃ s', record (length (s_heap s)) s2 = Ok (Normal s') ∧ Ready s' ∧
      s_clauses s' = s_clauses s ++ [length (s_heap s)] ∧
      length (s_heap s') = S (length (s_heap s)) ∧
      (∀ j, (j < length (s_heap s))%nat → s_heap s' !! j = s_heap s !! j) ∧
      (∃ c, s_heap s' !! length (s_heap s) = Some c ∧ c_learned c = true ∧ c_rule c = None) ∧
      a_seen (s_asg s2) ⊆ a_seen (s_asg s') ∧
      s_ctrails s' = s_ctrails s2 ∧
      s_reasons s' = <[Z.abs p := length (s_heap s)]> (s_reasons s2) ∧
      s_lims s' = lims ∧ s_trail s' = - p :: tb ∧
      (∀ x, x ∈ tb → lvl (s_levels s') (Z.abs x) = lvl (s_levels s) (Z.abs x)) ∧
      lvl (s_levels s') (Z.abs p) = Z.of_nat b.
  Proof.
    intros Cf t1 tb Et Ht1 Hp Hb Eh Ec Ew Eq El Elen Ett A T Hlv Hpl Hnd Hent HL Hbt.
    pose proof (cf_core _ _ _ _ _ Cf) as [Hh Hc T0 A0].
    set (n := length (s_heap s)) in *.
    assert (Hcr : ∀ j, j ∈ s_clauses s → (j < n)%nat) by (intros j Hj; by apply (cl_range _ _ _ _ Hc)).
    assert (Hpnz : p ≠ 0). { eapply tr_nonzero; [apply T0|]. rewrite Et. apply elem_of_app. by left. }
    assert (Hfresh : Z.abs p ∉ Z.abs <$> tb).
    { pose proof (tr_nodup _ _ _ T0) as N. rewrite Et, fmap_app in N. apply NoDup_app in N as (_ & N & _).
      apply N. apply elem_of_list_fmap. eauto. }
    assert (Hp1 : p ∉ tb) by (intros ?; apply Hfresh, elem_of_list_fmap; eauto).
    assert (Hp2 : - p ∉ tb). { intros ?; apply Hfresh, elem_of_list_fmap. exists (- p). by rewrite Z.abs_opp. }
    assert (Hup : univ (Z.abs p)).
    { eapply (trail_univ F Extra D s); [apply (cf_core _ _ _ _ _ Cf)|]. rewrite Et. apply elem_of_app. by left. }
    assert (Hul : ∀ x, x ∈ L ++ [- p] → x ≠ 0 ∧ univ (Z.abs x)).
    { intros x [Hx|Hx]%elem_of_app.
      - destruct (HL x Hx) as [Hx1 _]. assert (- x ∈ s_trail s) by (rewrite Et; apply elem_of_app; by right).
        split; [intros ->; eapply tr_nonzero in T0; [|done]; lia|].
        rewrite <-Z.abs_opp. eapply (trail_univ F Extra D s); [apply (cf_core _ _ _ _ _ Cf)|done].
      - apply elem_of_list_singleton in Hx as ->. rewrite Z.abs_opp. split; [lia|done]. }
    assert (Hlx : ∀ x, x ∈ L → lvl (s_levels s2) (Z.abs x) = lvl (s_levels s) (Z.abs x) ∧ 0 ≤ lvl (s_levels s) (Z.abs x)).
    { intros x Hx. destruct (HL x Hx) as [Hx1 _]. rewrite <-Z.abs_opp, Hlv by done. split; [done|].
      eapply (tr_level _ _ _ _ T0). rewrite Et. apply elem_of_app. by right. }
    set (c := Clause (L ++ [- p]) true None) in *.
    assert (Elo : lits_of s2 n = L ++ [- p]).
    { change (lits_of s2 n) with (hl (s_heap s2) n). rewrite Eh. apply hl_app_new. }
    assert (Hh2 : HeapOk (s_heap s2)) by (rewrite Eh; by apply heap_ok_app).
    assert (Hn2 : (n < length (s_heap s2))%nat) by (rewrite Eh, app_length; cbn; lia).
    unfold record. rewrite Elo.
    assert (Hmatch : ∀ {X} (a b : X), match L ++ [- p] with [] => a | _ :: _ => b end = b).
    { intros X a' b'. destruct L; done. }
    rewrite Hmatch. clear Hmatch.
    set (ord := record_order s2 (L ++ [- p])).
    set (s3 := set_lits n ord s2).
    set (h' := relit n ord (s_heap s2)).
    assert (Hperm : ord ≡ₚ L ++ [- p] ∧
      ((L = [] ∧ ord = [- p]) ∨ ∃ y r, ord = - p :: y :: r ∧ y ∈ L ∧
          ∀ x, x ∈ L → level_of s2 (Z.abs x) ≤ level_of s2 (Z.abs y))).
    { destruct (record_order_spec s2 L (- p)) as [[-> E]|(y & r & E & Hy & Hmax)].
      - by rewrite Z.abs_opp.
      - intros x Hx. change (level_of s2 (Z.abs x)) with (lvl (s_levels s2) (Z.abs x)).
        destruct (Hlx x Hx) as [-> ?]. done.
      - unfold ord. rewrite E. split; [done|]. by left.
      - unfold ord. rewrite E. split.
        + rewrite (Permutation_app_comm L [- p]). cbn. by rewrite Hy.
        + right. exists y, r. split; [done|]. split; [|done]. rewrite <-Hy. left. }
    destruct Hperm as [Hperm Hord].
    assert (Ehl : hl h' n = ord) by (unfold h'; rewrite hl_relit by done; by rewrite decide_True).
    assert (Eold : ∀ j, (j < n)%nat → h' !! j = s_heap s !! j).
    { intros j Hj. unfold h', relit. rewrite list_lookup_alter_ne by lia. rewrite Eh.
      by apply lookup_app_l. }
    assert (Eold' : ∀ j, (j < n)%nat → hl h' j = hl (s_heap s) j).
    { intros j Hj. unfold hl. by rewrite Eold. }
    assert (Hhperm : HeapOk h').
    { assert (C2 : Core (s_heap s2) [] (s_asg s2) (s_levels s2) tb lims (s_reasons s2)).
      { split; try done. split; [intros ? Hx|intros ? Hx|intros ? ? Hx]; by apply elem_of_nil in Hx. }
      eapply core_relit in C2; [by destruct C2|done|]. 
      change (hl (s_heap s2) n) with (lits_of s2 n). by rewrite Elo. }
    assert (Hmem : ∀ j x, x ∈ hl h' j ↔ x ∈ hl (s_heap s2) j).
    { apply relit_mem; [done|]. change (hl (s_heap s2) n) with (lits_of s2 n). by rewrite Elo. }
    assert (Hlen' : length h' = S n).
    { unfold h'. rewrite relit_length, Eh, app_length. cbn. lia. }
    assert (Hninc : n ∉ s_clauses s) by (intros ?%Hcr; lia).
    (* the state in which -p is enqueued *)
    assert (Hgen : ∀ w' s4, s4 = Solver h' (s_clauses s ++ [n]) w' (s_asg s2) (s_ctrails s2) (s_levels s2)
        [] tb lims (s_reasons s2) (s_status s2) →
      WatOk h' (s_clauses s ++ [n]) w' 0 [] →
      ∃ s', enqueue (- p) n s4 = Ok (true, s') ∧ Ready s' ∧ s_clauses s' = s_clauses s ++ [n] ∧
        s_heap s' = h' ∧ a_seen (s_asg s2) ⊆ a_seen (s_asg s') ∧
        s_ctrails s' = s_ctrails s2 ∧ s_reasons s' = <[Z.abs p := n]> (s_reasons s2) ∧
        s_lims s' = lims ∧ s_trail s' = - p :: tb ∧
        (∀ x, x ∈ tb → lvl (s_levels s') (Z.abs x) = lvl (s_levels s) (Z.abs x)) ∧
        lvl (s_levels s') (Z.abs p) = Z.of_nat b ∧ aset_value (s_asg s') (- p) = Some true).
    { intros w' s4 E4 Hw.
      destruct (enqueue_spec F Extra s4 (- p) n) as (a' & Een & A' & Hs'); subst s4; cbn; try done.
      { by rewrite Z.opp_involutive. } { lia. } { by rewrite Z.abs_opp. }
      cbn in Een, A', Hs'. rewrite Z.abs_opp in Een, Hs'. rewrite Een. clear Een.
      eexists. split; [done|]. cbn.
      assert (Hlvb : ∀ x, x ∈ tb → lvl (<[Z.abs p := decision_level
            (Solver h' (s_clauses s ++ [n]) w' (s_asg s2) (s_ctrails s2) (s_levels s2) [] tb lims (s_reasons s2) (s_status s2))]>
           (s_levels s2)) (Z.abs x) = lvl (s_levels s) (Z.abs x)).
      { intros x Hx. rewrite lvl_insert_ne; [by apply Hlv|]. intros E. apply Hfresh. rewrite E.
        apply elem_of_list_fmap. eauto. }
      assert (Edl : decision_level
            (Solver h' (s_clauses s ++ [n]) w' (s_asg s2) (s_ctrails s2) (s_levels s2) [] tb lims (s_reasons s2) (s_status s2)) = Z.of_nat b).
      { unfold decision_level. cbn. by rewrite Elen. }
      rewrite Edl in *.
      assert (Htb : ∀ o, o ∈ s_trail s → lvl (s_levels s) (Z.abs o) ≤ Z.of_nat b → o ∈ tb).
      { intros o Ho Hle. rewrite Et in Ho. apply elem_of_app in Ho as [Ho|Ho]; [|done].
        apply Ht1 in Ho. lia. }
      split.
      2:{ split; [done|]. split; [done|]. split; [rewrite Hs'; set_solver|]. split; [done|]. split; [done|].
          split; [done|]. split; [done|]. split; [done|]. split; [by rewrite lvl_insert|].
          apply (ao_val _ _ _ _ A'). left. }
      split; cbn; [|done| |].
      - split; cbn.
        + done.
        + split.
          * intros j [Hj|Hj]%elem_of_app.
            -- destruct (cl_range _ _ _ _ Hc j Hj). split; [done|]. lia.
            -- apply elem_of_list_singleton in Hj as ->. split; [|lia]. pose proof (h_nil _ _ _ Hh). lia.
          * intros j [Hj|Hj]%elem_of_app.
            -- rewrite Eold' by auto. by apply (cl_ne _ _ _ _ Hc).
            -- apply elem_of_list_singleton in Hj as ->. rewrite Ehl.
               destruct Hord as [[_ ->]|(y & r & -> & _)]; done.
          * intros j l [Hj|Hj]%elem_of_app E.
            -- rewrite Eold' in E by auto. destruct (cl_unit _ _ _ _ Hc j l Hj E) as [Hl1 Hl2].
               assert (l ∈ tb) by (apply Htb; [done|lia]).
               split; [by right|]. by rewrite Hlvb.
            -- apply elem_of_list_singleton in Hj as ->. rewrite Ehl in E.
               destruct Hord as [[EL Eo]|(y & r & Eo & _)]; [|congruence].
               rewrite Eo in E. injection E as <-. split; [left|].
               rewrite Z.abs_opp, lvl_insert. destruct Hbt as [->|(x & Hx & _)]; [done|].
               rewrite EL in Hx. by apply elem_of_nil in Hx.
        + apply (tr_prop _ _ _ _ _ _ _ n).
          * eapply tr_ext; [apply T| | |].
            -- intros j x _. apply Hmem.
            -- unfold h'. by rewrite relit_length.
            -- intros l Hl. assert (Z.abs p ≠ Z.abs l).
               { intros E. apply Hfresh. rewrite E. apply elem_of_list_fmap. eauto. }
               by rewrite lvl_insert_ne, lookup_insert_ne.
          * lia.
          * by rewrite Z.abs_opp.
          * rewrite Z.abs_opp. apply lookup_insert.
          * pose proof (h_nil _ _ _ Hh). lia.
          * lia.
          * rewrite Ehl, Hperm. apply elem_of_app. right. left.
          * intros x. rewrite Ehl, Hperm, elem_of_app, elem_of_list_singleton. intros [Hx|?] ?; [|done].
            by apply HL.
          * by rewrite Z.abs_opp, lvl_insert, Elen.
        + done.
      - intros j x y r w o Hj E Hwo Hww.
        apply elem_of_cons in Hww as [Hww|Hww].
        { left. left. cbn. rewrite Hww. left. }
        apply elem_of_app in Hj as [Hj|Hj].
        + rewrite Eold' in E by auto.
          assert (Hwws : - w ∈ s_trail s) by (rewrite Et; apply elem_of_app; by right).
          assert (Hwl : lvl (s_levels s) (Z.abs w) ≤ Z.of_nat b).
          { rewrite <-Z.abs_opp, <-Hlv by done. pose proof (tr_level _ _ _ _ T Hww). lia. }
          destruct (cf_w5 _ _ _ _ _ Cf j x y r w o) as [Hd|[Ho1 Ho2]]; try done.
          { unfold decision_level in Hd. lia. }
          right. assert (o ∈ tb) by (apply Htb; [done|lia]). split; [by right|].
          rewrite Hlvb by done. rewrite <-(Z.abs_opp w), Hlvb by done. by rewrite (Z.abs_opp w).
        + apply elem_of_list_singleton in Hj as ->. rewrite Ehl in E.
          destruct Hord as [[_ Eo]|(y' & r' & Eo & Hy & Hmax)]; [congruence|].
          rewrite Eo in E. injection E as <- <- <-. destruct Hwo as [[-> ->]|[-> ->]].
          { rewrite Z.opp_involutive in Hww. done. }
          right. split; [left|]. rewrite Z.abs_opp, lvl_insert, <-(Z.abs_opp y'), Hlvb, (Z.abs_opp y') by done.
          destruct Hbt as [->|(z & Hz & Ez)].
          { by destruct (Hlx y' Hy) as [_ ?]. }
          rewrite <-Ez. specialize (Hmax z Hz).
          change (lvl (s_levels s2) (Z.abs z) ≤ lvl (s_levels s2) (Z.abs y')) in Hmax.
          destruct (Hlx y' Hy) as [<- _]. by destruct (Hlx z Hz) as [<- _].
      - split; [cbn; lia|]. intros l ->%elem_of_list_singleton. split; [left|].
        by rewrite Z.abs_opp, lvl_insert, Elen. }
    assert (Elo3 : lits_of s3 n = ord) by exact Ehl.
    unfold add_clause_ref. rewrite Elo3.
    assert (Hh'' : s_heap s3 = h') by done.
    assert (Hlk : ∃ c', h' !! n = Some c' ∧ c_learned c' = true ∧ c_rule c' = None).
    { unfold h', relit. rewrite list_lookup_alter, Eh. unfold n. rewrite lookup_app_r, Nat.sub_diag by lia.
      cbn. eexists. split; [done|]. done. }
    destruct Hord as [[EL Eo]|(y & r & Eo & Hy & Hmax)]; rewrite Eo.
    - destruct (Hgen (s_watches s2) (push_clause n s3)) as (s' & Een & R & E1 & E2 & E3 & E4 & E5 & E6 & E7 & E8 & E9 & Eval).
      { unfold push_clause, s3. cbn. by rewrite Ec, Eq, El, Ett. }
      { rewrite Ew. eapply wat_add_unit; [apply (cf_wat _ _ _ _ _ Cf)|done|auto|]. by rewrite Ehl. }
      assert (Een' : ∃ s5, enqueue (- p) n s3 = Ok (true, s5) ∧ push_clause n s5 = s').
      { unfold enqueue in *. cbn in Een |- *. destruct (aset_value (s_asg s2) (- p)) eqn:Ev.
        - exfalso.
          assert (aset_value (s_asg s2) (- p) = None) as E0; [|congruence].
          apply (asg_none F Extra _ _ _ A). rewrite Z.opp_involutive. done.
        - 
          injection Een as <-. eexists. split; [done|]. done. }
      destruct Een' as (s5 & -> & Es5). rewrite res_bind_ok. cbn beta iota. rewrite res_bind_ok. cbn beta iota.
      rewrite Es5. unfold lits_of. rewrite E2. fold (hl h' n). rewrite Ehl, Eo. cbn [lookup list_lookup of_option].
      rewrite res_bind_ok. unfold enqueue at 1. rewrite Eval, res_bind_ok.
      exists s'. split; [done|]. rewrite E2.
      split; [done|]. split; [done|]. split; [done|]. split; [done|]. split; [done|]. done.
    - rewrite res_bind_ok. cbn beta iota.
      match goal with |- context [lits_of ?st n] => change (lits_of st n) with (hl h' n) end.
      rewrite Ehl, Eo. cbn [lookup list_lookup of_option]. rewrite res_bind_ok.
      edestruct Hgen as (s' & Een & R & E1 & E2 & E3 & E4 & E5 & E6 & E7 & E8 & E9 & Eval); cycle 2.
      { rewrite Een, res_bind_ok. exists s'. split; [done|]. rewrite E2.
        split; [done|]. split; [done|]. split; [done|]. split; [done|]. split; [done|]. done. }
      { unfold push_clause, push_watch, watch_list. cbn. rewrite Ec, Eq, El, Ett. reflexivity. }
      rewrite Ew, Z.opp_involutive.
      assert (Hny : - p ≠ y).
      { intros <-. apply HL in Hy as [Hy _]. by rewrite Z.opp_involutive in Hy. }
      pose proof (wat_add _ h' _ _ n (- p) y r (cf_wat _ _ _ _ _ Cf) Hninc) as W.
      rewrite Z.opp_involutive in W. apply W; auto. by rewrite Ehl.
  Qed.

  Lemma learn_spec c s : Conf c s → s_lims s ≠ [] →
    ∃ i bt s1 s2 s' b, analyze c s = Ok (i, bt, s1) ∧ decision_level s1 = decision_level s ∧
      cancel_until (Z.max bt 0) s1 = Ok s2 ∧ record i s2 = Ok (Normal s') ∧
      Ready s' ∧ Learned s s' i b.
  Proof.
    intros Cf Hne.
    destruct (analyze_spec F Extra D c s Cf) as (p & t1 & t & L & bt & ctr & s1 & Ea & Et & Ht1 & Hp & Sm & El &
      Et1 & A1 & Hlv1 & Hp1 & Hnd & Hent & HL & Hbt0 & Hbt & HT & Hctr).
    pose proof (cf_core _ _ _ _ _ Cf) as [Hh Hc T0 A0].
    set (n := length (s_heap s)) in *. set (cl := Clause (L ++ [- p]) true None) in *.
    set (s1' := set_ctrail n ctr (snd (alloc cl s1))) in *.
    set (b := Z.to_nat bt).
    assert (Hb : (b < length (s_lims s))%nat).
    { unfold b. destruct Hbt as [->|(x & Hx & <-)].
      - destruct (s_lims s); [done|cbn; lia].
      - destruct (HL x Hx) as (_ & Hlt & _). unfold decision_level in Hlt. lia. }
    assert (Eb : Z.max bt 0 = Z.of_nat b) by (unfold b; lia).
    assert (Hext : ∀ lims, TrOk (s_heap s) (s_levels s1) (s_reasons s) t lims →
                    TrOk (s_heap s1') (s_levels s1') (s_reasons s1') t lims).
    { intros lims T. cbn. rewrite (sm_heap _ _ Sm), (sm_rs _ _ Sm). eapply tr_ext; [done| | |done].
      - intros j x Hj. by rewrite hl_app.
      - rewrite app_length. lia. }
    destruct (cancel_until_spec F Extra D b s1') as (t3 & s2 & Ecu & Sm2 & El2 & Et2 & A2 & T2 & Hlv2 & Ht3).
    { cbn. by rewrite El. } { cbn. by rewrite Et1. }
    { unfold WTr. assert (s_trail s1' = t) as -> by exact Et1. assert (s_lims s1' = s_lims s) as -> by exact El.
      destruct HT as [T|(lims' & E & T)]; [left; by apply Hext|]. right. exists lims'. split; [done|]. by apply Hext. }
    cbn in Et2. rewrite Et1 in Et2. set (tb := s_trail s2) in *.
    assert (Etr : s_trail s = (t1 ++ p :: t3) ++ tb).
    { rewrite Et, Et2. rewrite <-(assoc_L (++)). done. }
    assert (Hdlb : Z.of_nat b < decision_level s) by (unfold decision_level; lia).
    assert (Hint : ∀ x, x ∈ tb → x ∈ t) by (intros; rewrite Et2; apply elem_of_app; by right).
    assert (Hint3 : ∀ x, x ∈ t3 → x ∈ t) by (intros; rewrite Et2; apply elem_of_app; by left).
    assert (Hlvs : ∀ x, x ∈ tb → lvl (s_levels s2) (Z.abs x) = lvl (s_levels s) (Z.abs x)).
    { intros x Hx. rewrite Hlv2 by done. cbn. apply Hlv1. auto. }
    assert (Hup : ∀ x, x ∈ t1 ++ p :: t3 → Z.of_nat b < lvl (s_levels s) (Z.abs x)).
    { intros x [Hx|[->|Hx]%elem_of_cons]%elem_of_app.
      - rewrite Ht1 by done. done.
      - by rewrite Hp.
      - rewrite <-Hlv1 by auto. by apply Ht3. }
    destruct (record_spec s s2 c p L b (s_lims s2) Cf (t1 ++ p :: t3) tb) as
      (s' & Er & R & E1 & E2 & E3 & E4 & E5 & E6 & E7 & E8 & E9 & E10 & E11); try done.
    { apply elem_of_app. right. left. }
    { rewrite (sm_heap _ _ Sm2). cbn. by rewrite (sm_heap _ _ Sm). }
    { rewrite (sm_cls _ _ Sm2). cbn. by rewrite (sm_cls _ _ Sm). }
    { rewrite (sm_wat _ _ Sm2). cbn. by rewrite (sm_wat _ _ Sm). }
    { rewrite (sm_queue _ _ Sm2). cbn. rewrite (sm_queue _ _ Sm). by apply (cf_queue _ _ _ _ _ Cf). }
    { destruct (sm_lv _ _ Sm2 (Z.abs p)) as [->|?]; [|done]. done. }
    { intros x Hx. destruct (HL x Hx) as (Hx1 & Hx2 & Hx3). 
      assert (Hle : lvl (s_levels s) (Z.abs x) ≤ Z.of_nat b) by (unfold b; lia). split; [|done].
      rewrite Et2 in Hx1. apply elem_of_app in Hx1 as [Hx1|?]; [|done].
      pose proof (Ht3 _ Hx1) as Hgt. cbn in Hgt. rewrite Hlv1, Z.abs_opp in Hgt by auto. lia. }
    { destruct Hbt as [->|(x & Hx & E)]; [by left|]. right. exists x. split; [done|]. unfold b. lia. }
    exists n, bt, s1', s2, s', b. split; [done|]. split; [unfold decision_level; cbn; by rewrite El|].
    split; [by rewrite Eb|]. split; [done|]. split; [done|].
    split; try done.
    - rewrite <-(sm_seen _ _ Sm). etrans; [|apply E5]. rewrite (sm_seen _ _ Sm2). done.
    - by rewrite E8.
    - exists ctr. rewrite E6, (sm_ctr _ _ Sm2). cbn. rewrite (sm_ctr _ _ Sm). split; [done|].
      intros j Hj. apply Hctr in Hj as [->|?]; [left|by right]. apply (cf_in _ _ _ _ _ Cf).
    - exists (Z.abs p). rewrite E7, (sm_rs _ _ Sm2). cbn. by rewrite (sm_rs _ _ Sm).
    - exists (- p), (t1 ++ p :: t3), tb. rewrite Z.abs_opp. done.
  Qed.

  (** ** assume *)
  Lemma assume_spec s v : Ready s → s_queue s = [] → v ∉ s_trail s → - v ∉ s_trail s → v ≠ 0 →
    univ (Z.abs v) → D (s_trail s) v →
    ∃ s', assume v s = Ok (true, s') ∧ Ready s' ∧ s_queue s' = [v] ∧ s_trail s' = v :: s_trail s ∧
      s_lims s' = length (s_trail s) :: s_lims s ∧ s_heap s' = s_heap s ∧ s_clauses s' = s_clauses s ∧
      s_ctrails s' = s_ctrails s ∧ s_reasons s' = <[Z.abs v := 0%nat]> (s_reasons s) ∧
      a_seen (s_asg s) ⊆ a_seen (s_asg s') ∧
      (∀ x, x ∈ s_trail s → lvl (s_levels s') (Z.abs x) = lvl (s_levels s) (Z.abs x)) ∧
      lvl (s_levels s') (Z.abs v) = Z.of_nat (S (length (s_lims s))).
  Proof.
    intros [[Hh Hc T A] W H5 Q] Eq H1 H2 Hnz Hu HD. unfold assume.
    destruct (enqueue_spec F Extra (set_lims (length (s_trail s) :: s_lims s) s) v 0) as (a' & -> & A' & Hs); try done.
    assert (Hlv : ∀ x n, x ∈ s_trail s → lvl (<[Z.abs v := n]> (s_levels s)) (Z.abs x) = lvl (s_levels s) (Z.abs x)).
    { intros x n Hx. rewrite lvl_insert_ne; [done|]. intros E. by eapply (abs_ne_in (s_trail s) v x). }
    eexists. split; [done|]. cbn in *. split; [split; cbn|].
    - split; cbn; [done| | |done].
      + destruct Hc as [? ? Hu']. split; try done. intros i l Hi El. destruct (Hu' i l Hi El) as [Hl ?].
        split; [by right|]. by rewrite Hlv.
      + apply tr_dec; try done.
        * eapply tr_ext; try done. intros l Hl. rewrite Hlv by done. split; [done|].
          rewrite lookup_insert_ne; [done|]. intros E. by eapply (abs_ne_in (s_trail s) v l).
        * by apply abs_fresh.
        * apply lookup_insert.
        * rewrite lvl_insert. done.
    - done.
    - intros i x y r w o Hi E Hwo Hw. rewrite Eq. apply elem_of_cons in Hw as [Hw|Hw].
      { left. left. cbn. rewrite Hw. left. }
      destruct (H5 i x y r w o) as [[Hq|[_ Hn]]|[Ho1 Ho2]]; try done.
      + rewrite Eq in Hq. by apply elem_of_nil in Hq.
      + by apply elem_of_nil in Hn.
      + right. split; [by right|]. rewrite <-(Z.abs_opp w), !Hlv by done. by rewrite (Z.abs_opp w).
    - rewrite Eq. split; [cbn; lia|]. intros l ->%elem_of_list_singleton. split; [left|].
      rewrite lvl_insert. done.
    - rewrite Eq. split; [done|]. split; [done|]. split; [done|]. split; [done|]. split; [done|].
      split; [done|]. split; [done|]. split; [rewrite Hs; set_solver|].
      split; [|by rewrite lvl_insert]. intros x Hx. by apply Hlv.
  Qed.
End record.
