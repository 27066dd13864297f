(** * Property C73: using a SAT solver object step by step, and again. *)
From Verif Require Import Reuse PolicyProofs SatDefs Report PropSat.

(** ** Any order of the set-up calls is fine, if the last one is [_setup_assignments]. *)
Section any_order.
  Context {P : Type} (pol : policy P) (PInv : P → Prop) (Extra : gset Z) (Dec : aset → Z → Prop).
  Context (R : list (list Z * option rule)).
  Let F := R.*1.
  Hypothesis Hwf : wf_cnf F.

  Lemma setup_spec dn s : SInv R Extra (D Dec) dn s →
    ∃ s', setup_assignments s = Ok s' ∧ SInv R Extra (D Dec) dn s' ∧
      (∀ v, is_var dn.*1 v → v ∈ a_seen (s_asg s')).
  Proof.
    intros [Rd El Hq Hh]. unfold setup_assignments. pose proof Rd as [[Ch Cc Ct Ca] W H5 Q].
    destruct (setup_fold R Extra (D Dec) (Z.abs <$> mjoin (clause_lits s)) (s_asg s) (s_trail s))
      as (a & -> & A & Hsub & Hin); [done| |].
    { intros v (l & -> & Hl)%elem_of_list_fmap. apply elem_of_list_join in Hl as (c & Hl & Hc).
      apply elem_of_list_fmap in Hc as (i & -> & Hi).
      change (lits_of s i) with (hl (s_heap s) i) in Hl. apply (h_var _ _ _ Ch) in Hl as [? ?].
      split; [lia|done]. }
    rewrite res_bind_ok. eexists. split; [done|]. split; [split|]; cbn.
    - split; cbn; try done.
    - done.
    - done.
    - eapply held_same; [done|done..|by left].
    - intros v (c & l & Hc & Hl & ->). apply Hin. apply elem_of_list_fmap. exists l. split; [done|].
      apply elem_of_list_fmap in Hc as ([c' r] & -> & Hc). cbn in Hl.
      destruct (he_all _ _ Hh c' r Hc) as (i & cl & Hi & E & _ & _ & Hx); [by intros ->; apply elem_of_nil in Hl|].
      apply elem_of_list_join. exists (lits_of s i). unfold lits_of. rewrite E. split; [by apply Hx|].
      apply elem_of_list_fmap. exists i. unfold lits_of. by rewrite E.
  Qed.

  Lemma calls_spec cs : ∀ dn s, SInv R Extra (D Dec) dn s → (∀ x, x ∈ added cs → x ∈ R) →
    (∃ s', sat_calls cs s = Ok (Normal s') ∧ SInv R Extra (D Dec) (dn ++ added cs) s') ∨
    (∃ i l s', sat_calls cs s = Ok (Unsat i l s') ∧ ¬ satisfiable (nonempty F)).
  Proof.
    induction cs as [|c cs IH]; intros dn s HS Hin; cbn [sat_calls].
    { left. exists s. by rewrite app_nil_r. }
    destruct c as [lits r|]; cbn [sat_call].
    - destruct (add_clause_spec R Extra (D Dec) dn s lits r HS) as [(s' & -> & HS')|(i & l & s' & -> & Hun & _)].
      + apply elem_of_list_fmap. exists (lits, r). split; [done|]. apply Hin. by left.
      + intros l Hl. eapply Hwf; [|exact Hl]. apply elem_of_list_fmap. exists (lits, r). split; [done|]. apply Hin. by left.
      + rewrite res_bind_ok. destruct (IH _ _ HS') as [(s2 & E & H2)|H2].
        * intros x Hx. apply Hin. by right.
        * left. exists s2. split; [done|]. by rewrite <- app_assoc in H2.
        * by right.
      + rewrite res_bind_ok. right. eauto 6.
    - destruct (setup_spec dn s HS) as (s' & -> & HS' & _). cbn.
      apply IH; [done|]. exact Hin.
  Qed.
End any_order.

Lemma do_calls_app cs ds s : sat_calls (cs ++ ds) s =
  (o ← sat_calls cs s; match o with Normal s' => sat_calls ds s' | Unsat a b s' => Ok (Unsat a b s') end).
Proof.
  revert s. induction cs as [|c cs IH]; intros s; cbn; [done|].
  destruct (sat_call c s) as [[s'|a b s']|e]; cbn; auto.
Qed.

Lemma added_app cs ds : added (cs ++ ds) = added cs ++ added ds.
Proof. unfold added. by rewrite omap_app. Qed.

Section any_order_main.
  Context {P : Type} (pol : policy P) (PInv : P → Prop) (Extra : gset Z) (Dec : aset → Z → Prop).
  Context (cs : list call).
  Let R := added cs.
  Hypothesis Hwf : wf_cnf R.*1.
  Hypothesis Hpol : good_policy R.*1 Extra Dec pol PInv.

  Lemma client_spec p : PInv p →
    ∃ N o, (∀ fuel, (N ≤ fuel)%nat → client pol fuel p (cs ++ [Setup]) = Ok o) ∧
      match o with
      | Normal a => ∃ s, Final R Extra Dec s ∧ a = aset_copy (s_asg s)
      | Unsat _ _ _ => ¬ satisfiable (nonempty R.*1)
      end.
  Proof.
    intros Hp. unfold client. rewrite do_calls_app.
    destruct (calls_spec Extra Dec R Hwf cs [] solver_new) as [(s & -> & HS)|(i & l & s & -> & Hun)];
      [apply solver_new_ok|done| |].
    - cbn in HS. destruct (setup_spec Extra Dec R _ _ HS) as (s' & Es & [Rd El Hq Hh] & Hseen).
      cbn. rewrite Es. cbn.
      assert (L : LInv PInv R Extra Dec p s') by (split; done).
      set (N := S (nvars R Extra + bound R Extra)). exists N.
      destruct (search_loop_spec pol PInv R Extra Dec Hpol N N) with (p := p) (s := s')
        as [(p' & s2 & E & Hfi)|(c & l & s2 & E & Hun & Huo)]; [unfold N; lia|done|unfold N; lia|..].
      + exists (Normal (aset_copy (s_asg s2))). split; [|eauto].
        intros fuel Hf. unfold search. replace (decision_level s') with 0 by (unfold decision_level; by rewrite El).
        erewrite search_loop_mono; [|exact E|exact Hf|]; [done|].
        intros q t r Hr. eapply search_step_mono; [exact Hr|done].
      + exists (Unsat c l s2). split; [|done].
        intros fuel Hf. unfold search. replace (decision_level s') with 0 by (unfold decision_level; by rewrite El).
        erewrite search_loop_mono; [|exact E|exact Hf|]; [done|].
        intros q t r Hr. eapply search_step_mono; [exact Hr|done].
    - exists 0%nat, (Unsat i l s). cbn. split; done.
  Qed.
End any_order_main.

(** The clauses are given one by one, [_setup_assignments] may be called in between: the search ends with a model of
    the clauses, or with SatisfiabilityError if there is none. *)
Theorem C73_any_order :
  ∀ {P} (pol : policy P) PInv Extra Dec cs p,
    wf_cnf (added cs).*1 → good_policy (added cs).*1 Extra Dec pol PInv → PInv p → [] ∉ (added cs).*1 →
    ∃ N, ∀ fuel, (N ≤ fuel)%nat →
      (∃ a, client pol fuel p (cs ++ [Setup]) = Ok (Normal a) ∧
        (∀ c, c ∈ (added cs).*1 → ∃ l, l ∈ c ∧ aset_value a l = Some true) ∧
        (∀ v, is_var (added cs).*1 v → ∃ b, aset_value a v = Some b)) ∨
      (¬ satisfiable (added cs).*1 ∧ ∃ c l s, client pol fuel p (cs ++ [Setup]) = Ok (Unsat c l s)).
Proof.
  intros P pol PInv Extra Dec cs p Hwf Hpol Hp Hne.
  destruct (client_spec pol PInv Extra Dec cs Hwf Hpol p Hp) as (N & [a|c l s] & HN & Ho); exists N; intros fuel Hf.
  - destruct Ho as (s & Hfi & ->). left. eexists. split; [by apply HN|]. split.
    + intros c Hc. destruct (final_clause _ _ _ s c Hfi Hc) as (l & Hl & Hv); [by intros ->|].
      exists l. split; [done|]. by rewrite <- Hv.
    + intros v Hv. destruct (final_value _ _ _ s v Hfi Hv) as [b Hb]. exists b. by rewrite <- Hb.
  - right. split; [|eexists _, _, _; by apply HN]. intros [f Hm]. apply Ho. exists f. by apply model_nonempty.
Qed.

(** ** Searching again *)
(** The state in which a search has found its solution: nothing is left to do. *)
Lemma found_state {P} (pol : policy P) pf n : ∀ root p s p' s',
  search_loop pol pf n root p s = Ok (Normal (p', s')) →
  s_queue s' = [] ∧ number_assigned s' = number_variables s'.
Proof.
  induction n as [|n IH]; intros root p s p' s' H; cbn [search_loop] in H; [done|].
  destruct (search_step pol pf root p s) as [[q t|q t|c l t]|e] eqn:E; cbn in H; try done; [by eapply IH|].
  injection H as -> ->. unfold search_step in E.
  destruct (propagate pf s) as [[[c|] s1]|] eqn:Ep; cbn in E; [|..|done].
  - destruct (analyze c s1) as [[[l bt] s2]|]; cbn in E; [|done].
    destruct (decide _); [done|]. destruct (cancel_until _ s2) as [s3|]; cbn in E; [|done].
    destruct (record l s3) as [[]|]; cbn in E; done.
  - destruct (decide _) as [Hn|]; cycle 1.
    { destruct (pol p _ _) as [[[v q] a]|]; cbn in E; [|done]. destruct (assume v _) as [[]|]; cbn in E; done. }
    injection E as -> ->. split; [|done].
    clear -Ep. revert s Ep. induction pf as [|pf IH]; intros s Ep; cbn [propagate] in Ep.
    + destruct (s_queue s) eqn:Eq; [|done]. by injection Ep as ->.
    + destruct (s_queue s) as [|l q] eqn:Eq; [by injection Ep as ->|].
      destruct (prop_watch _ _ _) as [[[c|] s2]|]; cbn in Ep; [done| |done]. by eapply IH.
Qed.

Lemma search_done {P} (pol : policy P) fuel p s : (0 < fuel)%nat → s_queue s = [] →
  number_assigned s = number_variables s → search_obj pol fuel p s = Ok (Normal (p, s)).
Proof.
  intros Hf Hq Hn. unfold search_obj. destruct fuel as [|n]; [lia|]. cbn [search_loop]. unfold search_step.
  assert (propagate (S n) s = Ok (None, s)) as -> by (cbn [propagate]; by rewrite Hq).
  cbn. by rewrite decide_True by done.
Qed.

(** After a search that has returned a solution, [search] returns it again, with any policy, and changes neither the
    solver nor the policy. *)
Theorem C73_search_again :
  ∀ {P Q} (pol : policy P) (pol' : policy Q) fuel fuel' p p' q s s',
    search_obj pol fuel p s = Ok (Normal (p', s')) → (0 < fuel')%nat →
    search_obj pol' fuel' q s' = Ok (Normal (q, s')).
Proof.
  intros P Q pol pol' fuel fuel' p p' q s s' H Hf. apply found_state in H as [Hq Hn]. by apply search_done.
Qed.

(** ** Adding a clause after a solution *)
(** A clause with at least two different literals is not looked at: the same solution is returned, even if it violates
    the clause. *)
Theorem C73_late_clause :
  ∀ {P Q} (pol : policy P) (pol' : policy Q) fuel fuel' p p' q s s' lits r,
    search_obj pol fuel p s = Ok (Normal (p', s')) → (0 < fuel')%nat →
    (∃ x y, x ∈ lits ∧ y ∈ lits ∧ x ≠ y) →
    ∃ s2, add_clause lits r s' = Ok (Normal s2) ∧
      search_obj pol' fuel' q s2 = Ok (Normal (q, s2)) ∧ answer s2 = answer s'.
Proof.
  intros P Q pol pol' fuel fuel' p p' q s s' lits r H Hf (x & y & Hx & Hy & Hne). apply found_state in H as [Hq Hn].
  unfold add_clause. cbn [alloc]. unfold add_clause_ref, lits_of. cbn [s_heap].
  rewrite lookup_app_r, Nat.sub_diag by lia. cbn.
  assert (Hx' : x ∈ fromkeys lits) by by apply elem_of_fromkeys.
  assert (Hy' : y ∈ fromkeys lits) by by apply elem_of_fromkeys.
  destruct (fromkeys lits) as [|u [|w l]] eqn:E; [by apply elem_of_nil in Hx'| |].
  { apply elem_of_list_singleton in Hx'. apply elem_of_list_singleton in Hy'. congruence. }
  eexists. split; [reflexivity|]. split; [|done]. apply search_done; done.
Qed.

(** A clause of one literal is compared with the solution found before: if the literal is false in it,
    SatisfiabilityError is raised, otherwise nothing changes. *)
Theorem C73_late_unit :
  ∀ {P Q} (pol : policy P) (pol' : policy Q) fuel fuel' p p' q s s' l b r,
    search_obj pol fuel p s = Ok (Normal (p', s')) → (0 < fuel')%nat →
    aset_value (answer s') l = Some b →
    if b then ∃ s2, add_clause [l] r s' = Ok (Normal s2) ∧
                search_obj pol' fuel' q s2 = Ok (Normal (q, s2)) ∧ answer s2 = answer s'
    else ∃ c n s2, add_clause [l] r s' = Ok (Unsat c n s2).
Proof.
  intros P Q pol pol' fuel fuel' p p' q s s' l b r H Hf Hv. apply found_state in H as [Hq Hn].
  unfold add_clause. cbn [alloc]. unfold add_clause_ref, lits_of. cbn [s_heap].
  rewrite lookup_app_r, Nat.sub_diag by lia. cbn [lookup list_lookup mk_clause c_lits].
  assert (fromkeys [l] = [l]) as -> by done. unfold enqueue. cbn [s_asg].
  change (aset_value (s_asg s') l = Some b) in Hv. rewrite Hv. cbn [mbind res_bind].
  destruct b; cbn.
  - eexists. split; [reflexivity|]. split; [|done]. apply search_done; done.
  - eauto.
Qed.

(** ** Without [_setup_assignments] *)
(** Nothing is known to be undecided, so that [search] answers with the empty assignment. *)
Theorem C73_no_setup :
  ∀ {P} (pol : policy P) fuel p cs, (0 < fuel)%nat →
    (∀ c, c ∈ (added cs).*1 → ∃ x y, x ∈ c ∧ y ∈ c ∧ x ≠ y) → Setup ∉ cs →
    client pol fuel p cs = Ok (Normal aset_empty).
Proof.
  intros P pol fuel p cs Hf Hc Hs.
  assert (H : ∃ s, sat_calls cs solver_new = Ok (Normal s) ∧ s_queue s = [] ∧ s_asg s = aset_empty).
  { assert (Hq : s_queue solver_new = []) by done. assert (Ha : s_asg solver_new = aset_empty) by done.
    revert Hq Ha. generalize solver_new. induction cs as [|c cs IH]; intros s Hq Ha; cbn [sat_calls]; [eauto|].
    destruct c as [lits r|]; [|exfalso; apply Hs; by left]. cbn [sat_call].
    assert (∃ s2, add_clause lits r s = Ok (Normal s2) ∧ s_queue s2 = [] ∧ s_asg s2 = aset_empty) as (s2 & -> & Hq2 & Ha2).
    { destruct (Hc lits) as (x & y & Hx & Hy & Hne); [by left|].
      unfold add_clause. cbn [alloc]. unfold add_clause_ref, lits_of. cbn [s_heap].
      rewrite lookup_app_r, Nat.sub_diag by lia. cbn.
      assert (Hx' : x ∈ fromkeys lits) by by apply elem_of_fromkeys.
      assert (Hy' : y ∈ fromkeys lits) by by apply elem_of_fromkeys.
      destruct (fromkeys lits) as [|u [|w l]] eqn:E; [by apply elem_of_nil in Hx'| |].
      { apply elem_of_list_singleton in Hx'. apply elem_of_list_singleton in Hy'. congruence. }
      eauto. }
    cbn. apply IH; try done.
    - intros c Hin. apply Hc. by right.
    - intros Hin. apply Hs. by right. }
  destruct H as (s & E & Hq & Ha). unfold client. rewrite E. cbn. unfold search.
  pose proof (search_done pol fuel p s Hf Hq) as HS. unfold search_obj in HS. rewrite HS.
  - cbn. by rewrite Ha.
  - unfold number_assigned, number_variables. by rewrite Ha.
Qed.

(** ** Refutations: what one would expect of a solver object that is used again *)
Definition prepare (cs : list call) : res (out solver) := sat_calls (cs ++ [Setup]) solver_new.
Definition C (l : list Z) : call := AddClause l None.

(** One would expect every answer to satisfy the clauses added so far (if they have a model). *)
Theorem C73_wrong_answer_refuted :
  ∃ s s1 p1 s2 s3 p2 s4,
    prepare [C [1; 2]] = Ok (Normal s) ∧
    search_obj default_policy 10 () s = Ok (Normal (p1, s1)) ∧
    sat_calls [C [-1; -2]; Setup] s1 = Ok (Normal s2) ∧
    search_obj default_policy 10 () s2 = Ok (Normal (p2, s3)) ∧ s4 = answer s3 ∧
    satisfiable [[1; 2]; [-1; -2]] ∧
    aset_value s4 1 = Some true ∧ aset_value s4 2 = Some true.
Proof.
  do 7 eexists. split; [vm_compute; reflexivity|]. split; [vm_compute; reflexivity|].
  split; [vm_compute; reflexivity|]. split; [vm_compute; reflexivity|]. split; [reflexivity|].
  split; [|split; vm_compute; reflexivity].
  exists (λ v, (v =? 1)%Z). intros c Hc. repeat apply elem_of_cons in Hc as [->|Hc]; [..|by apply elem_of_nil in Hc].
  - exists 1. split; [left|done].
  - exists (-2). split; [right; left|done].
Qed.

(** One would expect SatisfiabilityError only if the clauses added so far have no model. *)
Theorem C73_unsat_refuted :
  ∃ s s1 p1 c l s2,
    prepare [C [1; 2]] = Ok (Normal s) ∧
    search_obj default_policy 10 () s = Ok (Normal (p1, s1)) ∧
    sat_calls [C [-1]] s1 = Ok (Unsat c l s2) ∧
    satisfiable [[1; 2]; [-1]].
Proof.
  do 6 eexists. split; [vm_compute; reflexivity|]. split; [vm_compute; reflexivity|].
  split; [vm_compute; reflexivity|].
  exists (λ v, (v =? 2)%Z). intros c Hc. repeat apply elem_of_cons in Hc as [->|Hc]; [..|by apply elem_of_nil in Hc].
  - exists 2. split; [right; left|done].
  - exists (-1). split; [left|done].
Qed.

(** One would expect a search below an assumption that contradicts the clauses to raise SatisfiabilityError: making
    the explanation fails an assertion. *)
Theorem C73_assume_refuted :
  ∃ s s1 c l s2, prepare [C [1]; C [-1; -2]; C [-3; 2]] = Ok (Normal s) ∧
    assume 3 s = Ok (true, s1) ∧
    search_obj default_policy 10 () s1 = Ok (Unsat c l s2) ∧
    (∀ ord, unsat_report ord s2 c l = Raise AssertionError) ∧
    ¬ satisfiable [[1]; [-1; -2]; [-3; 2]; [3]].
Proof.
  do 5 eexists. split; [vm_compute; reflexivity|]. split; [vm_compute; reflexivity|].
  split; [vm_compute; reflexivity|]. split; [intros ord; vm_compute; reflexivity|].
  intros [f H].
  destruct (H [1]) as (x & Hx & H1); [left|]. apply elem_of_list_singleton in Hx as ->.
  destruct (H [3]) as (x & Hx & H3); [do 3 right; left|]. apply elem_of_list_singleton in Hx as ->.
  destruct (H [-1; -2]) as (x & Hx & H2); [right; left|].
  destruct (H [-3; 2]) as (y & Hy & H4); [do 2 right; left|].
  repeat apply elem_of_cons in Hx as [->|Hx]; [..|by apply elem_of_nil in Hx];
  (repeat apply elem_of_cons in Hy as [->|Hy]; [..|by apply elem_of_nil in Hy]); vm_compute in H1, H2, H3, H4; congruence.
Qed.

(** ** Non-vacuity *)
Definition ex_calls : list call :=
  [C [1; 2; 3]; Setup; C [-1; 2]; C [-2; 3]; Setup; C [-3; 1; -4]; C [4; -1]].
Theorem C73_example : wf_cnf (added ex_calls).*1 ∧ [] ∉ (added ex_calls).*1 ∧
  good_policy (added ex_calls).*1 ∅ (λ _ v, 0 < v) default_policy (λ _, True) ∧
  (added ex_calls).*1 = ex_rules.*1 ∧
  ∃ a, client default_policy 10 () (ex_calls ++ [Setup]) = Ok (Normal a) ∧ aset_value a 3 = Some true.
Proof.
  split_and!.
  - exact ex_rules_wf.
  - vm_compute. intros H. repeat apply elem_of_cons in H as [H|H]; try done. by apply elem_of_nil in H.
  - apply default_policy_good. exact ex_rules_wf.
  - reflexivity.
  - eexists. split; [vm_compute; reflexivity|]. vm_compute. reflexivity.
Qed.

Print Assumptions C73_any_order. Print Assumptions C73_search_again. Print Assumptions C73_late_clause.
Print Assumptions C73_late_unit. Print Assumptions C73_no_setup. Print Assumptions C73_wrong_answer_refuted.
Print Assumptions C73_unsat_refuted. Print Assumptions C73_assume_refuted.
