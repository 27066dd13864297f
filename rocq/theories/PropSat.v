(** * Properties C01-C09 and C12: the SAT solver and its policies.

    The specification is SpecSat.v (models of clause sets) and [good_policy] (SatMain.v), which says
    what a decision policy is; C12 shows that the policies of the code base satisfy it. *)
From Verif Require Import PolicyProofs SatDefs.

(** A set of named rules, as from_rules takes it, and its clauses. *)
Notation rules_t := (list (list Z * option rule)).

Section results.
  Context {P : Type} (pol : policy P) (PInv : P → Prop) (Extra : gset Z) (Dec : aset → Z → Prop).
  Context (rules : rules_t).
  Hypothesis Hwf : wf_cnf rules.*1.
  Hypothesis Hpol : good_policy rules.*1 Extra Dec pol PInv.

  Lemma solve_result fuel p o : PInv p → solve_clauses pol fuel p rules = Ok o →
    match o with
    | Normal a => ∃ s, Final rules Extra Dec s ∧ a = aset_copy (s_asg s)
    | Unsat _ _ _ => ¬ satisfiable (nonempty rules.*1)
    end.
  Proof.
    intros Hp E. destruct (solve_clauses_spec pol PInv rules Extra Dec Hpol Hwf p Hp) as (N & o' & HN & Ho).
    assert (o' = o) as ->; [|destruct o; [done|apply Ho]].
    apply (solve_mono pol rules _ (max N fuel)) in E; [|lia]. rewrite HN in E by lia. by injection E.
  Qed.
End results.

(** ** C01: a returned solution satisfies every non-empty clause; hence, if no clause is empty, every
    valuation that agrees with it is a model. *)
Theorem C01_solution_is_model :
  ∀ {P} (pol : policy P) PInv Extra Dec (rules : rules_t) fuel p a,
    wf_cnf rules.*1 → good_policy rules.*1 Extra Dec pol PInv → PInv p →
    solve_clauses pol fuel p rules = Ok (Normal a) →
    (∀ c, c ∈ rules.*1 → c ≠ [] → ∃ l, l ∈ c ∧ aset_value a l = Some true) ∧
    (∀ f, [] ∉ rules.*1 → (∀ v b, aset_value a v = Some b → f v = b) → model f rules.*1).
Proof.
  intros P pol PInv Extra Dec rules fuel p a Hwf Hpol Hp E.
  destruct (solve_result pol PInv Extra Dec rules Hwf Hpol fuel p _ Hp E) as (s & Hf & ->).
  assert (H1 : ∀ c, c ∈ rules.*1 → c ≠ [] → ∃ l, l ∈ c ∧ aset_value (aset_copy (s_asg s)) l = Some true).
  { intros c Hc Hne. destruct (final_clause rules Extra Dec s c Hf Hc Hne) as (l & Hl & Hv). exists l. done. }
  split; [done|]. intros f Hn Hag c Hc.
  destruct (H1 c Hc) as (l & Hl & Hv); [by intros ->|]. exists l. split; [done|].
  pose proof (Hwf c l Hc Hl) as Hl0. unfold lit_true. case_decide; [by apply Hag|].
  apply Hag. change (aset_value (s_asg s) (- l) = Some false). change (aset_value (s_asg s) l = Some true) in Hv.
  rewrite value_neg; [by rewrite Hv|].
  apply (ao_wf _ _ _ _ (co_asg _ _ _ _ _ _ _ _ _ _ (iv_core _ _ _ _ _ _ (fi_ready _ _ _ _ Hf)))).
Qed.

(** ** C02: SatisfiabilityError means that the clauses have no model. *)
Theorem C02_unsat_is_sound :
  ∀ {P} (pol : policy P) PInv Extra Dec (rules : rules_t) fuel p conflict learned s,
    wf_cnf rules.*1 → good_policy rules.*1 Extra Dec pol PInv → PInv p →
    solve_clauses pol fuel p rules = Ok (Unsat conflict learned s) →
    ¬ satisfiable rules.*1.
Proof.
  intros P pol PInv Extra Dec rules fuel p c l s Hwf Hpol Hp E.
  intros [f Hf]. apply (solve_result pol PInv Extra Dec rules Hwf Hpol fuel p _ Hp E).
  exists f. by apply model_nonempty.
Qed.

(** ** C03: search terminates, with one of the two outcomes and no other exception. *)
Theorem C03_terminates :
  ∀ {P} (pol : policy P) PInv Extra Dec (rules : rules_t) p,
    wf_cnf rules.*1 → good_policy rules.*1 Extra Dec pol PInv → PInv p →
    ∃ N o, ∀ fuel, (N ≤ fuel)%nat → solve_clauses pol fuel p rules = Ok o.
Proof.
  intros P pol PInv Extra Dec rules p Hwf Hpol Hp.
  destruct (solve_clauses_spec pol PInv rules Extra Dec Hpol Hwf p Hp) as (N & o & HN & _). eauto.
Qed.

(** How long it takes: with [n] variables (of the clauses, or known to the policy) the search ends after less than 2^(n+1) rounds, each of which
    is a conflict, a decision or the last; and a round propagates at most [n] literals. *)
Theorem C03_bound :
  ∀ {P} (pol : policy P) PInv Extra Dec (rules : rules_t) p s (V : gset Z),
    wf_cnf rules.*1 → good_policy rules.*1 Extra Dec pol PInv → PInv p →
    (∀ v, v ∈ V ↔ is_var rules.*1 v ∨ v ∈ Extra) → from_clauses rules = Ok (Normal s) →
    ∃ o, search_loop pol (size V) (2 ^ (size V + 1) - 1) (decision_level s) p s = Ok o.
Proof.
  intros P pol PInv Extra Dec rules p s V Hwf Hpol Hp HV E.
  assert (V = SatAnalyze.uset rules.*1 Extra) as ->.
  { apply set_eq. intros v. rewrite HV. apply univ_uset. }
  rewrite Nat.add_1_r. by eapply rounds_bound.
Qed.

(** With C01 and C02: the solver decides satisfiability (clauses without the empty clause). *)
Theorem C03_decides :
  ∀ {P} (pol : policy P) PInv Extra Dec (rules : rules_t) p,
    wf_cnf rules.*1 → good_policy rules.*1 Extra Dec pol PInv → PInv p → [] ∉ rules.*1 →
    ∃ N, ∀ fuel, (N ≤ fuel)%nat →
      (satisfiable rules.*1 ∧ ∃ a, solve_clauses pol fuel p rules = Ok (Normal a)) ∨
      (¬ satisfiable rules.*1 ∧ ∃ c l s, solve_clauses pol fuel p rules = Ok (Unsat c l s)).
Proof.
  intros P pol PInv Extra Dec rules p Hwf Hpol Hp Hne.
  destruct (solve_clauses_spec pol PInv rules Extra Dec Hpol Hwf p Hp) as (N & o & HN & Ho).
  exists N. intros fuel Hf. specialize (HN fuel Hf). destruct o as [a|c l s].
  - left. split; [|eauto].
    destruct (C01_solution_is_model pol PInv Extra Dec rules fuel p a Hwf Hpol Hp HN) as [_ Hm].
    exists (λ v, bool_decide (aset_value a v = Some true)). apply Hm; [done|].
    intros v [] Hv; rewrite Hv; done.
  - right. split; [|eauto]. intros [f Hfm]. apply (proj1 Ho). exists f. by apply model_nonempty.
Qed.

(** ** C04: the solution is total on the variables of the clauses, and consistent. *)
Theorem C04_total_consistent :
  ∀ {P} (pol : policy P) PInv Extra Dec (rules : rules_t) fuel p a,
    wf_cnf rules.*1 → good_policy rules.*1 Extra Dec pol PInv → PInv p →
    solve_clauses pol fuel p rules = Ok (Normal a) →
    (∀ v, is_var rules.*1 v → ∃ b, aset_value a v = Some b) ∧
    (∀ l, aset_value a (- l) = negb <$> aset_value a l) ∧
    a_assigned a = a_seen a.
Proof.
  intros P pol PInv Extra Dec rules fuel p a Hwf Hpol Hp E.
  destruct (solve_result pol PInv Extra Dec rules Hwf Hpol fuel p _ Hp E) as (s & Hf & ->).
  split; [|split].
  - intros v Hv. destruct (final_value rules Extra Dec s v Hf Hv) as [b Hb]. by exists b.
  - intros l. apply (value_neg (s_asg s)).
    apply (ao_wf _ _ _ _ (co_asg _ _ _ _ _ _ _ _ _ _ (iv_core _ _ _ _ _ _ (fi_ready _ _ _ _ Hf)))).
  - apply (fi_total _ _ _ _ Hf).
Qed.

(** ** C05: at every point of the search the held clauses are consequences of the added ones, and every
    (non-empty) added clause is held with its original set of literals.  The points are: the loop
    head, after propagation, after conflict analysis, after backtracking (recording then leads to
    the next loop head). *)
Theorem C05_problem_unchanged :
  ∀ {P} (pol : policy P) PInv Extra Dec (rules : rules_t) p0,
    wf_cnf rules.*1 → good_policy rules.*1 Extra Dec pol PInv → PInv p0 →
    ∃ N, ∀ pf p s, (N ≤ pf)%nat → reach pol pf rules p0 p s →
      keeps_problem rules.*1 s ∧
      ∀ o s1, propagate pf s = Ok (o, s1) → keeps_problem rules.*1 s1 ∧
        ∀ c i bt s2, o = Some c → analyze c s1 = Ok (i, bt, s2) → keeps_problem rules.*1 s2 ∧
          ∀ k s3, cancel_until k s2 = Ok s3 → keeps_problem rules.*1 s3.
Proof.
  intros P pol PInv Extra Dec rules p0 Hwf Hpol Hp. exists (nvars rules Extra).
  intros pf p s Hpf Hr. by eapply (visited_keeps pol PInv rules Extra Dec Hpol Hwf).
Qed.

(** ** C06: if the policy follows the priority list [L] (always proposes the first undecided element of
    [L], if any), the solution is lexicographically greatest on [L]: a model that makes true
    whatever the solution makes true before position [u] cannot make [u] true if the solution does
    not.  In particular no model agrees with it before [u] and differs by having [u] true. *)
Theorem C06_lexicographic :
  ∀ {P} (pol : policy P) PInv Extra (L : list Z) (rules : rules_t) fuel p a,
    wf_cnf rules.*1 → good_policy rules.*1 Extra (follows L) pol PInv → PInv p →
    solve_clauses pol fuel p rules = Ok (Normal a) →
    ∀ l1 u l2 g, L = l1 ++ u :: l2 → 0 < u → model g rules.*1 →
      (∀ x, x ∈ l1 → aset_value a x = Some true → g x = true) →
      aset_value a u = Some false → g u = false.
Proof.
  intros P pol PInv Extra L rules fuel p a Hwf Hpol Hp E.
  destruct (solve_result pol PInv Extra (follows L) rules Hwf Hpol fuel p _ Hp E) as (s & Hf & ->).
  intros l1 u l2 g ?? Hg%model_nonempty. by apply (lex_optimal rules Extra L s l1 u l2 g).
Qed.

(** The same for any priorities: if every proposal made while [u] is undecided is [u] itself or has
    priority over it ([B]), a model that makes true whatever the solution makes true in [B]
    cannot make [u] true if the solution does not. *)
Theorem C06_priorities :
  ∀ {P} (pol : policy P) PInv Extra Dec (B : Z → Prop) u (rules : rules_t) fuel p a g,
    wf_cnf rules.*1 → good_policy rules.*1 Extra Dec pol PInv → PInv p →
    solve_clauses pol fuel p rules = Ok (Normal a) →
    (∀ a v, Dec a v → u ∉ a_assigned a → 0 < v ∧ (B v ∨ v = u)) →
    0 < u → model g rules.*1 →
    (∀ x, B x → aset_value a x = Some true → g x = true) →
    aset_value a u = Some false → g u = false.
Proof.
  intros P pol PInv Extra Dec B u rules fuel p a g Hwf Hpol Hp E HB Hu Hg Hag Hf.
  destruct (solve_result pol PInv Extra Dec rules Hwf Hpol fuel p _ Hp E) as (s & Hfi & ->).
  by apply (prio_optimal rules Extra Dec s B u g Hfi Hu HB (model_nonempty _ _ Hg)).
Qed.

(** Corollary: if some model makes all of [L] true, so does the solution. *)
Theorem C06_all_preferred :
  ∀ {P} (pol : policy P) PInv Extra (L : list Z) (rules : rules_t) fuel p a g,
    wf_cnf rules.*1 → good_policy rules.*1 Extra (follows L) pol PInv → PInv p →
    solve_clauses pol fuel p rules = Ok (Normal a) →
    model g rules.*1 → (∀ x, x ∈ L → 0 < x ∧ g x = true) →
    ∀ x, x ∈ L → aset_value a x ≠ Some false.
Proof.
  intros P pol PInv Extra L rules fuel p a g Hwf Hpol Hp E Hg HL x Hx Hf.
  apply elem_of_list_split in Hx as (l1 & l2 & EL).
  destruct (HL x) as [Hx0 Hgx]; [rewrite EL; apply elem_of_app; right; left|].
  rewrite (C06_lexicographic pol PInv Extra L rules fuel p a Hwf Hpol Hp E l1 x l2 g) in Hgx; try done.
  intros y Hy _. apply HL. rewrite EL. apply elem_of_app. by left.
Qed.

(** ** C07 (refuted): an added empty clause is ignored by search.  In general the solver decides the
    satisfiability of the problem without its empty clauses. *)
Theorem C07_empty_ignored :
  ∀ {P} (pol : policy P) PInv Extra Dec (rules : rules_t) p,
    wf_cnf rules.*1 → good_policy rules.*1 Extra Dec pol PInv → PInv p →
    ∃ N, ∀ fuel, (N ≤ fuel)%nat →
      (∃ a, solve_clauses pol fuel p rules = Ok (Normal a) ∧
         ∀ f : valuation, (∀ v b, aset_value a v = Some b → f v = b) → ∀ c, c ∈ rules.*1 → c ≠ [] → clause_true f c) ∨
      (¬ (∃ f, ∀ c, c ∈ rules.*1 → c ≠ [] → clause_true f c) ∧
         ∃ c l s, solve_clauses pol fuel p rules = Ok (Unsat c l s)).
Proof.
  intros P pol PInv Extra Dec rules p Hwf Hpol Hp.
  destruct (solve_clauses_spec pol PInv rules Extra Dec Hpol Hwf p Hp) as (N & o & HN & Ho).
  exists N. intros fuel Hf. specialize (HN fuel Hf). destruct o as [a|c l s].
  - left. exists a. split; [done|]. intros f Hag c Hc Hne.
    destruct (C01_solution_is_model pol PInv Extra Dec rules fuel p a Hwf Hpol Hp HN) as [Hm _].
    destruct (C04_total_consistent pol PInv Extra Dec rules fuel p a Hwf Hpol Hp HN) as (_ & Hneg & _).
    destruct (Hm c Hc Hne) as (l & Hl & Hv). exists l. split; [done|].
    pose proof (Hwf c l Hc Hl) as Hl0. unfold lit_true. case_decide; [by apply Hag|].
    apply Hag. by rewrite Hneg, Hv.
  - right. split; [|eauto]. intros [f Hfm]. apply (proj1 Ho). exists f.
    intros c' [Hc Hne]%elem_of_nonempty. by apply Hfm.
Qed.

Theorem C07_refuted :
  ∃ (rules : rules_t) a, [] ∈ rules.*1 ∧ ¬ satisfiable rules.*1 ∧
    solve_clauses default_policy 10 () rules = Ok (Normal a).
Proof.
  exists [([1], None); ([], None)]. eexists. split; [right; left|]. split; [|vm_compute; reflexivity].
  intros [f Hf]. destruct (Hf []) as (l & Hl & _); [right; left|]. by apply elem_of_nil in Hl.
Qed.

(** ** C08 (refuted): is_satisfiable answers True for every rules. *)
Theorem C08_always_true :
  ∀ {P} (pol : policy P) p fuel rules, (0 < fuel)%nat →
    is_satisfiable pol p fuel rules = Ok true.
Proof. intros P pol p [|fuel] rules H; [lia|]. done. Qed.
Theorem C08_refuted :
  ∃ rules : rules_t, ¬ satisfiable rules.*1 ∧ is_satisfiable default_policy () 1 rules = Ok true.
Proof.
  exists [([1], None); ([-1], None)]. split; [|by apply C08_always_true; lia].
  intros [f Hf]. destruct (Hf [1]) as (l & Hl & Ht); [left|]. destruct (Hf [-1]) as (l' & Hl' & Ht'); [right; left|].
  apply elem_of_list_singleton in Hl as ->. apply elem_of_list_singleton in Hl' as ->.
  unfold lit_true in *. rewrite decide_True in Ht by lia. rewrite decide_False in Ht' by lia.
  change (- -1) with 1 in Ht'. congruence.
Qed.

(** ** C09: validate checks that every held clause has a literal made true by the map (a variable that
    is mapped to None counts as false). *)
Definition made_true (m : list (Z * option bool)) (l : Z) : Prop :=
  (l, Some true) ∈ m ∨ (- l, Some false) ∈ m ∨ (- l, None) ∈ m.
Theorem C09_validate :
  ∀ s m, validate s m = true ↔ ∀ i, i ∈ s_clauses s → ∃ l, l ∈ lits_of s i ∧ made_true m l.
Proof.
  intros s m. unfold validate. rewrite negb_true_iff, <-not_true_iff_false, existsb_exists.
  assert (Hsl : ∀ l, l ∈ solution_literals m ↔ made_true m l).
  { intros l. unfold solution_literals, made_true. rewrite elem_of_list_fmap. split.
    - intros ([k [[]|]] & -> & Hk); cbn; rewrite ?Z.opp_involutive; auto.
    - intros [H|[H|H]]; eexists; (split; [|exact H]); cbn; lia. }
  split.
  - intros H i Hi.
    destruct (decide (Exists (λ l, l ∈ solution_literals m) (lits_of s i))) as [He|He].
    + apply Exists_exists in He as (l & Hl & Hs). exists l. split; [done|]. by apply Hsl.
    + exfalso. apply H. exists i. split; [by apply elem_of_list_In|]. apply forallb_forall.
      intros l Hl%elem_of_list_In. apply negb_true_iff, bool_decide_eq_false. intros Hs. apply He.
      apply Exists_exists. eauto.
  - intros H (i & Hi%elem_of_list_In & Hall). rewrite forallb_forall in Hall.
    destruct (H i Hi) as (l & Hl & Hm). specialize (Hall l (proj1 (elem_of_list_In _ _) Hl)).
    apply negb_true_iff, bool_decide_eq_false in Hall. by apply Hall, Hsl.
Qed.

(** ** C12: the policies propose undecided known variables, whatever the iteration order of sets. *)
Theorem C12_default_policy : ∀ F Extra, wf_cnf F →
  good_policy F Extra (λ _ v, 0 < v) default_policy (λ _, True).
Proof. exact default_policy_good. Qed.
Theorem C12_undetermined_clause_policy : ∀ env F Extra Q, wf_cnf F → uc_env_ok env F Extra Q →
  good_policy F Extra (λ a v, 0 < v ∧ uc_follows env Q a v) (uc_policy env) (uc_inv F Extra Q).
Proof.
  intros env F Extra Q Hwf He. eapply good_policy_weaken; [|by apply uc_policy_good].
  intros a v [[? ?] ?]. split; [done|]. done.
Qed.
Theorem C12_logged_policy : ∀ env F Extra Q, wf_cnf F → uc_env_ok env F Extra Q →
  good_policy F Extra (λ a v, 0 < v ∧ uc_follows env Q a v)
    (logged_policy (uc_policy env)) (λ p, uc_inv F Extra Q p.1.1).
Proof.
  intros env F Extra Q Hwf He. apply logged_policy_good; [|by apply C12_undetermined_clause_policy].
  intros a a' v _ _ E [Hv [[H1 H2] [H3 H6]]]. split; [done|]. split; [|split].
  - split; [done|]. by rewrite <-E.
  - intros qs Hq Hs. destruct (H3 qs Hq Hs) as [H4 H5]. split; [done|]. by rewrite <-E.
  - intros u. rewrite <-E. apply H6.
Qed.

(** ** Non-vacuity *)
Definition ex_rules : rules_t :=
  [([1; 2; 3], None); ([-1; 2], None); ([-2; 3], None); ([-3; 1; -4], None); ([4; -1], None)].
Example ex_rules_wf : wf_cnf ex_rules.*1.
Proof.
  assert (Forall (Forall (λ l, l ≠ 0)) ex_rules.*1) as H by (repeat constructor; lia).
  intros c l Hc Hl. rewrite Forall_forall in H. specialize (H c Hc). rewrite Forall_forall in H. by apply H.
Qed.
Example ex_rules_sat : ∃ a, solve_clauses default_policy 10 () ex_rules = Ok (Normal a) ∧
  aset_value a 3 = Some true.
Proof. eexists. split; [vm_compute; reflexivity|vm_compute; reflexivity]. Qed.
(* needs a conflict, learning and backtracking before it fails *)
Definition ex_unsat : rules_t :=
  [([1; 2], None); ([1; -2], None); ([-1; 3], None); ([-1; -3], None)].
Example ex_unsat_unsat : ∃ c l s, solve_clauses default_policy 10 () ex_unsat = Ok (Unsat c l s).
Proof. eexists _, _, _. vm_compute. reflexivity. Qed.
Example ex_policy : good_policy ex_rules.*1 ∅ (λ _ v, 0 < v) default_policy (λ _, True).
Proof. apply C12_default_policy, ex_rules_wf. Qed.
Definition ex_env : uc_env := UcEnv (λ v, Some (V v 0)) (λ _ X, elements X) [3; 1].
Example ex_env_ok : uc_env_ok ex_env ex_rules.*1 {[1; 2; 3; 4]} {[2; 4]}.
Proof.
  split.
  - intros. cbn. eauto.
  - done.
  - intros v. cbn. set_solver.
  - intros v. set_solver by lia.
Qed.
Example ex_env_solves : ∃ a, solve_clauses (uc_policy ex_env) 20 (uc_add_requirements [2; 4] uc_new) ex_rules
  = Ok (Normal a) ∧ aset_value a 3 = Some true ∧ aset_value a 1 = Some true.
Proof. eexists. split; [vm_compute; reflexivity|]. split; vm_compute; reflexivity. Qed.
Example ex_uc_inv : uc_inv ex_rules.*1 {[1; 2; 3; 4]} {[2; 4]} (uc_add_requirements [2; 4] uc_new).
Proof. split; [set_solver|]. intros v Hv. cbn in Hv. set_solver. Qed.
(* lexicographic choice: 3 and 1 before 2 *)
Example ex_follows : good_policy ex_rules.*1 {[1; 2; 3; 4]} (follows [3; 1]) (uc_policy ex_env)
  (uc_inv ex_rules.*1 {[1; 2; 3; 4]} {[2; 4]}).
Proof.
  eapply good_policy_weaken; [|apply C12_undetermined_clause_policy; [apply ex_rules_wf|apply ex_env_ok]].
  intros a v [_ [H _]]. exact H.
Qed.

Print Assumptions C01_solution_is_model.
Print Assumptions C02_unsat_is_sound.
Print Assumptions C03_terminates.
Print Assumptions C03_bound.
Print Assumptions C03_decides.
Print Assumptions C04_total_consistent.
Print Assumptions C05_problem_unchanged.
Print Assumptions C06_lexicographic.
Print Assumptions C06_priorities.
Print Assumptions C06_all_preferred.
Print Assumptions C07_refuted.
Print Assumptions C08_always_true.
Print Assumptions C08_refuted.
Print Assumptions C09_validate.
Print Assumptions C12_default_policy.
Print Assumptions C12_undetermined_clause_policy.
Print Assumptions C12_logged_policy.
