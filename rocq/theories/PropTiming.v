(** * Property C94: what the timers of a solver say. *)
From Coq Require Import Ascii String.
From Verif Require Import Timing PropSolve SpecCheck PropLimits.
Local Open Scope string_scope.
Local Open Scope list_scope.
Local Arguments search : simpl never.
Local Arguments from_rules : simpl never.
Local Arguments create_rules : simpl never.

(** ** One timer *)
(** The answer of the body is passed on, an exception too; afterwards the timer says the time from the start to the end of the body, also when it raised, and whatever was
    measured before. *)
Theorem C94_with : ∀ {A} clock (r : res A) t n,
  with_timer clock (quiet r) t n = (Timer (t_description t) (Some (clock n)) (Some (clock (S n) - clock n)), S (S n), r).
Proof. done. Qed.
(** Used again inside its own body, it says the time since the inner start, twice: the outer start is forgotten. *)
Theorem C94_nested : ∀ {A} clock (r : res A) t n,
  with_timer clock (with_timer clock (quiet r)) t n =
  (Timer (t_description t) (Some (clock (S n))) (Some (clock (S (S (S n))) - clock (S n))), (n + 4)%nat, r).
Proof. intros A clock r t n. unfold with_timer, quiet, timer_enter, timer_exit. cbn. by replace (n + 4)%nat with (S (S (S (S n)))) by lia. Qed.
(** The message that it has not been run, which the code has for this case, is never printed: the text of a new timer gives its NaN. *)
Theorem C94_not_run_refuted : ∀ num d, timer_str num (timer_new d) = "ELAPSED : " +:+ d +:+ " : " +:+ num None.
Proof. done. Qed.

(** ** The timers of a solver *)
Inductive phase := PRules | PInit | PSolve.
Definition timer_of (T : timers) (ph : phase) : timer := match ph with PRules => tm_rules T | PInit => tm_init T | PSolve => tm_solve T end.
(** A call starts to make rules unless the request is refused at once; it makes a SAT solver once the rules are made; it searches once the solver is made without a contradiction. *)
Definition reaches (ph : phase) (c : solve_call) : Prop :=
  ∃ rq, convert_upgrade (sc_request c) (ds_remote (sc_solver c)) (ds_installed (sc_solver c)) = Ok rq ∧
  match ph with
  | PRules => True
  | PInit => ∃ x, create_rules (sc_env c) (solve_pool (ds_pool (sc_solver c)) rq) (ds_installed (sc_solver c)) (ds_strict (sc_solver c)) (sc_fuel c) rq = Ok x
  | PSolve => ∃ ids rules uenv ust s,
      create_rules (sc_env c) (solve_pool (ds_pool (sc_solver c)) rq) (ds_installed (sc_solver c)) (ds_strict (sc_solver c)) (sc_fuel c) rq = Ok (ids, rules, uenv, ust) ∧
      from_rules rules = Ok (Normal s)
  end.
Definition result (clock : nat → Z) (x : timers * nat) (c : solve_call) : res (out transaction) :=
  (solve_timed clock x.1 x.2 (sc_env c) (sc_solver c) (sc_fuel c) (sc_request c)).2.
(** The answer does not depend on the timers or the clock. *)
Theorem C94_answer : ∀ clock x c, result clock x c = solve (sc_env c) (sc_solver c) (sc_fuel c) (sc_request c).
Proof.
  intros clock [T n] [e ds fuel rq]. unfold result, solve_timed, solve. cbn.
  destruct (convert_upgrade rq (ds_remote ds) (ds_installed ds)) as [rq'|]; [|done]. cbn.
  destruct (create_rules _ _ _ _ _ _) as [[[[ids rules] uenv] ust]|]; [|done]. cbn.
  unfold solve_clauses, rule_clauses. change (from_clauses _) with (from_rules rules).
  destruct (from_rules rules) as [[s|c l s]|]; [|done..]. cbn.
  destruct (search _ fuel _ s) as [[a|c l s']|]; done.
Qed.
(** If a transaction is returned, everything was measured. *)
Theorem C94_all : ∀ c t ph, solve (sc_env c) (sc_solver c) (sc_fuel c) (sc_request c) = Ok (Normal t) → reaches ph c.
Proof.
  intros [e ds fuel rq] t ph. unfold solve, reaches. cbn.
  destruct (convert_upgrade rq (ds_remote ds) (ds_installed ds)) as [rq'|]; [|done]. cbn. intros H. exists rq'. split; [done|].
  destruct (create_rules _ _ _ _ _ _) as [[[[ids rules] uenv] ust]|] eqn:E; [|done]. cbn in H.
  unfold solve_clauses, rule_clauses in H. change (from_clauses _) with (from_rules rules) in H.
  destruct (from_rules rules) as [[s|c l s]|] eqn:E2; [|done..]. destruct ph; [done|eauto|]. exists ids, rules, uenv, ust, s. done.
Qed.
(** One call: a timer whose phase is not reached is as before; the others were read at two moments of the call. *)
Lemma one_call clock T n c : ∃ T' n', timed_call clock (T, n) c = (T', n') ∧ (n ≤ n')%nat ∧
  ∀ ph, (¬ reaches ph c ∧ timer_of T' ph = timer_of T ph) ∨
        (reaches ph c ∧ ∃ k, (n ≤ k)%nat ∧ (S k < n')%nat ∧ timer_of T' ph = Timer (t_description (timer_of T ph)) (Some (clock k)) (Some (clock (S k) - clock k))).
Proof.
  destruct c as [e ds fuel rq]. unfold timed_call, solve_timed, reaches. cbn.
  destruct (convert_upgrade rq (ds_remote ds) (ds_installed ds)) as [rq'|] eqn:E0; cbn.
  2:{ eexists _, _. split; [done|]. split; [done|]. intros ph. left. split; [naive_solver|done]. }
  destruct (create_rules e (solve_pool (ds_pool ds) rq') _ _ fuel rq') as [[[[ids rules] uenv] ust]|] eqn:E1; cbn.
  2:{ eexists _, _. split; [done|]. split; [lia|]. intros [].
      - right. split; [eauto|]. exists n. split_and!; [lia|lia|done].
      - left. split; [|done]. intros (? & [= <-] & y & Ey). congruence.
      - left. split; [|done]. intros (? & [= <-] & ? & ? & ? & ? & ? & Ey & _). congruence. }
  destruct (from_rules rules) as [[s|c l s]|] eqn:E2; cbn.
  - set (o := search _ fuel _ s). destruct o as [[a|c l s']|]; cbn; eexists _, _; (split; [reflexivity|]); (split; [lia|]); intros []; right; cbn;
      (split; [eauto 10|]); [exists n|exists (S (S n))|exists (S (S (S (S n))))|exists n|exists (S (S n))|exists (S (S (S (S n))))|exists n|exists (S (S n))|exists (S (S (S (S n))))];
      (split_and!; [lia|lia|done]).
  - eexists _, _. split; [done|]. split; [lia|]. intros [].
    + right. split; [eauto|]. exists n. split_and!; [lia|lia|done].
    + right. split; [eauto|]. exists (S (S n)). split_and!; [lia|lia|done].
    + left. split; [|done]. intros (? & [= <-] & ? & ? & ? & ? & ? & Ey & Ez). rewrite E1 in Ey. injection Ey as <- <- <- <-. congruence.
  - eexists _, _. split; [done|]. split; [lia|]. intros [].
    + right. split; [eauto|]. exists n. split_and!; [lia|lia|done].
    + right. split; [eauto|]. exists (S (S n)). split_and!; [lia|lia|done].
    + left. split; [|done]. intros (? & [= <-] & ? & ? & ? & ? & ? & Ey & Ez). rewrite E1 in Ey. injection Ey as <- <- <- <-. congruence.
Qed.

(** After any history of calls, a timer has no time yet exactly if no call reached its phase; otherwise it says how long the phase took in the last call that reached it,
    between two readings of the clock during that call; whatever later calls did not get as far. *)
Theorem C94_history : ∀ clock cs ph,
  (t_elapsed (timer_of (timed_calls clock cs).1 ph) = None ↔ ∀ c, c ∈ cs → ¬ reaches ph c) ∧
  ∀ before c after, cs = before ++ c :: after → reaches ph c → (∀ d, d ∈ after → ¬ reaches ph d) →
    ∃ k, ((timed_calls clock before).2 ≤ k)%nat ∧ (S k < (timed_calls clock (before ++ [c])).2)%nat ∧
      t_elapsed (timer_of (timed_calls clock cs).1 ph) = Some (clock (S k) - clock k).
Proof.
  intros clock cs ph. induction cs as [|x cs [IH1 IH2]] using rev_ind.
  { split; [destruct ph; (split; [intros _ c Hc; by apply elem_of_nil in Hc|done])|]. intros [] c after H; done. }
  assert (E : timed_calls clock (cs ++ [x]) = timed_call clock (timed_calls clock cs) x) by (unfold timed_calls; by rewrite foldl_app).
  destruct (timed_calls clock cs) as [T n] eqn:E0. destruct (one_call clock T n x) as (T' & n' & E1 & Hn & Hph). rewrite E, E1. cbn [fst snd] in *.
  destruct (Hph ph) as [[Hr ->]|(Hr & k & Hk1 & Hk2 & ->)]; split.
  - rewrite IH1. split; [|intros H c Hc; apply H; set_solver]. intros H c [Hc| ->%elem_of_list_singleton]%elem_of_app; [by apply H|done].
  - intros before c after Hcs Hc Ha. destruct after as [|d after _] using rev_ind.
    + apply app_inj_tail in Hcs as [<- ->]. done.
    + rewrite app_comm_cons, (assoc_L (++)) in Hcs. apply app_inj_tail in Hcs as [-> ->].
      destruct (IH2 before c after eq_refl Hc) as (k & K1 & K2 & K3); [intros e He; apply Ha; set_solver|]. exists k. done.
  - split; [done|]. intros H. destruct (H x); [set_solver|done].
  - intros before c after Hcs Hc Ha. destruct after as [|d after _] using rev_ind.
    + apply app_inj_tail in Hcs as [<- ->]. exists k. rewrite E, E0, E1. done.
    + rewrite app_comm_cons, (assoc_L (++)) in Hcs. apply app_inj_tail in Hcs as [-> ->]. destruct (Ha d); [set_solver|done].
Qed.
(** With a clock that does not go backwards no time is negative, and the three times of a call that returns a transaction add up to no more than the call took. *)
Theorem C94_sane : ∀ clock, (∀ i j, (i ≤ j)%nat → clock i ≤ clock j) →
  (∀ cs ph z, t_elapsed (timer_of (timed_calls clock cs).1 ph) = Some z → 0 ≤ z) ∧
  ∀ T n c t, result clock (T, n) c = Ok (Normal t) → ∃ T' n' a b d, timed_call clock (T, n) c = (T', n') ∧
    t_elapsed (tm_rules T') = Some a ∧ t_elapsed (tm_init T') = Some b ∧ t_elapsed (tm_solve T') = Some d ∧
    0 ≤ a ∧ 0 ≤ b ∧ 0 ≤ d ∧ a + b + d ≤ clock n' - clock n.
Proof.
  intros clock Hc. split.
  - intros cs ph. induction cs as [|x cs IH] using rev_ind; intros z H; [by destruct ph|].
    assert (E : timed_calls clock (cs ++ [x]) = timed_call clock (timed_calls clock cs) x) by (unfold timed_calls; by rewrite foldl_app).
    destruct (timed_calls clock cs) as [T n]. destruct (one_call clock T n x) as (T' & n' & E1 & _ & Hph). rewrite E, E1 in H. cbn [fst] in *.
    destruct (Hph ph) as [[_ Et]|(_ & k & _ & _ & Et)]; rewrite Et in H; [by apply IH|]. cbn in H. injection H as <-. pose proof (Hc k (S k)). lia.
  - intros T n [e ds fuel rq] t. unfold result, timed_call, solve_timed. cbn.
    destruct (convert_upgrade rq (ds_remote ds) (ds_installed ds)) as [rq'|]; [|done]. cbn.
    destruct (create_rules _ _ _ _ _ _) as [[[[ids rules] uenv] ust]|]; [|done]. cbn.
    destruct (from_rules rules) as [[s|c l s]|]; [|done..]. cbn.
    destruct (search _ fuel _ s) as [[a|c l s']|]; [|done..]. intros _. cbn. eexists _, _, _, _, _. split_and!; [done..| | | |].
    all: pose proof (Hc n (S n)); pose proof (Hc (S n) (S (S n))); pose proof (Hc (S (S n)) (S (S (S n)))); pose proof (Hc (S (S (S n))) (S (S (S (S n)))));
      pose proof (Hc (S (S (S (S n)))) (S (S (S (S (S n)))))); pose proof (Hc (S (S (S (S (S n))))) (S (S (S (S (S (S n)))))));  lia.
Qed.

(** ** A history: "a" is installed; then "b" is asked for, which does not exist (NoPackageFound).  The clock shows the squares. *)
Definition tm_pkg : package := Pkg "a" (V 1 0) [] [] [] (Some "r").
Definition tm_solver : dep_solver := ds0 [[tm_pkg]] [[tm_pkg]] [] true false.
Definition tm_call (n : string) : solve_call := SolveCall env0 tm_solver 40 (ask [want n]).
Definition squares (k : nat) : Z := Z.of_nat k * Z.of_nat k.
(** One would expect the three times to be about the last call.  After a call that fails while making rules, two of them are of the call before. *)
Theorem C94_stale_refuted :
  (∃ t, solve env0 tm_solver 40 (ask [want "a"]) = Ok (Normal t)) ∧ solve env0 tm_solver 40 (ask [want "b"]) = Raise NoPackageFound ∧
  (∀ ph, reaches ph (tm_call "a")) ∧ (∀ ph, reaches ph (tm_call "b") ↔ ph = PRules) ∧
  (λ ph, t_elapsed (timer_of (timed_calls squares [tm_call "a"]).1 ph)) <$> [PRules; PInit; PSolve] = [Some 1; Some 5; Some 9] ∧
  (λ ph, t_elapsed (timer_of (timed_calls squares [tm_call "a"; tm_call "b"]).1 ph)) <$> [PRules; PInit; PSolve] = [Some 13; Some 5; Some 9].
Proof.
  assert (H : ∃ t, solve env0 tm_solver 40 (ask [want "a"]) = Ok (Normal t)) by (eexists; vm_compute; reflexivity).
  split; [done|]. split; [vm_compute; reflexivity|]. split; [destruct H as [t H]; intros ph; by eapply (C94_all (tm_call "a"))|]. split.
  - assert (E : create_rules env0 (solve_pool (ds_pool tm_solver) (ask [want "b"])) [] false 40 (ask [want "b"]) = Raise NoPackageFound) by (vm_compute; reflexivity).
    intros ph. split; [|intros ->; exists (ask [want "b"]); done]. intros (rq & Hrq & Hph). cbn in Hrq. injection Hrq as <-.
    change (ds_installed (sc_solver (tm_call "b"))) with (@nil package) in Hph. change (ds_strict (sc_solver (tm_call "b"))) with false in Hph.
    change (sc_env (tm_call "b")) with env0 in Hph. change (sc_fuel (tm_call "b")) with 40%nat in Hph. change (sc_solver (tm_call "b")) with tm_solver in Hph.
    destruct ph; [done| |].
    + destruct Hph as [x Hx]. rewrite E in Hx. done.
    + destruct Hph as (? & ? & ? & ? & ? & Hx & _). rewrite E in Hx. done.
  - split; vm_compute; reflexivity.
Qed.
Print Assumptions C94_with. Print Assumptions C94_nested. Print Assumptions C94_not_run_refuted. Print Assumptions C94_answer. Print Assumptions C94_all.
Print Assumptions C94_history. Print Assumptions C94_sane. Print Assumptions C94_stale_refuted.
