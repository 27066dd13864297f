(** * Property C60: the logging wrapper around a policy changes nothing. *)
From Verif Require Import PolicySimProofs PolicyProofs.

(** Two answers of the solver are the same: equal values of all variables and equal items; or the same error, with
    the same clauses, trails and reasons from which its report is made. *)
Definition agree (x y : res (out aset)) : Prop :=
  match x, y with
  | Ok (Normal a), Ok (Normal b) => (∀ l, aset_value a l = aset_value b l) ∧ aset_items a = aset_items b
  | Ok (Unsat c l s), Ok (Unsat c' l' s') =>
      c = c' ∧ l = l' ∧ s_heap s = s_heap s' ∧ s_ctrails s = s_ctrails s' ∧ s_reasons s = s_reasons s'
  | Raise e, Raise e' => e = e'
  | _, _ => False
  end.
Lemma agree_of N x y : res_rel (same_out N) x y → agree x y.
Proof.
  destruct x as [[a|c l s]|], y as [[b|c' l' s']|]; cbn; try done.
  - intros (H1 & H2 & H3). unfold aset_value, aset_items. rewrite H1, H2. done.
  - intros (-> & -> & H). apply RS_inv in H as (a & b & r & _ & -> & ->). done.
Qed.

(** The policy of the dependency solver, logged or not, leads to the same answer. *)
Theorem C60_logged : ∀ env fuel p sugg changes rules,
  agree (solve_clauses (logged_policy (uc_policy env)) fuel (p, sugg, changes) rules) (solve_clauses (uc_policy env) fuel p rules).
Proof.
  intros env fuel p sugg changes rules. eapply agree_of. apply (solve_clauses_sim eq) with (RP := λ x q, inner x = q); [by intros ??? ->| |done|done].
  apply logged_plain.
  - intros q a b cls R. eapply res_rel_mono; [|apply (uc_policy_sim env env eq); try done].
    + intros x y (E & [[] ?] & ?). split; [done|]. split; [|done]. destruct x as [[? []] ?], y as [[? []] ?]. cbn in *. by subst.
    + by intros ?? ->.
    + by intros ??? ->.
  - intros q a cls v p' a' X H. by rewrite (uc_policy_new _ _ _ _ _ _ _ H).
Qed.
(** Likewise the default policy of the SAT solver. *)
Theorem C60_default : ∀ fuel sugg changes rules,
  agree (solve_clauses (logged_policy default_policy) fuel ((), sugg, changes) rules) (solve_clauses default_policy fuel () rules).
Proof.
  intros fuel sugg changes rules. eapply agree_of. apply (solve_clauses_sim (λ _ _, True)) with (RP := λ x q, inner x = q); [done| |done|done].
  apply logged_plain; [|done]. intros q a b cls R. unfold default_policy, aset_items.
  rewrite (ra_data _ _ _ R), (ra_seen _ _ _ R).
  destruct (filter _ _) as [|[v ?] ?]; [done|]. by split.
Qed.
(** And any policy that does not look at the changelog: its suggestion, next state and the values it leaves depend
    on values, known and assigned variables only. *)
Theorem C60_any : ∀ P (pol : policy P) fuel p sugg changes rules,
  (∀ p a b cls, same_values a b →
     match pol p a cls, pol p b cls with
     | Ok (v, q, a'), Ok (w, r, b') => v = w ∧ q = r ∧ same_values a' b'
     | Raise e, Raise e' => e = e'
     | _, _ => False
     end) →
  agree (solve_clauses (logged_policy pol) fuel (p, sugg, changes) rules) (solve_clauses pol fuel p rules).
Proof.
  intros P pol fuel p sugg changes rules H. eapply agree_of.
  apply (solve_clauses_sim (λ _ _, True)) with (RP := λ x q, inner x = q); [done| |done|done].
  apply logged_plain; [|done]. intros q a b cls [H1 H2 H3 _].
  specialize (H q a b cls ltac:(done)). destruct (pol q a cls) as [[[v r] a']|], (pol q b cls) as [[[w r'] b']|]; try done.
  destruct H as (-> & -> & ? & ? & ?). by split.
Qed.
(** The default policy is one of these. *)
Theorem C60_example : ∀ p a b cls, same_values a b →
  match default_policy p a cls, default_policy p b cls with
  | Ok (v, q, a'), Ok (w, r, b') => v = w ∧ q = r ∧ same_values a' b'
  | Raise e, Raise e' => e = e'
  | _, _ => False
  end.
Proof.
  intros p a b cls (H1 & H2 & H3). unfold default_policy, aset_items. rewrite H1, H2.
  by destruct (filter _ _) as [|[v ?] ?].
Qed.
Print Assumptions C60_logged. Print Assumptions C60_default. Print Assumptions C60_any.
