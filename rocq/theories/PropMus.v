(** * Property C25: minimal_unsatisfiable_subset. *)
From Verif Require Import DepSolver.

(** Dropping, repeating or reordering elements of a satisfiable list keeps it satisfiable. *)
Definition monotone {A} (sat : list A → bool) : Prop :=
  ∀ l l', (∀ x, x ∈ l → x ∈ l') → sat l' = true → sat l = true.

Lemma minimal_unsat_spec {A} (callback : list A → res bool) (sat : list A → bool) (P : list A → Prop) :
  (∀ l, P l → callback l = Ok (sat l)) → (∀ l l', (∀ x, x ∈ l → x ∈ l') → P l' → P l) → monotone sat →
  ∀ fuel clauses include, (length clauses ≤ fuel)%nat → P (clauses ++ include) →
    sat include = true → sat (clauses ++ include) = false →
    ∃ m, minimal_unsat callback fuel clauses include = Ok m ∧ m `sublist_of` clauses ∧
      sat (m ++ include) = false ∧
      ∀ l1 x l2, m = l1 ++ x :: l2 → sat (l1 ++ l2 ++ include) = true.
Proof.
  intros Hcb HP Hm. induction fuel as [|fuel IH]; intros clauses include Hf Hp Hi Hc.
  { destruct clauses; [cbn in Hc; congruence|cbn in Hf; lia]. }
  cbn [minimal_unsat]. destruct (Nat.eqb_spec (length clauses) 1) as [H1|H1].
  { exists clauses. split; [done|]. split; [done|]. split; [done|]. intros l1 x l2 ->.
    rewrite app_length in H1. cbn in H1. destruct l1, l2; cbn in H1; try lia. done. }
  assert (H2 : (2 ≤ length clauses)%nat).
  { destruct clauses as [|? [|? ?]]; cbn in *; [congruence|lia|lia]. }
  unfold split. set (k := (length clauses / 2)%nat). set (a := take k clauses). set (b := drop k clauses).
  assert (Hab : clauses = a ++ b) by (unfold a, b; by rewrite take_drop).
  assert (Hk : (1 ≤ k < length clauses)%nat).
  { unfold k. split; [apply Nat.div_le_lower_bound; lia|apply Nat.div_lt; lia]. }
  assert (Hla : (length a < length clauses)%nat) by (unfold a; rewrite take_length; lia).
  assert (Hlb : (length b < length clauses)%nat) by (unfold b; rewrite drop_length; lia).
  assert (Sa : a `sublist_of` clauses) by (rewrite Hab; apply sublist_inserts_r; done).
  assert (Sb : b `sublist_of` clauses) by (rewrite Hab; apply sublist_inserts_l; done).
  clearbody a b k. subst clauses. rewrite app_length in Hf, Hla, Hlb.
  assert (Pa : P (a ++ include)) by (eapply HP; [|exact Hp]; set_solver).
  assert (Pb : P (b ++ include)) by (eapply HP; [|exact Hp]; set_solver).
  rewrite (Hcb _ Pa). cbn [mbind res_bind]. destruct (sat (a ++ include)) eqn:Ea; cbn [negb].
  2:{ destruct (IH a include) as (m & E & M1 & M2 & M3); [lia|done|done|done|].
      exists m. split; [done|]. split; [by etrans|]. done. }
  rewrite (Hcb _ Pb). cbn [mbind res_bind]. destruct (sat (b ++ include)) eqn:Eb; cbn [negb].
  2:{ destruct (IH b include) as (m & E & M1 & M2 & M3); [lia|done|done|done|].
      exists m. split; [done|]. split; [by etrans|]. done. }
  destruct (IH a (b ++ include)) as (ma & Ema & A1 & A2 & A3); [lia|by rewrite app_assoc|done|by rewrite app_assoc|].
  rewrite Ema. cbn [mbind res_bind].
  assert (Hma : ∀ x, x ∈ ma → x ∈ a).
  { intros x Hx. eapply elem_of_submseteq; [done|by apply sublist_submseteq]. }
  destruct (IH b (ma ++ include)) as (mb & Emb & B1 & B2 & B3).
  - lia.
  - eapply HP; [|exact Hp]. set_solver.
  - eapply Hm; [|exact Ea]. set_solver.
  - destruct (sat (b ++ ma ++ include)) eqn:E; [|done]. rewrite <-A2. symmetry. eapply Hm; [|exact E]. set_solver.
  - rewrite Emb. cbn [mbind res_bind]. exists (ma ++ mb). split; [done|]. split; [by apply sublist_app|].
    assert (Hmb : ∀ x, x ∈ mb → x ∈ b).
    { intros x Hx. eapply elem_of_submseteq; [done|by apply sublist_submseteq]. }
    split.
    + destruct (sat ((ma ++ mb) ++ include)) eqn:E; [|done]. rewrite <-B2. symmetry. eapply Hm; [|exact E]. set_solver.
    + intros l1 x l2 He. apply app_eq_inv in He as [(k' & -> & He)|(k' & -> & He)].
      * (* removed from the first part *)
        destruct k' as [|y k']; cbn in He.
        -- subst mb. eapply Hm; [|apply (B3 [] x l2); done]. set_solver.
        -- injection He as <- ->. eapply Hm; [|apply (A3 l1 x k'); done]. set_solver.
      * eapply Hm; [|apply (B3 k' x l2); done]. set_solver.
Qed.

(** For a callback that decides a monotone notion of satisfiability under which the empty list is
    satisfiable: a satisfiable input is rejected, for an unsatisfiable one the result is a sub-list
    that is unsatisfiable and becomes satisfiable when any one element is left out.  Recursion depth
    is at most the length of the input. *)
Theorem C25_minimal : ∀ {A} (sat : list A → bool) (clauses : list A) (fuel : nat),
  monotone sat → sat [] = true → (length clauses ≤ fuel)%nat →
  let r := minimal_unsatisfiable_subset (λ l, Ok (sat l)) fuel clauses in
  (sat clauses = true → r = Raise UnexpectedlySatisfiable) ∧
  (sat clauses = false → ∃ m, r = Ok m ∧ m `sublist_of` clauses ∧ sat m = false ∧
     ∀ l1 x l2, m = l1 ++ x :: l2 → sat (l1 ++ l2) = true).
Proof.
  intros A sat clauses fuel Hm He Hf r. unfold r, minimal_unsatisfiable_subset. cbn [mbind res_bind]. split; intros Hs; rewrite Hs.
  - done.
  - destruct (minimal_unsat_spec (λ l, Ok (sat l)) sat (λ _, True)) with (fuel := fuel) (clauses := clauses) (include := @nil A)
      as (m & E & M1 & M2 & M3); auto.
    { by rewrite app_nil_r. }
    exists m. split; [done|]. split; [done|]. rewrite app_nil_r in M2. split; [done|].
    intros l1 x l2 H. specialize (M3 l1 x l2 H). by rewrite app_nil_r in M3.
Qed.

(** ** Non-vacuity: 2 and 5 conflict. *)
Definition ex_sat (l : list Z) : bool := negb (bool_decide (2 ∈ l) && bool_decide (5 ∈ l)).
Example ex_sat_monotone : monotone ex_sat ∧ ex_sat [] = true.
Proof.
  split; [|done]. intros l l' Hsub. unfold ex_sat. rewrite !negb_true_iff, !andb_false_iff, !bool_decide_eq_false.
  naive_solver.
Qed.
Example ex_mus : minimal_unsatisfiable_subset (λ l, Ok (ex_sat l)) 10 [1; 2; 3; 4; 5; 6; 2] = Ok [2; 5]
  ∨ minimal_unsatisfiable_subset (λ l, Ok (ex_sat l)) 10 [1; 2; 3; 4; 5; 6; 2] = Ok [5; 2].
Proof. vm_compute. auto. Qed.

Print Assumptions C25_minimal.
