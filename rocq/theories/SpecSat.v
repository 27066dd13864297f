(** * Propositional semantics: the independent specification of the SAT solver. *)
From Verif Require Import Base.

(** A valuation gives a truth value to every variable (a positive integer). *)
Definition valuation := Z → bool.

(** The literal [v] is the variable [v], the literal [-v] its negation. *)
Definition lit_true (f : valuation) (l : Z) : Prop :=
  if decide (0 < l) then f l = true else f (- l) = false.

(** A clause is a disjunction of literals, a formula a conjunction of clauses. *)
Definition clause_true (f : valuation) (c : list Z) : Prop := ∃ l, l ∈ c ∧ lit_true f l.
Definition model (f : valuation) (F : list (list Z)) : Prop := ∀ c, c ∈ F → clause_true f c.
Definition satisfiable (F : list (list Z)) : Prop := ∃ f, model f F.
Definition entails (F : list (list Z)) (c : list Z) : Prop := ∀ f, model f F → clause_true f c.

(** The problem without its empty clauses (which no valuation satisfies). *)
Definition nonempty (F : list (list Z)) : list (list Z) := filter (λ c, c ≠ []) F.
Lemma elem_of_nonempty F c : c ∈ nonempty F ↔ c ∈ F ∧ c ≠ [].
Proof. unfold nonempty. rewrite elem_of_list_filter. tauto. Qed.
Lemma elem_of_not_nil {A} (x : A) (l : list A) : x ∈ l → l ≠ [].
Proof. intros H ->. by apply elem_of_nil in H. Qed.
Lemma model_nonempty f F : model f F → model f (nonempty F).
Proof. intros H c [Hc _]%elem_of_nonempty. by apply H. Qed.

(** The variables of a formula. *)
Definition is_var (F : list (list Z)) (v : Z) : Prop := ∃ c l, c ∈ F ∧ l ∈ c ∧ v = Z.abs l.

(** Well-formed input: literals are non-zero. *)
Definition wf_cnf (F : list (list Z)) : Prop := ∀ c l, c ∈ F → l ∈ c → l ≠ 0.
