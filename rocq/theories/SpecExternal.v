(** * What an external SAT solver answers. *)
From Coq Require Import Ascii String DecimalString DecimalZ.
From Verif Require Import Base.
From Verif Require Export SpecDimacs SpecSat.
Local Open Scope string_scope.
Local Open Scope list_scope.

(** The literals of a solution of [cls]: variables of the problem or smaller ones (a solver may decide numbers that do not occur),
    not both signs, each variable of the problem, and one literal of each clause. *)
Record solution (cls : list (list Z)) (lits : list Z) : Prop := {
  sn_range : ∀ x, x ∈ lits → ∃ v, is_var cls v ∧ 1 ≤ Z.abs x ≤ v;
  sn_consistent : ∀ x, x ∈ lits → - x ∉ lits;
  sn_total : ∀ v, is_var cls v → v ∈ lits ∨ - v ∈ lits;
  sn_sat : ∀ c, c ∈ cls → ∃ x, x ∈ c ∧ x ∈ lits }.

(** The text for it: two lines, the second with the literals and a 0. *)
Definition newline : string := String (ascii_of_N 10) "".
Definition numeral (z : Z) : string := NilZero.string_of_int (Z.to_int z).
Definition answer_text (lits : list Z) : string :=
  "SAT" +:+ newline +:+ String.concat " " (numeral <$> lits) +:+ " 0" +:+ newline.
(** A correct solver: exit code and output. *)
Definition correct_solver (minisat : string → Z * string) : Prop :=
  ∀ text v n cls, read_dimacs text = Some (v, n, cls) →
    (∃ lits, solution cls lits ∧ minisat text = (10, answer_text lits)) ∨
    (¬ satisfiable cls ∧ minisat text = (20, "UNSAT" +:+ newline)).
