(** * The DIMACS CNF format: a reader. *)
From Coq Require Import Ascii String DecimalString DecimalZ.
From Verif Require Import Base.
Local Open Scope string_scope.

(** The pieces of a string between occurrences of a character. *)
Fixpoint split_on (c : ascii) (s : string) : list string :=
  match s with
  | "" => [""]
  | String x r =>
      if decide (x = c) then "" :: split_on c r
      else match split_on c r with
           | p :: ps => String x p :: ps
           | [] => [String x ""]
           end
  end.
Definition lines_of (s : string) : list string := split_on (ascii_of_N 10) s.
(** The words of a line: maximal pieces without spaces. *)
Definition words_of (s : string) : list string := filter (λ w, w ≠ "") (split_on " " s).

(** A decimal numeral with an optional sign. *)
Definition read_int (w : string) : option Z := Z.of_int <$> NilZero.int_of_string w.

(** Comment lines start with the letter c. *)
Definition comment (line : string) : bool :=
  match line with String "c" _ => true | _ => false end.

(** The problem line: numbers of variables and clauses. *)
Definition read_header (line : string) : option (Z * Z) :=
  match words_of line with
  | [p; cnf; v; n] =>
      if decide (p = "p" ∧ cnf = "cnf") then
        match read_int v, read_int n with Some v, Some n => Some (v, n) | _, _ => None end
      else None
  | _ => None
  end.

(** Clauses are terminated by 0. *)
Fixpoint cut_zeros (acc : list Z) (ns : list Z) : option (list (list Z)) :=
  match ns with
  | [] => if decide (acc = []) then Some [] else None
  | n :: r => if decide (n = 0) then (λ cs, reverse acc :: cs) <$> cut_zeros [] r else cut_zeros (n :: acc) r
  end.

Definition read_dimacs (s : string) : option (Z * Z * list (list Z)) :=
  match filter (λ l, comment l = false) (lines_of s) with
  | [] => None
  | h :: body =>
      match read_header h, mapM read_int (mjoin (words_of <$> body)) with
      | Some (v, n), Some ns => (λ cs, (v, n, cs)) <$> cut_zeros [] ns
      | _, _ => None
      end
  end.

(** What the format demands of the header: the variables are 1, ..., v, and n is the number of clauses. *)
Definition header_ok (d : Z * Z * list (list Z)) : Prop :=
  let '(v, n, cs) := d in n = Z.of_nat (List.length cs) ∧ ∀ c l, c ∈ cs → l ∈ c → 1 ≤ Z.abs l ≤ v.
