(** * Solving the exported problem with an external program (scripts/scenario_to_dimacs.py, tools/minisat_helpers.py). *)
From Coq Require Import Ascii String DecimalString DecimalZ.
From Verif Require Export Dimacs.
From Verif Require Regex.
Local Open Scope string_scope.
Local Open Scope list_scope.

(** The Python library.  [str.strip()]: *)
Fixpoint lstrip_s (s : string) : string :=
  match s with String c r => if is_white c then lstrip_s r else s | "" => "" end.
Fixpoint rstrip_s (s : string) : string :=
  match s with
  | "" => ""
  | String c r => let r' := rstrip_s r in if is_white c && bool_decide (r' = "") then "" else String c r'
  end.
Definition strip_s (s : string) : string := rstrip_s (lstrip_s s).
(** [str.split()]: the first word if the text does not start with a space (else the empty string), and the other words. *)
Fixpoint words_from (s : string) : string * list string :=
  match s with
  | "" => ("", [])
  | String c r =>
      let '(w, ws) := words_from r in
      if is_white c then ("", if decide (w = "") then ws else w :: ws) else (String c w, ws)
  end.
Definition py_words (s : string) : list string := let '(w, ws) := words_from s in if decide (w = "") then ws else w :: ws.
(** [str.splitlines()]: the line boundaries are the characters 10 to 13, 28 to 30 and 133 (and others beyond Latin-1); 13 and 10 together are one. *)
Definition is_boundary (c : ascii) : bool := existsb (Ascii.eqb c) (ascii_of_N <$> [10; 11; 12; 13; 28; 29; 30; 133]%N).
Fixpoint splitlines (s : string) : list string :=
  match s with
  | "" => []
  | String c r =>
      if is_boundary c then
        "" :: match r with
              | String d r' => if bool_decide (c = ascii_of_N 13) && bool_decide (d = ascii_of_N 10) then splitlines r' else splitlines r
              | "" => []
              end
      else match splitlines r with [] => [String c ""] | w :: ws => String c w :: ws end
  end.
(** [file.readline()]: the line with its newline, and what follows.  Simplified: "\r" does not occur (it would be read as a newline). *)
Fixpoint readline (s : string) : string * string :=
  match s with
  | "" => ("", "")
  | String c r => if decide (c = ascii_of_N 10) then (String c "", r) else let '(l, k) := readline r in (String c l, k)
  end.
(** [int(str)].  Simplified: no leading "+", underscores or blanks. *)
Definition py_int (w : string) : res Z := of_option ValueError (Z.of_int <$> NilZero.int_of_string w).
(** [l[:-1]] *)
Definition but_last {A} (l : list A) : list A := take (List.length l - 1) l.

(** scenario_to_dimacs.py 107-111: the output of the program.  [None]: neither condition of line 110 raises, nothing is printed. *)
Definition read_solution (output : string) : res (option (list Z)) :=
  match strip_s <$> splitlines output with
  | sat :: model :: _ =>
      if bool_decide (sat = "SAT") && bool_decide (substring (String.length model - 2) 2 model = " 0")
      then ids ← mapM_res py_int (but_last (py_words model)); Ok (Some ids)
      else Ok None
  | _ => Raise ValueError
  end.

(** 60-70: from_dimacs_solution.  [solution_ids] is a set (111). *)
Definition from_dimacs_solution (e : env) (po : pool) (fuel : nat) (inst : list package) (requirement_ids solution_ids : list Z)
  : res transaction :=
  iids ← mapM_res (package_id po) inst;
  let installed_map : gset Z := list_to_set iids in
  X ← connected_packages e po fuel (e_ord e 4 (list_to_set solution_ids)) (installed_map ∪ list_to_set requirement_ids);
  mk_transaction po (e_ord e 2 X) (e_ord e 3 installed_map).

Section external.
  Context (vstr : version → string).
  (** 32-45, 73-115: main with --solve, as it is meant to work (see [export] in Dimacs.v).  [minisat] is what the external program
      writes when it reads the problem. *)
  Definition external_solve (e : env) (remotes : list (list package)) (inst : list package) (fuel : nat) (rq : request)
      (minisat : string → string) : res (out (option transaction)) :=
    po ← pool_of (remotes ++ [inst]) None;
    '(requirement_ids, rules, _, _) ← create_rules e po inst false fuel rq;
    o ← from_rules rules;
    match o with
    | Unsat c l s => Ok (Unsat c l s)
    | Normal s =>
        sol ← read_solution (minisat (str_join nl_str (to_dimacs vstr po (clause_lits s))));
        match sol with
        | None => Ok (Normal None)
        | Some ids => t ← from_dimacs_solution e po fuel inst requirement_ids ids; Ok (Normal (Some t))
        end
    end.
End external.

(** tools/minisat_helpers.py 42-50: solution_to_package_strings *)
Definition solution_to_package_strings (fp : string) : res (list Z) :=
  let '(header, rest) := readline fp in
  if decide (header = "SAT" +:+ nl_str) then mapM_res py_int (but_last (py_words (readline rest).1)) else Raise AssertionError.
(** 26-39: solve_sat.  [minisat]: the exit code and the output file. *)
Definition solve_sat (po : pool) (rules : list (list Z)) (minisat : string → Z * string) : res (list Z) :=
  let '(code, fp) := minisat (rules_set_to_dimacs po rules) in
  if decide (code = 10) then solution_to_package_strings fp else Raise AssertionError.
(** 53-65: is_satisfable *)
Definition is_satisfable (po : pool) (rules : list (list Z)) (minisat : string → Z * string) : res bool :=
  let '(code, _) := minisat (rules_set_to_dimacs po rules) in
  if decide (code = 10 ∨ code = 20) then Ok (bool_decide (code = 10)) else Raise AssertionError.
