(** * Export of the SAT problem (scripts/scenario_to_dimacs.py, tools/minisat_helpers.py). *)
From Coq Require Import Ascii String DecimalString DecimalZ.
From Verif Require Export DepSolver.
Local Open Scope string_scope.

(** Python's [str(int)]: decimal digits, with a leading "-" if negative. *)
Definition str_of_Z (z : Z) : string := NilZero.string_of_int (Z.to_int z).

(** [sep.join(l)] *)
Fixpoint str_join (sep : string) (l : list string) : string :=
  match l with
  | [] => ""
  | [x] => x
  | x :: r => x +:+ sep +:+ str_join sep r
  end.

(** scenario_to_dimacs.py 22-29: clauses_to_dimacs *)
Definition clause_line (c : list Z) : string := str_join " " ((str_of_Z <$> c) ++ ["0"]).
Definition all_vars (clauses : list (list Z)) : gset Z := list_to_set (Z.abs <$> mjoin clauses).
Definition clauses_to_dimacs (clauses : list (list Z)) : list string :=
  ("p cnf " +:+ str_of_Z (Z.of_nat (size (all_vars clauses))) +:+ " " +:+ str_of_Z (Z.of_nat (List.length clauses)))
  :: (clause_line <$> clauses).

(** [json.dumps] of a string (the standard library's encoder with ensure_ascii): printable ASCII characters other than the quotation mark and
    the backslash stand for themselves, all others are escaped. *)
Definition hex (n : N) : ascii := ascii_of_N (if (n <? 10)%N then 48 + n else 87 + n).
Definition json_char (c : ascii) : string :=
  let n := N_of_ascii c in
  if (n =? 34)%N then "\""" else
  if (n =? 92)%N then "\\" else
  if (n =? 8)%N then "\b" else
  if (n =? 9)%N then "\t" else
  if (n =? 10)%N then "\n" else
  if (n =? 12)%N then "\f" else
  if (n =? 13)%N then "\r" else
  if (32 <=? n)%N && (n <=? 126)%N then String c ""
  else "\u00" +:+ String (hex (n / 16)%N) (String (hex (n mod 16)%N) "").
Fixpoint json_chars (s : string) : string :=
  match s with "" => "" | String c r => json_char c +:+ json_chars r end.
Definition json_string (s : string) : string := """" +:+ json_chars s +:+ """".
(** [json.dumps] of a dict with integer keys and string values *)
Definition json_dict (d : list (Z * string)) : string :=
  "{" +:+ str_join ", " ((λ kv, json_string (str_of_Z kv.1) +:+ ": " +:+ json_string kv.2) <$> d) +:+ "}".

Section export.
  (** [str(version)] *)
  Context (vstr : version → string).

  (** 48-57: to_dimacs.  The ids of a pool are distinct, so the dict comprehension lists them in order. *)
  Definition to_dimacs (po : pool) (clauses : list (list Z)) : list string :=
    "c KEY" ::
    ("c " +:+ json_dict ((λ ip : Z * package, (ip.1, p_name ip.2 +:+ " " +:+ vstr (p_version ip.2))) <$> po_i2p po)) ::
    clauses_to_dimacs clauses.

  Definition nl_str : string := String (ascii_of_N 10) "".

  (** 32-45: initialize, as it is.  DependencySolver.__init__ (dependency_solver.py 355-356) has no parameter
      [policy]: the call raises TypeError once the pool and the policy have been built. *)
  Definition script_initialize (e : env) (remotes : list (list package)) (inst : list package)
    : res (pool * solver * list Z) :=
    po ← pool_of (remotes ++ [inst]) None;
    _ ← preferred_ids e po inst [];
    Raise TypeError.
  (** 73-120: main without --solve prints this text. *)
  Definition script_main (e : env) (remotes : list (list package)) (inst : list package) : res string :=
    '(po, s, _) ← script_initialize e remotes inst;
    Ok (str_join nl_str (to_dimacs po (clause_lits s))).

  (** What [initialize] and [main] are meant to do, with the present signatures: the pool is built from the remote and the
      installed repositories without modifiers, DependencySolver._create_rules_and_initialize_policy
      (dependency_solver.py 465-511) is called directly, MiniSATSolver.from_rules takes its rules, and its clauses are
      written.  The policy takes no part.  [Unsat]: add_clause raises SatisfiabilityError. *)
  Definition export (e : env) (remotes : list (list package)) (inst : list package) (fuel : nat) (rq : request)
    : res (out string) :=
    po ← pool_of (remotes ++ [inst]) None;
    '(_, rules, _, _) ← create_rules e po inst false fuel rq;
    o ← from_rules rules;
    match o with
    | Unsat c l s => Ok (Unsat c l s)
    | Normal s => Ok (Normal (str_join nl_str (to_dimacs po (clause_lits s))))
    end.

  (** tools/minisat_helpers.py 6-24: rules_set_to_dimacs, the text written to [fp]. *)
  Definition rules_set_to_dimacs (po : pool) (rules : list (list Z)) : string :=
    "c written by new_solver" +:+ nl_str +:+
    "p cnf " +:+ str_of_Z (po_next po) +:+ " " +:+ str_of_Z (Z.of_nat (List.length rules)) +:+ nl_str +:+
    String.concat "" ((λ r, str_join " " (str_of_Z <$> r) +:+ " 0" +:+ nl_str) <$> rules).
End export.
