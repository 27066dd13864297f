(** * Entry points of the SAT package (simplesat/sat/__init__.py). *)
From Verif Require Export Policy.

(** sat/__init__.py 5-11: is_satisfiable(rules).  [MiniSATSolver(rules)] passes [rules] as the
    [policy] argument (minisat.py 288, 319), so the solver holds no clauses; the policy [pol] stands
    for whatever object [rules] is. *)
Definition is_satisfiable {P} (pol : policy P) (p : P) (fuel : nat) (rules : list (list Z * option rule))
  : res bool :=
  o ← search pol fuel p solver_new;
  match o with Normal _ => Ok true | Unsat _ _ _ => Ok false end.
