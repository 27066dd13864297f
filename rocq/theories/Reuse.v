(** * A client that drives one MiniSATSolver object step by step (simplesat/sat/minisat.py).
    MiniSat.v models the methods; [from_rules] followed by [search] is one way to call them.  Here the
    client chooses the calls itself, as the tests of the package do, and may keep using the object. *)
From Verif Require Export MiniSat.

(** The calls that build the problem: [add_clause(lits, rule)] (minisat.py 321-358) and
    [_setup_assignments()] (360-367). *)
Inductive call := AddClause (lits : list Z) (r : option rule) | Setup.

Definition sat_call (c : call) (s : solver) : res (out solver) :=
  match c with
  | AddClause lits r => add_clause lits r s
  | Setup => s' ← setup_assignments s; Ok (Normal s')
  end.

(** A sequence of calls; SatisfiabilityError, as any other exception, ends it. *)
Fixpoint sat_calls (cs : list call) (s : solver) : res (out solver) :=
  match cs with
  | [] => Ok (Normal s)
  | c :: cs =>
      o ← sat_call c s;
      match o with
      | Normal s' => sat_calls cs s'
      | Unsat a b s' => Ok (Unsat a b s')
      end
  end.

(** minisat.py 422-451: [search()], keeping the object after the call.  The answer is a copy of the
    assignments of the object. *)
Definition search_obj {P} (pol : policy P) (fuel : nat) (p : P) (s : solver) : res (out (P * solver)) :=
  search_loop pol fuel fuel (decision_level s) p s.
Definition answer (s : solver) : aset := aset_copy (s_asg s).

(** The calls, then [search()]. *)
Definition client {P} (pol : policy P) (fuel : nat) (p : P) (cs : list call) : res (out aset) :=
  o ← sat_calls cs solver_new;
  match o with
  | Normal s => search pol fuel p s
  | Unsat c l s => Ok (Unsat c l s)
  end.

(** The clauses a sequence of calls has added. *)
Definition added (cs : list call) : list (list Z * option rule) :=
  omap (λ c, match c with AddClause l r => Some (l, r) | Setup => None end) cs.
