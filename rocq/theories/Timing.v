(** * Timers (simplesat/utils/timed_context.py) and what a DependencySolver keeps of them (simplesat/dependency_solver.py 366-368, 397-404). *)
From Coq Require Import Ascii String.
From Verif Require Export DepSolver.
Local Open Scope string_scope.
Local Open Scope list_scope.

(** 7-17: [timed_context].  [None]: the attribute does not exist, or NaN.  Simplification: readings of [default_timer] are integers (ticks), so that differences are exact. *)
Record timer := Timer { t_description : string; t_start : option Z; t_elapsed : option Z }.
(** 9-11 *)
Definition timer_new (description : string) : timer := Timer description None None.
(** 13-15: __enter__ *)
Definition timer_enter (t : timer) (now : Z) : timer := Timer (t_description t) (Some now) (t_elapsed t).
(** 17-18: __exit__, which is called whether the body ended well or not and does not catch its exception. *)
Definition timer_exit (t : timer) (now : Z) : res timer :=
  match t_start t with
  | None => Raise AttributeError
  | Some s => Ok (Timer (t_description t) (t_start t) (Some (now - s)))
  end.
(** 20-26: __str__, pretty() without arguments.  [num]: how Python prints a number; [None] is NaN.  elapsed is never Python's None. *)
Definition timer_str (num : option Z → string) (t : timer) : string := "ELAPSED : " +:+ t_description t +:+ " : " +:+ num (t_elapsed t).

(** [with timer: body].  [clock k]: the reading number [k] of the clock; the state: the number of readings so far.  The body may use the timer as well. *)
Definition body (A : Type) : Type := timer → nat → timer * nat * res A.
Definition with_timer {A} (clock : nat → Z) (b : body A) : body A := λ t n,
  let '(t, n, r) := b (timer_enter t (clock n)) (S n) in
  match timer_exit t (clock n) with
  | Ok t => (t, S n, r)
  | Raise e => (t, S n, Raise e)
  end.

(** dependency_solver.py 366-368: the timers of a solver. *)
Record timers := Timers { tm_rules : timer; tm_init : timer; tm_solve : timer }.
Definition timers_new : timers := Timers (timer_new "Generate Rules") (timer_new "Solver Init") (timer_new "SAT Solve").
(** A body that does not use the timer *)
Definition quiet {A} (r : res A) : body A := λ t n, (t, n, r).

(** 373-419: solve with its timers.  Simplification: the readings of the timer inside the report of SatisfiabilityError (minisat.py 60) are not counted. *)
Definition solve_timed (clock : nat → Z) (T : timers) (n : nat) (e : env) (ds : dep_solver) (fuel : nat) (rq : request)
  : timers * nat * res (out transaction) :=
  match convert_upgrade rq (ds_remote ds) (ds_installed ds) with
  | Raise x => (T, n, Raise x)
  | Ok rq =>
      let po := solve_pool (ds_pool ds) rq in
      match with_timer clock (quiet (create_rules e po (ds_installed ds) (ds_strict ds) fuel rq)) (tm_rules T) n with
      | (t, n, Raise x) => (Timers t (tm_init T) (tm_solve T), n, Raise x)
      | (t, n, Ok (req_ids, rules, uenv, ust)) =>
          let T := Timers t (tm_init T) (tm_solve T) in
          match with_timer clock (quiet (from_rules rules)) (tm_init T) n with
          | (t, n, Raise x) => (Timers (tm_rules T) t (tm_solve T), n, Raise x)
          | (t, n, Ok (Unsat c l s)) => (Timers (tm_rules T) t (tm_solve T), n, Ok (Unsat c l s))
          | (t, n, Ok (Normal sat_solver)) =>
              let T := Timers (tm_rules T) t (tm_solve T) in
              match with_timer clock (quiet (search (logged_policy (uc_policy uenv)) fuel (ust, [], []) sat_solver)) (tm_solve T) n with
              | (t, n, Raise x) => (Timers (tm_rules T) (tm_init T) t, n, Raise x)
              | (t, n, Ok (Unsat c l s)) => (Timers (tm_rules T) (tm_init T) t, n, Ok (Unsat c l s))
              | (t, n, Ok (Normal a)) =>
                  let solution := solution_to_ids a in
                  (Timers (tm_rules T) (tm_init T) t, n,
                   iids ← mapM_res (package_id po) (ds_installed ds);
                   let inst : gset Z := list_to_set iids in
                   decisions ← (if ds_pruning ds
                                then X ← connected_packages e po fuel solution (inst ∪ list_to_set req_ids); Ok (e_ord e 2 X)
                                else Ok solution);
                   t ← mk_transaction po decisions (e_ord e 3 inst);
                   Ok (Normal t))
              end
          end
      end
  end.

(** A history of calls of one solver object (or of several that share nothing but the clock: [ds] may change from call to call, with what the program does to the pool and the repositories). *)
Record solve_call := SolveCall { sc_env : env; sc_solver : dep_solver; sc_fuel : nat; sc_request : request }.
Definition timed_call (clock : nat → Z) (x : timers * nat) (c : solve_call) : timers * nat :=
  (solve_timed clock x.1 x.2 (sc_env c) (sc_solver c) (sc_fuel c) (sc_request c)).1.
Definition timed_calls (clock : nat → Z) (cs : list solve_call) : timers * nat := foldl (timed_call clock) (timers_new, 0%nat) cs.
