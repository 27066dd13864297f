(** * One-shot iterators as arguments of the functions of simplesat/dependency_solver.py

    The documentation of these functions asks for "iterable of PackageMetadata" and "iterable of Requirement".  A Python iterable
    is either a container, which gives the same items each time one iterates over it, or an iterator (a generator, [map], [filter],
    an open file, ...), which gives its items once and nothing afterwards. *)
From Verif Require Export DepSolver.

Inductive iterable (A : Type) := Container (l : list A) | Iterator (l : list A).
Arguments Container {_} _. Arguments Iterator {_} _.
(** What the next loop over it sees ... *)
Definition items {A} (i : iterable A) : list A := match i with Container l => l | Iterator l => l end.
(** ... and what it is after that loop has come to its end. *)
Definition rest {A} (i : iterable A) : iterable A := match i with Container l => Container l | Iterator _ => Iterator [] end.

(** 22-38: requirements_from_packages; the result is a tuple, so a container. *)
Definition requirements_from_packages_it (ps : iterable package) : iterable requirement * iterable package :=
  (Container (requirements_from_packages (items ps)), rest ps).

(** 41-65: packages_from_requirements: [Repository(packages)] loops over the packages (repository.py 43-45), then there is one loop
    over the requirements.  With the result: what the arguments are afterwards. *)
Definition packages_from_requirements_it (sortk : list package → list package)
    (ps : iterable package) (reqs : iterable requirement) (m : option modifiers)
  : res (iterable package * iterable package * iterable requirement) :=
  l ← packages_from_requirements sortk (items ps) (items reqs) m;
  Ok (Container l, rest ps, rest reqs).

(** 120-152: requirements_are_satisfiable: one loop over the requirements, then one over the packages. *)
Definition requirements_are_satisfiable_it (e : env) (fuel : nat) (ps : iterable package) (reqs : iterable requirement)
    (m : option modifiers) : res bool :=
  requirements_are_satisfiable e fuel (items ps) (items reqs) m.

(** 68-91: packages_are_consistent: [packages] is used on lines 89 and 91. *)
Definition packages_are_consistent_it (e : env) (fuel : nat) (ps : iterable package) (m : option modifiers) : res bool :=
  let '(reqs, ps) := requirements_from_packages_it ps in
  requirements_are_satisfiable_it e fuel ps reqs m.

(** 94-117: requirements_are_complete: [requirements] is used on lines 115 and 117; [packages] is rebound. *)
Definition requirements_are_complete_it (e : env) (sortk : list package → list package) (fuel : nat)
    (ps : iterable package) (reqs : iterable requirement) (m : option modifiers) : res bool :=
  '(ps, _, reqs) ← packages_from_requirements_it sortk ps reqs m;
  requirements_are_satisfiable_it e fuel ps reqs m.

(** 155-193: satisfy_requirements: one loop over each. *)
Definition satisfy_requirements_it (e : env) (fuel : nat) (ps : iterable package) (reqs : iterable requirement)
    (m : option modifiers) : res (out (list package)) :=
  satisfy_requirements e fuel (items ps) (items reqs) m.

(** 196-225: simplify_requirements: [packages] is used on lines 212 and 213. *)
Definition simplify_requirements_it (sortk : list package → list package) (ps : iterable package)
    (reqs : iterable requirement) : res (list requirement) :=
  '(needed, ps, _) ← packages_from_requirements_it sortk ps reqs None;
  po ← pool_of [repo_iter (repo_of (items ps))] None;
  deps ← foldM (λ acc p,
           foldM (λ acc c, r ← from_constraints RInstall c; qs ← what_provides po r true;
                           Ok (acc ++ qs)) (p_requires p) acc) (items needed) [];
  Ok (requirements_from_packages (filter (λ p, pkg_in p deps = false) (items needed))).

(** 228-306: minimal_unsatisfiable_subset: line 268 makes a tuple of the argument. *)
Definition minimal_unsatisfiable_subset_it {A} (callback : list A → res bool) (fuel : nat) (clauses : iterable A) : res (list A) :=
  minimal_unsatisfiable_subset callback fuel (items clauses).
