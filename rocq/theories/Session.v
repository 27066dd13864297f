(** * Programs that use one pool: requests, modifiers and repositories as mutable objects that may be
    shared (simplesat/pool.py, request.py, repository.py, constraints/constraint_modifiers.py,
    dependency_solver.py 373-463).

    Simplifications: one pool; the result of [convert_upgrade] and the iteration of repositories are as
    in DepSolver.v; a solver object holds nothing that changes from one call to the next besides
    timings (354-371), so that a call of [solve] is given with the arguments of its constructor. *)
From Verif Require Export DepSolver.

(** Objects are addressed by the order of their creation (modifiers, requests and repositories apart). *)
Record world := World {
  w_mods : list modifiers;                 (* ConstraintModifiers objects *)
  w_reqs : list (nat * list job);          (* Request objects: address of the modifiers, jobs *)
  w_repos : list repository;               (* Repository objects *)
  w_pool : pool;                           (* the pool; its field [po_mods] is not used *)
  w_pmods : option nat }.                  (* pool.modifiers *)
(** [Pool()] (pool.py 24-37) *)
Definition world0 : world := World [] [] [] (pool_empty None) None.

(** pool.py 53-59: the loop over package.provides, with what is left when it raises. *)
Fixpoint provide_loop (p : package) (ds : list cdep) (b : gmap string (list package))
  : gmap string (list package) * option exn :=
  match ds with
  | [] => (b, None)
  | d :: ds => match add_provide p b d with
               | Ok b => provide_loop p ds b
               | Raise x => (b, Some x)
               end
  end.
(** 47-59: the body of the loop over the packages. *)
Definition pool_add_eff (po : pool) (p : package) : pool * option exn :=
  let '(b, x) := provide_loop p (pkg_provides p) (po_byname po) in
  (MkPool (po_next po + 1) (pdict_set (po_p2i po) p (po_next po)) (po_i2p po ++ [(po_next po, p)]) b (po_mods po), x).
(** 39-59: add_repository *)
Fixpoint add_repository_eff (po : pool) (ps : list package) : pool * option exn :=
  match ps with
  | [] => (po, None)
  | p :: ps => match pool_add_eff po p with
               | (po, None) => add_repository_eff po ps
               | (po, Some x) => (po, Some x)
               end
  end.
(** 119-120: name_to_packages, with the entry that reading a DefaultOrderedDict creates
    (utils/_collections.py 13-21). *)
Definition name_to_packages_eff (po : pool) (n : string) : pool * list package :=
  let l := default [] (po_byname po !! n) in
  (MkPool (po_next po) (po_p2i po) (po_i2p po) (<[n := l]> (po_byname po)) (po_mods po), l).

(** What a program can do.  [e] and [fuel] of the solve calls stand for the iteration order of sets and
    the bound of loops during this call. *)
Inductive call :=
  | NewModifiers (m : modifiers)                     (* ConstraintModifiers(...) *)
  | UpdateModifiers (a b : nat)                      (* a.update(b) *)
  | RemoveModifiers (a : nat) (ps : gset string)     (* a.remove(ps) *)
  | NewRequest (a : nat)                             (* Request(modifiers=a) *)
  | RequestCall (k : nat) (c : rcall)                (* request.install(...) etc. *)
  | NewRepository (ps : list package)                (* Repository(ps) *)
  | AddPackage (r : nat) (p : package)               (* repository.add_package(p) *)
  | AddRepository (r : nat)                          (* pool.add_repository(r) *)
  | SetPoolModifiers (m : option nat)                (* pool.modifiers = m *)
  | WhatProvides (r : requirement) (b : bool)        (* pool.what_provides(r, b) *)
  | NameToPackages (n : string)                      (* pool.name_to_packages(n) *)
  | PackageId (p : package)                          (* pool.package_id(p) *)
  | IdToPackage (i : Z)                              (* pool.id_to_package(i) *)
  | Solve (e : env) (fuel : nat) (remote : list nat) (inst : nat) (pruning strict : bool) (k : nat)
  | SolveWithHint (e : env) (fuel : nat) (remote : list nat) (inst : nat) (pruning strict : bool) (k : nat).

Inductive answer :=
  | ADone | APackages (ps : list package) | AId (i : Z) | APackage (p : package)
  | ASolved (o : out transaction) | AHint (o : transaction + list job)
  | ARaise (x : exn).
Definition to_answer {A} (f : A → answer) (r : res A) : answer :=
  match r with Ok a => f a | Raise x => ARaise x end.

(** pool.py 61-90: the pool as its methods see it now. *)
Definition pool_now (w : world) : pool := set_mods (w_pool w) (w_pmods w ≫= λ a, w_mods w !! a).

(** dependency_solver.py 373-463: what solve sees: the solver and the request with the present contents of its modifiers. *)
Definition solver_now (w : world) (remote : list nat) (inst : nat) (pruning strict : bool) : option dep_solver :=
  rs ← mapM (λ r, w_repos w !! r) remote;
  i ← w_repos w !! inst;
  Some (DepSolver (pool_now w) (repo_iter <$> rs) (repo_iter i) pruning strict).
Definition request_now (w : world) (k : nat) : option (nat * request) :=
  '(a, jobs) ← w_reqs w !! k; m ← w_mods w !! a; Some (a, Request m jobs).
(** dependency_solver.py 390-395: the assignment to [pool.modifiers].  The converted request shares the
    modifiers object; so do the requests of the callback of solve_with_hint (449-452). *)
Definition after_solve (w : world) (ds : dep_solver) (a : nat) (rq : request) : world :=
  match convert_upgrade rq (ds_remote ds) (ds_installed ds) with
  | Ok _ => World (w_mods w) (w_reqs w) (w_repos w) (w_pool w) (if decide (targets (rq_mods rq) = ∅) then None else Some a)
  | Raise _ => w
  end.

(** One call; [None] if it refers to an object that does not exist. *)
Definition step (w : world) (c : call) : option (world * answer) :=
  match c with
  | NewModifiers m => Some (World (w_mods w ++ [m]) (w_reqs w) (w_repos w) (w_pool w) (w_pmods w), ADone)
  | UpdateModifiers a b =>
      m ← w_mods w !! a; o ← w_mods w !! b;
      Some (World (<[a := mods_update m o]> (w_mods w)) (w_reqs w) (w_repos w) (w_pool w) (w_pmods w), ADone)
  | RemoveModifiers a ps =>
      m ← w_mods w !! a;
      Some (World (<[a := mods_remove m ps]> (w_mods w)) (w_reqs w) (w_repos w) (w_pool w) (w_pmods w), ADone)
  | NewRequest a =>
      _ ← w_mods w !! a; Some (World (w_mods w) (w_reqs w ++ [(a, [])]) (w_repos w) (w_pool w) (w_pmods w), ADone)
  | RequestCall k c =>
      '(a, rq) ← request_now w k;
      match do_call rq c with
      | Ok rq' => Some (World (<[a := rq_mods rq']> (w_mods w)) (<[k := (a, rq_jobs rq')]> (w_reqs w)) (w_repos w) (w_pool w) (w_pmods w), ADone)
      | Raise x => Some (w, ARaise x)
      end
  | NewRepository ps => Some (World (w_mods w) (w_reqs w) (w_repos w ++ [repo_of ps]) (w_pool w) (w_pmods w), ADone)
  | AddPackage r p =>
      re ← w_repos w !! r;
      Some (World (w_mods w) (w_reqs w) (<[r := add_package re p]> (w_repos w)) (w_pool w) (w_pmods w), ADone)
  | AddRepository r =>
      re ← w_repos w !! r;
      let '(po, x) := add_repository_eff (w_pool w) (repo_iter re) in
      Some (World (w_mods w) (w_reqs w) (w_repos w) po (w_pmods w), match x with None => ADone | Some x => ARaise x end)
  | SetPoolModifiers None => Some (World (w_mods w) (w_reqs w) (w_repos w) (w_pool w) None, ADone)
  | SetPoolModifiers (Some a) =>
      _ ← w_mods w !! a; Some (World (w_mods w) (w_reqs w) (w_repos w) (w_pool w) (Some a), ADone)
  | WhatProvides r b => Some (w, to_answer APackages (what_provides (pool_now w) r b))
  | NameToPackages n =>
      let '(po, l) := name_to_packages_eff (w_pool w) n in
      Some (World (w_mods w) (w_reqs w) (w_repos w) po (w_pmods w), APackages l)
  | PackageId p => Some (w, to_answer AId (package_id (pool_now w) p))
  | IdToPackage i => Some (w, to_answer APackage (id_to_package (pool_now w) i))
  | Solve e fuel remote inst pruning strict k =>
      ds ← solver_now w remote inst pruning strict;
      '(a, rq) ← request_now w k;
      Some (after_solve w ds a rq, to_answer ASolved (solve e ds fuel rq))
  | SolveWithHint e fuel remote inst pruning strict k =>
      ds ← solver_now w remote inst pruning strict;
      '(a, rq) ← request_now w k;
      Some (after_solve w ds a rq, to_answer AHint (solve_with_hint e ds fuel rq))
  end.

(** A history: the calls made, with their answers. *)
Fixpoint happens (w : world) (h : list (call * answer)) (w' : world) : Prop :=
  match h with
  | [] => w = w'
  | (c, a) :: h => ∃ w1, step w c = Some (w1, a) ∧ happens w1 h w'
  end.
