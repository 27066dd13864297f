(** * The dependency solver (simplesat/dependency_solver.py) *)
From Verif Require Export Transaction Policy.

(** What Python leaves unspecified: the iteration order of sets of integers (it may differ from one
    use to the next, hence the index) and of sets of packages. *)
Record env := Env {
  e_ord : nat → gset Z → list Z;
  e_pkgs : list Z → list Z }.

(** Reading a set of integers in iteration order. *)
Definition env_ok (e : env) : Prop :=
  (∀ n X, e_ord e n X ≡ₚ elements X) ∧ (∀ l, e_pkgs e l ≡ₚ l).

(** Repositories.  The installed repository is given by the list it iterates over; [package in
    installed_repository] is membership with package equality (RepositoryProofs.v relates this to
    Repository.__contains__). *)
Definition pkg_in (p : package) (l : list package) : bool := existsb (pkg_eq p) l.

(** 355-371: __init__; the timings are left out. *)
Record dep_solver := DepSolver {
  ds_pool : pool;
  ds_remote : list (list package);        (* remote_repositories *)
  ds_installed : list package;            (* installed_repository *)
  ds_pruning : bool;
  ds_strict : bool }.

(** 514-540: _convert_upgrade_request_if_needed *)
Definition upgrade_requirement (p : package) : requirement := req_exact (p_name p) (p_version p).
Definition latest_packages (remote : list (list package)) (inst : list package) : list package :=
  let repo := foldl repo_update repo_empty remote in
  omap (λ p, last (find_packages repo (p_name p))) inst.
Definition convert_upgrade (rq : request) (remote : list (list package)) (inst : list package)
  : res request :=
  match rq_jobs rq with
  | [j] =>
      if decide (j_kind j = JUpgrade) then
        foldM (λ rq p, add_job rq (Some (upgrade_requirement p)) JInstall)
              (latest_packages remote inst) (Request (rq_mods rq) [])
      else Ok rq
  | _ => Ok rq
  end.

(** 589-593: _solution_to_ids *)
Definition solution_to_ids (a : aset) : list Z :=
  sort_by abs_lt ((λ kv, match kv.2 with Some true => kv.1 | _ => - kv.1 end) <$> aset_items a).

Section pruning.
  Context (e : env) (po : pool).

  (** 549-551: get_names *)
  Definition get_names (i : Z) : res (list string) :=
    p ← id_to_package po (Z.abs i); Ok (pkg_provides p).*1.

  (** 553: root_names *)
  Definition root_names (roots : list Z) : res (gset string) :=
    foldM (λ acc i, ns ← get_names i; Ok (acc ∪ list_to_set ns)) roots ∅.

  (** 555-560: solution_name_to_id; later entries overwrite earlier ones *)
  Definition name_to_id (solution : list Z) : res (gmap string Z) :=
    foldM (λ m i, ns ← get_names i;
             Ok (if decide (0 < i) then foldl (λ m n, <[n := i]> m) m ns else m)) solution ∅.

  (** 567-572: neighborfunc *)
  Definition neighborfunc (n2i : gmap string Z) (i : Z) : res (gset Z) :=
    p ← id_to_package po i;
    ids ← mapM_res (λ d, of_option KeyError (n2i !! d.1)) (p_requires p);
    Ok (list_to_set ids).

  (** 543-586: _connected_packages *)
  Definition connected_packages (fuel : nat) (solution : list Z) (roots : gset Z) : res (gset Z) :=
    rnames ← root_names (e_ord e 0 roots);
    n2i ← name_to_id solution;
    let sroots : gset Z := list_to_set (filter (λ ni, ni.1 ∈ rnames) (map_to_list n2i)).*2 in
    incl ← foldM (λ incl i, connected_nodes (e_ord e) (neighborfunc n2i) fuel i incl)
                 (e_ord e 1 sroots) ∅;
    _ ← (if decide (sroots ⊆ incl) then Ok () else Raise AssertionError);
    Ok (incl ∪ list_to_set (filter (λ s, Z.abs s ∈ roots) solution)).
End pruning.

(** The key used by the two [max] calls for hard updates (486-489). *)
Definition installed_lt (inst : list package) (p q : package) : bool :=
  ver_ltb (p_version p) (p_version q)
  || (ver_eqb (p_version p) (p_version q) && negb (pkg_in p inst) && pkg_in q inst).

(** 470-497: the loop over the jobs; returns all_requirement_ids and soft_update_packages. *)
Definition job_ids (po : pool) (inst : list package) (acc : list Z * list package) (j : job)
  : res (list Z * list package) :=
  match j_kind j, j_req j with
  | JUpgrade, _ | _, None => Raise AssertionError
  | k, Some r =>
      providers ← what_provides po r false;
      match providers with
      | [] => Raise NoPackageFound
      | p :: rest =>
          let ps := if decide (k = JHardUpdate) then [max_first (installed_lt inst) p rest]
                    else p :: rest in
          let soft := if decide (k = JSoftUpdate)
                      then filter (λ q, pkg_in q inst = true) (p :: rest) else [] in
          ids ← mapM_res (package_id po) ps;
          Ok (acc.1 ++ ids, acc.2 ++ soft)
      end
  end.

(** 499-502: installed_package_ids (an OrderedDict) *)
Fixpoint iset (d : list (Z * package)) (i : Z) (p : package) : list (Z * package) :=
  match d with
  | [] => [(i, p)]
  | (j, q) :: r => if j =? i then (j, p) :: r else (j, q) :: iset r i p
  end.
Definition installed_ids (po : pool) (inst : list package) : res (list (Z * package)) :=
  foldM (λ d p, i ← package_id po p; Ok (iset d i p)) inst [].

(** undetermined_clause_policy.py 22-27: _prefer_installed_pkg_ids *)
Definition id_ver_lt (po : pool) (i j : Z) : bool :=
  match pkg_id_to_version po i, pkg_id_to_version po j with
  | Some v, Some w => ver_ltb v w
  | _, _ => false
  end.
Definition preferred_ids (e : env) (po : pool) (inst soft : list package) : res (list Z) :=
  ids ← mapM_res (package_id po) (filter (λ p, pkg_in p soft = false) inst);
  Ok (sort_by (id_ver_lt po) (e_pkgs e (fromkeys ids))).

(** 465-511: _create_rules_and_initialize_policy: the requirement ids, the rules, the environment and
    initial state of the policy. *)
Definition create_rules (e : env) (po : pool) (inst : list package) (strict : bool) (fuel : nat) (rq : request)
  : res (list Z * list rule * uc_env * uc_state) :=
  '(ids, soft) ← foldM (job_ids po inst) (rq_jobs rq) ([], []);
  iids ← installed_ids po inst;
  prefer ← preferred_ids e po inst soft;
  st ← iter_rules po iids strict fuel (rq_jobs rq);
  Ok (ids, g_rules st, UcEnv (pkg_id_to_version po) (e_ord e) prefer, uc_add_requirements ids uc_new).

(** The clauses from_rules passes to the solver (minisat.py 281-285). *)
Definition rule_clauses (rules : list rule) : list (list Z * option rule) :=
  (λ r, (ru_lits r, Some r)) <$> rules.

(** 394-395: the pool modifiers during solve *)
Definition solve_pool (po : pool) (rq : request) : pool :=
  set_mods po (if decide (targets (rq_mods rq) = ∅) then None else Some (rq_mods rq)).

(** 373-419: solve.  [Unsat] is SatisfiabilityError (with what its report is built from). *)
Definition solve (e : env) (ds : dep_solver) (fuel : nat) (rq : request) : res (out transaction) :=
  rq ← convert_upgrade rq (ds_remote ds) (ds_installed ds);
  let po := solve_pool (ds_pool ds) rq in
  '(req_ids, rules, uenv, ust) ← create_rules e po (ds_installed ds) (ds_strict ds) fuel rq;
  o ← solve_clauses (logged_policy (uc_policy uenv)) fuel (ust, [], []) (rule_clauses rules);
  match o with
  | Unsat c l s => Ok (Unsat c l s)
  | Normal a =>
      let solution := solution_to_ids a in
      iids ← mapM_res (package_id po) (ds_installed ds);
      let inst : gset Z := list_to_set iids in
      decisions ← (if ds_pruning ds
                   then X ← connected_packages e po fuel solution (inst ∪ list_to_set req_ids);
                        Ok (e_ord e 2 X)
                   else Ok solution);
      t ← mk_transaction po decisions (e_ord e 3 inst);
      Ok (Normal t)
  end.

(** 228-306: minimal_unsatisfiable_subset *)
Section mus.
  Context {A : Type} (callback : list A → res bool).

  (** 272-278: split *)
  Definition split (s : list A) : list A * list A :=
    (take (length s / 2) s, drop (length s / 2) s).

  (** 280-304: minimal_unsat.  Fuel bounds the recursion depth; on the empty list the Python code
      recurses until RecursionError. *)
  Fixpoint minimal_unsat (fuel : nat) (clauses include : list A) : res (list A) :=
    match fuel with
    | O => Raise OutOfFuel
    | S fuel =>
        if (length clauses =? 1)%nat then Ok clauses
        else
          let '(a, b) := split clauses in
          sa ← callback (a ++ include);
          if negb sa then minimal_unsat fuel a include
          else
            sb ← callback (b ++ include);
            if negb sb then minimal_unsat fuel b include
            else
              astar ← minimal_unsat fuel a (b ++ include);
              bstar ← minimal_unsat fuel b (astar ++ include);
              Ok (astar ++ bstar)
    end.
  Definition minimal_unsatisfiable_subset (fuel : nat) (clauses : list A) : res (list A) :=
    b ← callback clauses;
    if (b : bool) then Raise UnexpectedlySatisfiable else minimal_unsat fuel clauses [].
End mus.

(** 421-463: solve_with_hint: the transaction or the conflicting jobs. *)
Definition hint_callback (e : env) (ds : dep_solver) (fuel : nat) (m : modifiers) (jobs : list job) : res bool :=
  o ← solve e ds fuel (Request m jobs);
  match o with Normal _ => Ok true | Unsat _ _ _ => Ok false end.
Definition solve_with_hint (e : env) (ds : dep_solver) (fuel : nat) (rq : request)
  : res (transaction + list job) :=
  o ← solve e ds fuel rq;
  match o with
  | Normal t => Ok (inl t)
  | Unsat _ _ _ =>
      rq ← convert_upgrade rq (ds_remote ds) (ds_installed ds);
      js ← minimal_unsatisfiable_subset (hint_callback e ds fuel (rq_mods rq)) fuel (rq_jobs rq);
      Ok (inr js)
  end.

(** 22-38: requirements_from_packages *)
Definition requirements_from_packages (ps : list package) : list requirement :=
  (λ p, req_exact (p_name p) (p_version p)) <$> ps.

(** 41-65: packages_from_requirements.  The result of [sorted(set, key=_key)] is represented by the
    set in order of first occurrence; [sortk] puts it in the order of the keys (Selection.v models the comparison). *)
Definition packages_from_requirements (sortk : list package → list package)
    (ps : list package) (reqs : list requirement) (m : option modifiers) : res (list package) :=
  po ← pool_of [repo_iter (repo_of ps)] m;
  l ← foldM (λ acc r, qs ← what_provides po r true;
        Ok (foldl (λ acc q, if pkg_in q acc then acc else acc ++ [q]) acc qs)) reqs [];
  Ok (sortk l).

(** 120-152: requirements_are_satisfiable: the field is_satisfiable (the report is C51). *)
Definition requirements_are_satisfiable (e : env) (fuel : nat) (ps : list package) (reqs : list requirement)
    (m : option modifiers) : res bool :=
  let m := default no_mods m in
  rq ← foldM (λ rq r, add_job rq (Some r) JInstall) reqs (request_new m);
  let repo := repo_iter (repo_of ps) in
  po ← pool_of [repo] (Some m);
  o ← solve e (DepSolver po [repo] [] true false) fuel rq;
  match o with Normal _ => Ok true | Unsat _ _ _ => Ok false end.

(** 68-91: packages_are_consistent *)
Definition packages_are_consistent (e : env) (fuel : nat) (ps : list package) (m : option modifiers) : res bool :=
  requirements_are_satisfiable e fuel ps (requirements_from_packages ps) m.

(** 94-117: requirements_are_complete *)
Definition requirements_are_complete (e : env) (sortk : list package → list package) (fuel : nat)
    (ps : list package) (reqs : list requirement) (m : option modifiers) : res bool :=
  ps ← packages_from_requirements sortk ps reqs m;
  requirements_are_satisfiable e fuel ps reqs m.

(** 155-193: satisfy_requirements.  [Request(modifiers=None)] fails its attrs validator (request.py
    64-65) with TypeError. *)
Definition satisfy_requirements (e : env) (fuel : nat) (ps : list package) (reqs : list requirement)
    (m : option modifiers) : res (out (list package)) :=
  m' ← of_option TypeError m;
  rq ← foldM (λ rq r, add_job rq (Some r) JInstall) reqs (request_new m');
  let repo := repo_iter (repo_of ps) in
  po ← pool_of [repo] m;
  o ← solve e (DepSolver po [repo] [] true false) fuel rq;
  match o with
  | Unsat c l s => Ok (Unsat c l s)
  | Normal t =>
      _ ← (if forallb (λ o, match o with InstallOp _ => true | _ => false end) (t_ops t)
           then Ok () else Raise AssertionError);
      Ok (Normal (op_package <$> t_ops t))
  end.

(** 196-225: simplify_requirements *)
Definition simplify_requirements (sortk : list package → list package) (ps : list package)
    (reqs : list requirement) : res (list requirement) :=
  needed ← packages_from_requirements sortk ps reqs None;
  po ← pool_of [repo_iter (repo_of ps)] None;
  deps ← foldM (λ acc p,
           foldM (λ acc c, r ← from_constraints RInstall c; qs ← what_provides po r true;
                           Ok (acc ++ qs)) (p_requires p) acc) needed [];
  Ok (requirements_from_packages (filter (λ p, pkg_in p deps = false) needed)).
