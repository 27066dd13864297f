(** * Scenario files (simplesat/test_utils.py), after YAML loading.

    Simplifications: the loaded data has the documented shape (a mapping with lists of strings etc.); values of
    other types are not considered.  "decisions" is only stored and is left out. *)
From Verif Require Export PackageParser DepSolver.
From Coq Require Import Ascii String.
Open Scope list_scope.

(** 189-206: an entry of "transaction" or "pretty_transaction"; [None]: the key is missing. *)
Record op_data := OpData { od_kind : option string; od_package : option text; od_to : option text; od_from : option text }.
(** 152-162: an entry of "request". *)
Record request_data := RequestData { rd_operation : option string; rd_requirement : option text }.
(** 140-183: the loaded mapping; a missing list is an empty one, except for "remote". *)
Record scenario_data := ScenarioData {
  sd_packages : list text;
  sd_remote : option (list text);
  sd_installed : list text;
  sd_marked : list text;
  sd_modifiers : list (string * list string);
  sd_request : list request_data;
  sd_transaction : list op_data;
  sd_pretty : list op_data;
  sd_failure : option text }.

(** transaction.py 9-26: the operations, here on packages without repository. *)
Inductive expected_op := ExpInstall (p : metadata) | ExpUpdate (p source : metadata) | ExpRemove (p : metadata).

(** 208-218: the attributes of a Scenario.  The repositories are given by the packages added to them, in this
    order; [Scenario.remote_repositories] has one element. *)
Record scenario := MkScenario {
  sc_packages : list (text * metadata);
  sc_remote : list metadata;
  sc_installed : list metadata;
  sc_request : request;
  sc_operations : list expected_op;
  sc_pretty : list expected_op;
  sc_failure : option text }.
(** 220-222: failed *)
Definition sc_failed (sc : scenario) : bool := match sc_failure sc with Some _ => true | None => false end.

(** [getattr(request, kind)] (request.py 63-90).  Simplification: attributes whose names begin with "_" are
    treated as missing. *)
Inductive attribute := AInstall | ARemove | AHardUpdate | ASoftUpdate | AUpgrade | ANewer | AAny | AOlder | AData.
Definition request_attribute (kind : string) : res attribute :=
  if decide (kind = "install") then Ok AInstall
  else if decide (kind = "remove") then Ok ARemove
  else if decide (kind = "upgrade") then Ok AUpgrade
  else if decide (kind = "hard_update") then Ok AHardUpdate
  else if decide (kind = "soft_update") then Ok ASoftUpdate
  else if decide (kind = "allow_newer") then Ok ANewer
  else if decide (kind = "allow_any") then Ok AAny
  else if decide (kind = "allow_older") then Ok AOlder
  else if decide (kind = "modifiers") then Ok AData
  else if decide (kind = "jobs") then Ok AData
  else Raise AttributeError.
(** The attribute called with a string: the job methods do not take strings (request.py 20), upgrade takes no
    argument, and the data attributes cannot be called. *)
Definition call_with_name (rq : request) (a : attribute) (n : string) : res request :=
  match a with
  | ANewer => do_call rq (CallAllowNewer n)
  | AAny => do_call rq (CallAllowAny n)
  | AOlder => do_call rq (CallAllowOlder n)
  | _ => Raise TypeError
  end.
(** The attribute called with a requirement.  Simplification: allow_newer etc. would put the requirement object
    into a set of names; that is not modelled. *)
Definition call_with_requirement (rq : request) (a : attribute) (r : requirement) : res request :=
  match a with
  | AInstall => do_call rq (CallInstall r)
  | ARemove => do_call rq (CallRemove r)
  | AHardUpdate => do_call rq (CallHardUpdate r)
  | ASoftUpdate => do_call rq (CallSoftUpdate r)
  | AUpgrade | AData => Raise TypeError
  | ANewer | AAny | AOlder => Raise NotImplementedError
  end.

(** [l.remove(x)], with its ValueError ignored (158-161): the first occurrence is removed. *)
Fixpoint remove_first (x : text) (l : list text) : list text :=
  match l with
  | [] => []
  | y :: r => if decide (y = x) then r else y :: remove_first x r
  end.
(** [OrderedDict(pairs)]: a later value replaces an earlier one and takes its place. *)
Fixpoint odict_set {A} (d : list (text * A)) (k : text) (v : A) : list (text * A) :=
  match d with
  | [] => [(k, v)]
  | (k', v') :: r => if decide (k' = k) then (k, v) :: r else (k', v') :: odict_set r k v
  end.
Definition odict_get {A} (d : list (text * A)) (k : text) : res A :=
  match list_find (λ kv : text * A, kv.1 = k) d with Some (_, kv) => Ok kv.2 | None => Raise KeyError end.

Section load.
  (** EnpkgVersion.from_string, and [str(EnpkgVersion.from_string(t))]. *)
  Context (vparse : text → res version) (vtext : text → text).

  (** 63-78: parse_package_list, for one string.  The name is formatted with [str(package.version)]; the version is
      that of the preamble (package_parser.py 70-72). *)
  Definition parse_named (s : text) : res (text * metadata) :=
    m ← parse_to_package vparse s;
    '(_, v) ← parse_preamble (split_first ";" (strip s)).1;
    Ok (of_s (mt_name m) ++ of_s " " ++ vtext v, m).
  (** 182-183 *)
  Definition parse_packages (lines : list text) : res (list (text * metadata)) :=
    foldM (λ d s, '(k, m) ← parse_named s; Ok (odict_set d k m)) lines [].

  (** 81-87: repository_factory *)
  Definition repository_factory (names : list text) (packages : list (text * metadata)) : res (list metadata) :=
    mapM_res (odict_get packages) names.

  (** 189-206: _operations_from_transaction_list *)
  Definition P (s : option text) : res metadata :=
    s ← of_option KeyError s; '(_, m) ← parse_named s; Ok m.
  Definition one_operation (o : op_data) : res expected_op :=
    kind ← of_option KeyError (od_kind o);
    if decide (kind = "install") then p ← P (od_package o); Ok (ExpInstall p)
    else if decide (kind = "update") then p ← P (od_to o); q ← P (od_from o); Ok (ExpUpdate p q)
    else if decide (kind = "remove") then p ← P (od_package o); Ok (ExpRemove p)
    else Raise ValueError.

  (** 144-148: the modifiers *)
  Definition load_modifiers (rq : request) (ms : list (string * list string)) : res request :=
    foldM (λ rq kv, foldM (λ rq n, a ← request_attribute kv.1; call_with_name rq a n) kv.2 rq) ms rq.
  (** 150-162: the request *)
  Definition load_entry (st : list text * request * bool) (rd : request_data) : res (list text * request * bool) :=
    let '(marked, rq, update_all) := st in
    kind ← of_option KeyError (rd_operation rd);
    if decide (kind = "update_all") then Ok (marked, rq, true)
    else
      s ← of_option KeyError (rd_requirement rd);
      r ← req_from_string vparse RBase s;
      a ← request_attribute kind;
      rq ← call_with_requirement rq a r;
      Ok (remove_first (of_s (r_name r)) marked, rq, update_all).
  (** 164-170: what is left of the marked packages *)
  Definition load_marked (rq : request) (update_all : bool) (marked : list text) : res request :=
    foldM (λ rq s, r ← req_from_string vparse RBase s;
                   do_call rq (if update_all then CallHardUpdate r else CallInstall r)) marked rq.

  (** 132-187: from_yaml; 90-99: remote_repository, installed_repository *)
  Definition from_yaml (d : scenario_data) : res scenario :=
    rq ← load_modifiers (request_new no_mods) (sd_modifiers d);
    '(marked, rq, update_all) ← foldM load_entry (sd_request d) (sd_marked d, rq, false);
    rq ← load_marked rq update_all marked;
    ops ← mapM_res one_operation (sd_transaction d);
    pretty ← mapM_res one_operation (sd_pretty d);
    packages ← parse_packages (sd_packages d);
    remote ← repository_factory (default packages.*1 (sd_remote d)) packages;
    installed ← repository_factory (sd_installed d) packages;
    Ok (MkScenario packages remote installed rq ops pretty (sd_failure d)).

  (** ** Solving a scenario (tests/test_scenarios_policy.py 57-78). *)
  (** A package of the repository [info].  Simplification: all its constraint strings are parsed here; the code parses
      them when they are needed (pool.py 54, rules_generator.py 311, 384, utils/graph.py 121). *)
  Definition parse_dep (d : rdep) : res cdep :=
    cs ← mapM_res (mapM_res (parse_constraints vparse)) d.2; Ok (d.1, cs).
  Definition package_of (info : string) (m : metadata) : res package :=
    rs ← mapM_res parse_dep (mt_requires m);
    cs ← mapM_res parse_dep (mt_conflicts m);
    ps ← mapM_res parse_dep (mt_provides m);
    Ok (Pkg (mt_name m) (mt_version m) rs cs ps (Some info)).
  Definition scenario_solver (sc : scenario) (pruning strict : bool) : res dep_solver :=
    remote ← mapM_res (package_of "remote") (sc_remote sc);
    installed ← mapM_res (package_of "installed") (sc_installed sc);
    let r := repo_iter (repo_of remote) in
    let i := repo_iter (repo_of installed) in
    po ← pool_of [r; i] None;
    Ok (DepSolver po [r] i pruning strict).
  Definition solve_scenario (e : env) (fuel : nat) (sc : scenario) (pruning strict : bool) : res (out transaction) :=
    ds ← scenario_solver sc pruning strict; solve e ds fuel (sc_request sc).
End load.
