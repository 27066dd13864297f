(** * Definition texts (simplesat/test_utils.py 23-60). *)
From Coq Require Import Ascii String.
From Verif Require Export Scenario.
From Verif Require Import External.
From Verif Require Regex.
Open Scope list_scope.

(** [str.splitlines()] of a text (External.v). *)
Definition text_lines (t : text) : list text := of_s <$> splitlines (to_s t).

Section utils.
  (** EnpkgVersion.from_string *)
  Context (vparse : text → res version).
  (** 48-54: packages_from_definition *)
  Definition packages_from_definition (t : text) : res (list metadata) :=
    mapM_res (λ line, parse_to_package vparse (strip line)) (filter (λ line, strip line ≠ []) (text_lines t)).
  (** A package without repository.  Simplification, as in Scenario.v: its constraint strings are parsed here; the code parses them when they
      are needed (pool.py 54, rules_generator.py 311, 384). *)
  Definition bare_package (m : metadata) : res package :=
    p ← package_of vparse "" m; Ok (Pkg (p_name p) (p_version p) (p_requires p) (p_conflicts p) (p_provides p) None).
  (** 57-60: pool_and_repository_from_packages *)
  Definition pool_and_repository_from_packages (t : text) : res (pool * repository) :=
    ms ← packages_from_definition t;
    ps ← mapM_res bare_package ms;
    let r := repo_of ps in
    po ← pool_of [repo_iter r] None; Ok (po, r).
  (** What 23-45 are for: the rules of [RulesGenerator(pool, request)] for a request to install the requirement
      (rules_generator.py 156-179). *)
  Definition requirement_rules (po : pool) (fuel : nat) (r : requirement) : res (list rule) :=
    rq ← do_call (request_new no_mods) (CallInstall r);
    st ← iter_rules po [] false fuel (rq_jobs rq); Ok (g_rules st).
  (** 23-45: generate_rules_for_requirement.  It passes the keyword [installed_map], which RulesGenerator does not know
      (rules_generator.py 156-157). *)
  Definition generate_rules_for_requirement (po : pool) (r : requirement) (installed : list (Z * package)) : res (list rule) :=
    _ ← do_call (request_new no_mods) (CallInstall r); Raise TypeError.
End utils.
