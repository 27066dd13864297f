(** * Package metadata, jobs and rules: the data types (package.py, request.py, rules_generator.py). *)
From Verif Require Export Constraints.

(** package.py 44-155 (PackageMetadata) and 158-214 (RepositoryPackageMetadata).
    [p_repo = None] is a plain PackageMetadata, [Some r] a RepositoryPackageMetadata.
    [p_provides] is the constructor argument [_provides]. *)
Record package := Pkg {
  p_name : string;
  p_version : version;
  p_requires : list cdep;
  p_conflicts : list cdep;
  p_provides : list cdep;
  p_repo : option string }.
Global Instance package_eq_dec : EqDecision package.
Proof. solve_decision. Defined.

(** package.py 113, 168: [_key]; 145-149, 204-208: [__eq__] compares keys.  The provides
    are not part of the key. *)
Definition pkg_key (p : package)
  : string * version * list cdep * list cdep * option string :=
  (p_name p, p_version p, p_requires p, p_conflicts p, p_repo p).
Definition pkg_eq (p q : package) : bool := bool_decide (pkg_key p = pkg_key q).

(** package.py 120-124: the [provides] property always lists the package itself. *)
Definition pkg_provides (p : package) : list cdep :=
  (p_name p, [[[CAny]]]) :: p_provides p.

(** rules_generator.py 17-36: RuleType. *)
Inductive rule_type :=
  | job_install | job_remove | job_update | package_requires | package_conflicts
  | package_same_name | package_broken.
Global Instance rule_type_eq_dec : EqDecision rule_type.
Proof. solve_decision. Defined.
Definition is_job (t : rule_type) : bool :=
  match t with job_install | job_remove | job_update => true | _ => false end.

(** Python [sorted] on integers (stable insertion sort; any stable sort gives the same list). *)
Fixpoint insert_Z (x : Z) (l : list Z) : list Z :=
  match l with
  | [] => [x]
  | y :: r => if x <? y then x :: l else y :: insert_Z x r
  end.
Definition sort_Z (l : list Z) : list Z := foldr insert_Z [] l.

(** rules_generator.py 77-81: PackageRule.  [ru_reqs = []] also stands for requirements=None. *)
Record rule := Rule { ru_lits : list Z; ru_reason : rule_type; ru_reqs : list requirement }.
Global Instance rule_eq_dec : EqDecision rule.
Proof. solve_decision. Defined.
Definition mk_rule (lits : list Z) (t : rule_type) (reqs : option (list requirement)) : rule :=
  Rule (sort_Z lits) t (default [] reqs).
