(** * Versions, constraint kinds, requirements (simplesat/constraints). *)
From Verif Require Export Base.

(** okonomiyaki.versions.EnpkgVersion (external): an upstream version and a build
    number, ordered lexicographically.  Simplification: the upstream version is
    represented by its rank in the total order of upstream versions. *)
Record version := V { upstream : Z; build : Z }.
Global Instance version_eq_dec : EqDecision version.
Proof. solve_decision. Defined.

Definition ver_eqb (a b : version) : bool :=
  (upstream a =? upstream b) && (build a =? build b).
Definition ver_ltb (a b : version) : bool :=
  (upstream a <? upstream b) || ((upstream a =? upstream b) && (build a <? build b)).
Definition ver_leb (a b : version) : bool :=
  (upstream a <? upstream b) || ((upstream a =? upstream b) && (build a <=? build b)).

(** constraints/kinds.py 20-114: the constraint classes. *)
Inductive constr :=
  | CAny                    (* Any, 20-34 *)
  | CEqual (v : version)    (* Equal, 54-59 *)
  | CNot (v : version)      (* Not, 62-67 *)
  | CGeq (v : version)      (* GEQ, 70-75 *)
  | CGt (v : version)       (* GT, 78-83 *)
  | CLeq (v : version)      (* LEQ, 86-91 *)
  | CLt (v : version)       (* LT, 94-99 *)
  | CUpstream (v : version) (* EnpkgUpstreamMatch, 102-114 *).
Global Instance constr_eq_dec : EqDecision constr.
Proof. solve_decision. Defined.

(** kinds.py: the [matches] methods, lines 21, 58, 66, 74, 82, 90, 98, 113. *)
Definition cmatches (c : constr) (candidate : version) : bool :=
  match c with
  | CAny => true
  | CEqual v => ver_eqb v candidate
  | CNot v => negb (ver_eqb v candidate)
  | CGeq v => ver_leb v candidate
  | CGt v => ver_ltb v candidate
  | CLeq v => ver_leb candidate v
  | CLt v => ver_ltb candidate v
  | CUpstream v => upstream candidate =? upstream v
  end.

(** constraints/multi.py 37-50: MultiConstraints.matches. *)
Fixpoint multi_matches (cs : list constr) (candidate : version) : bool :=
  match cs with
  | [] => true
  | c :: r => if negb (cmatches c candidate) then false else multi_matches r candidate
  end.

(** constraints/requirement.py 44-241: Requirement and its two subclasses. *)
Inductive rclass := RBase | RInstall | RConflict.
Global Instance rclass_eq_dec : EqDecision rclass.
Proof. solve_decision. Defined.

Record requirement := Req { r_class : rclass; r_name : string; r_cons : list constr }.
Global Instance requirement_eq_dec : EqDecision requirement.
Proof. solve_decision. Defined.

(** requirement.py 184-194: Requirement.matches. *)
Definition req_matches (r : requirement) (v : version) : bool :=
  multi_matches (r_cons r) v.

(** requirement.py 223-233: has_any_version_constraint. *)
Definition has_any_version_constraint (r : requirement) : bool :=
  match r_cons r with
  | [] => false
  | [CAny] => false
  | _ => true
  end.

(** A constraint tuple of PackageMetadata: (name, disjunction of conjunctions of
    constraint strings).  Simplification: a constraint string is represented by the
    tuple of constraints it parses to (parser.py 171-189). *)
Definition cstr := list constr.
Definition cdep : Type := string * list (list cstr).

(** requirement.py 56-111: Requirement.from_constraints. *)
Definition insert_star (conjunction : list cstr) : list cstr :=
  match conjunction with [] => [[CAny]] | _ => conjunction end.
Definition from_constraints (cls : rclass) (d : cdep) : res requirement :=
  let '(name, disjunction) := d in
  if (1 <? length disjunction)%nat then Raise InvalidConstraint
  else Ok (Req cls name (mjoin (mjoin (insert_star <$> disjunction)))).

(** requirement.py 126-156 on a bare package name ("numpy"): [Requirement(name, (Any(),))]. *)
Definition req_of_name (cls : rclass) (name : string) : requirement :=
  Req cls name [CAny].

(** requirement.py 158-178: from_package_string("{name}-{version}"); also
    [_from_string("{name} == {version}")].  Simplification: we start from the parsed pair. *)
Definition req_exact (name : string) (v : version) : requirement :=
  Req RInstall name [CEqual v].

(** constraints/constraint_modifiers.py 84-117: ConstraintModifiers. *)
Record modifiers := Mods {
  allow_newer : gset string;
  allow_any : gset string;
  allow_older : gset string }.
Definition no_mods : modifiers := Mods ∅ ∅ ∅.

(** constraint_modifiers.py 115-117: targets. *)
Definition targets (m : modifiers) : gset string :=
  allow_newer m ∪ allow_any m ∪ allow_older m.

(** constraint_modifiers.py 93-97: update. *)
Definition mods_update (m o : modifiers) : modifiers :=
  Mods (allow_newer m ∪ allow_newer o) (allow_any m ∪ allow_any o)
       (allow_older m ∪ allow_older o).
(** constraint_modifiers.py 99-113: remove. *)
Definition mods_remove (m : modifiers) (packages : gset string) : modifiers :=
  Mods (allow_newer m ∖ packages) (allow_any m ∖ packages) (allow_older m ∖ packages).

(** constraint_modifiers.py 19, 27-30. *)
Definition MAX_BUILD : Z := 999999999.
Definition leq_least_upper_bound (v : version) : constr :=
  CLeq (V (upstream v) MAX_BUILD).

(** constraint_modifiers.py 33-64: the three type maps. *)
Definition allow_newer_map (c : constr) : constr :=
  match c with
  | CAny => CAny | CEqual v => CGeq v | CNot v => CNot v | CGeq v => CGeq v
  | CGt v => CGt v | CLeq _ => CAny | CLt _ => CAny | CUpstream v => CGeq v
  end.
Definition allow_older_map (c : constr) : constr :=
  match c with
  | CAny => CAny | CEqual v => CLeq v | CNot v => CNot v | CGeq _ => CAny
  | CGt _ => CAny | CLeq v => CLeq v | CLt v => CLt v
  | CUpstream v => leq_least_upper_bound v
  end.
Definition allow_any_map (c : constr) : constr :=
  match c with
  | CNot v => CNot v
  | _ => CAny
  end.

(** constraint_modifiers.py 120-144: _modify_install_requirement.  The second component
    says whether a new object was returned ([new_r is not requirement]). *)
Definition modify_install (r : requirement) (m : modifiers) : requirement * bool :=
  let name := r_name r in
  let c0 := r_cons r in
  let '(c1, m1) := if decide (name ∈ allow_older m)
                   then (allow_older_map <$> c0, true) else (c0, false) in
  let '(c2, m2) := if decide (name ∈ allow_newer m)
                   then (allow_newer_map <$> c1, true) else (c1, m1) in
  let '(c3, m3) := if decide (name ∈ allow_any m)
                   then (allow_any_map <$> c2, true) else (c2, m2) in
  if m3 && bool_decide (c3 ≠ c0)
  then (Req RInstall name (fromkeys c3), true)
  else (r, false).

(** constraint_modifiers.py 154-163: modify_requirement. *)
Definition modify_requirement (r : requirement) (m : modifiers) : res requirement :=
  match r_class r with
  | RInstall => Ok (fst (modify_install r m))
  | _ => if has_any_version_constraint r then
           if snd (modify_install r m) then Raise NotImplementedError else Ok r
         else Ok r
  end.

(** requirement.py 113-124: to_constraints.  The parts are the strings of the constraints
    (kinds.py [__str__]); as everywhere they are represented by what they parse to.  [^=] prints the
    upstream version only (kinds.py 110-111), so its build number is lost. *)
Definition reparsed (c : constr) : constr :=
  match c with CUpstream v => CUpstream (V (upstream v) 0) | _ => c end.
Definition to_constraints (r : requirement) : cdep :=
  (r_name r, [(λ c, [reparsed c]) <$> r_cons r]).
