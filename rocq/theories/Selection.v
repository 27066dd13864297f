(** * packages_from_requirements with its sorting (simplesat/dependency_solver.py 41-65).
    DepSolver.v takes the sorting by [_key] as a parameter that only permutes; here the comparison of keys is modelled. *)
From Verif Require Export DepSolver.

(** package.py 113: the key of a PackageMetadata; 168: that of a RepositoryPackageMetadata pairs it with the repository
    info. *)
Definition pkey : Type := string * version * list cdep * list cdep.
Definition plain_key (p : package) : pkey := (p_name p, p_version p, p_requires p, p_conflicts p).

Section keys.
  (** [<] on the metadata tuples (tuples of tuples of strings) *)
  Context (dlt : list cdep → list cdep → bool).
  (** [<] on 4-tuples: the first components that differ decide. *)
  Definition key_lt (a b : pkey) : bool :=
    let '(n1, v1, r1, c1) := a in
    let '(n2, v2, r2, c2) := b in
    if decide (n1 = n2) then
      if decide (v1 = v2) then
        if decide (r1 = r2) then dlt c1 c2 else dlt r1 r2
      else ver_ltb v1 v2
    else str_ltb n1 n2.
  (** [p._key < q._key].  Comparing a string with a tuple raises TypeError, and so does comparing two RepositoryInfo objects,
      which is needed if the packages agree and the infos are not equal. *)
  Definition can_compare (p q : package) : bool :=
    match p_repo p, p_repo q with
    | None, None => true
    | Some i, Some j => bool_decide (plain_key p ≠ plain_key q ∨ i = j)
    | _, _ => false
    end.
  (** 65: [sorted(l, key=lambda p: p._key)].  If two keys cannot be compared, sorting meets such a pair: to order a list its
      comparisons must connect all elements, and two keys that differ in the info only are neighbours in the order. *)
  Definition sorted_by_key (l : list package) : res (list package) :=
    if forallb (λ p, forallb (can_compare p) l) l
    then Ok (sort_by (λ p q, key_lt (plain_key p) (plain_key q)) l)
    else Raise TypeError.
  (** 41-65 *)
  Definition select_packages (ps : list package) (reqs : list requirement) (m : option modifiers) : res (list package) :=
    l ← packages_from_requirements (λ l, l) ps reqs m;
    sorted_by_key l.
End keys.
