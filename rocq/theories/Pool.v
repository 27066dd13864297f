(** * Pool (simplesat/pool.py) *)
From Verif Require Export Repository.

(** A Python dict keyed by packages, i.e. by their [_key], such as _package_to_id_ (pool.py 30): entries in insertion order.
    [d[k] = v] on a present key keeps the stored key and the position. *)
Definition pdict := list (package * Z).
Fixpoint pdict_get (d : pdict) (p : package) : option Z :=
  match d with
  | [] => None
  | (q, i) :: r => if pkg_eq q p then Some i else pdict_get r p
  end.
Fixpoint pdict_set (d : pdict) (p : package) (i : Z) : pdict :=
  match d with
  | [] => [(p, i)]
  | (q, j) :: r => if pkg_eq q p then (q, i) :: r else (q, j) :: pdict_set r p i
  end.

(** pool.py 24-37: the attributes ([_repositories] is never read). *)
Record pool := MkPool {
  po_next : Z;                                 (* _id *)
  po_p2i : pdict;                              (* _package_to_id_ *)
  po_i2p : list (Z * package);                 (* _id_to_package_, in insertion order *)
  po_byname : gmap string (list package);      (* _packages_by_name_ *)
  po_mods : option modifiers }.                (* modifiers *)
Definition pool_empty (m : option modifiers) : pool := MkPool 1 [] [] ∅ m.

(** 53-59: the body of the loop over package.provides. *)
Definition add_provide (p : package) (byname : gmap string (list package)) (c : cdep)
  : res (gmap string (list package)) :=
  req ← from_constraints RBase c;
  if has_any_version_constraint req then Raise InvalidConstraint
  else Ok (<[r_name req := default [] (byname !! r_name req) ++ [p]]> byname).

(** 47-59: the body of the loop of add_repository.  The keys of [_id_to_package_] are fresh
    counter values, so the dict is extended at the end. *)
Definition pool_add (po : pool) (p : package) : res pool :=
  let id := po_next po in
  byname ← foldM (add_provide p) (pkg_provides p) (po_byname po);
  Ok (MkPool (id + 1) (pdict_set (po_p2i po) p id) (po_i2p po ++ [(id, p)]) byname (po_mods po)).

(** 39-59: add_repository; 24-37: __init__.  A repository is given by what iterating it yields. *)
Definition add_repository (po : pool) (ps : list package) : res pool := foldM pool_add ps po.
Definition pool_of (repos : list (list package)) (m : option modifiers) : res pool :=
  foldM add_repository repos (pool_empty m).

(** Assignment to the attribute [modifiers]. *)
Definition set_mods (po : pool) (m : option modifiers) : pool :=
  MkPool (po_next po) (po_p2i po) (po_i2p po) (po_byname po) m.

(** 86-90: modify_requirement *)
Definition pool_modify (po : pool) (r : requirement) : res requirement :=
  match po_mods po with
  | Some m => modify_requirement r m
  | None => Ok r
  end.

(** 61-84: what_provides *)
Definition what_provides (po : pool) (r : requirement) (use_modifiers : bool) : res (list package) :=
  match po_byname po !! r_name r with
  | None => Ok []
  | Some ps =>
      r' ← (if use_modifiers then pool_modify po r else Ok r);
      Ok (filter (λ p, req_matches r' (p_version p) = true) ps)
  end.

(** 92-98: package_id *)
Definition package_id (po : pool) (p : package) : res Z := of_option ValueError (pdict_get (po_p2i po) p).

(** 100-106: id_to_package *)
Fixpoint zdict_get (d : list (Z * package)) (i : Z) : option package :=
  match d with
  | [] => None
  | (j, p) :: r => if j =? i then Some p else zdict_get r i
  end.
Definition id_to_package (po : pool) (i : Z) : res package := of_option ValueError (zdict_get (po_i2p po) i).

(** 119-120: name_to_packages.  Reading a missing name also creates an empty entry, which can only
    change [what_provides] by an exception of the modifiers; the callers only pass names of packages
    in the pool, so this is not modelled. *)
Definition name_to_packages (po : pool) (name : string) : list package := default [] (po_byname po !! name).

(** 122-134: iter_packages, iter_package_ids, package_ids *)
Definition iter_packages (po : pool) : list package := (po_p2i po).*1.
Definition iter_package_ids (po : pool) : list Z := (po_i2p po).*1.

(** policy.py 6-7: pkg_id_to_version, [None] for the ValueError *)
Definition pkg_id_to_version (po : pool) (i : Z) : option version := p_version <$> zdict_get (po_i2p po) i.
