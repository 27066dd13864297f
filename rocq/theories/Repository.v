(** * Repository (simplesat/repository.py) *)
From Verif Require Export Package Sorting.

(** repository.py 37-46: the attributes. *)
Record repository := Repo {
  rp_map : gmap string (list package);     (* _name_to_packages *)
  rp_names : list string }.                (* _names *)
Definition repo_empty : repository := Repo ∅ [].

(** [key=attrgetter("version")] *)
Definition pkg_ver_lt (p q : package) : bool := ver_ltb (p_version p) (p_version q).

(** 68-92: add_package.  [bisect.insort] keeps the sorted list [_names] sorted; the names are
    distinct, so there is one such position. *)
Definition add_package (r : repository) (p : package) : repository :=
  let names := match rp_map r !! p_name p with
               | None => insert_by str_ltb (p_name p) (rp_names r)
               | Some _ => rp_names r
               end in
  let l := default [] (rp_map r !! p_name p) in
  Repo (<[p_name p := sort_by pkg_ver_lt (l ++ [p])]> (rp_map r)) names.

(** 37-46: __init__(packages); 137-144: update *)
Definition repo_update (r : repository) (ps : list package) : repository := foldl add_package r ps.
Definition repo_of (ps : list package) : repository := repo_update repo_empty ps.

(** 48-52: __len__ *)
Definition repo_len (r : repository) : nat :=
  list_sum ((λ kv, length (snd kv)) <$> map_to_list (rp_map r)).

(** 54-61: __contains__ *)
Definition repo_contains (r : repository) (p : package) : bool :=
  match rp_map r !! p_name p with
  | Some l => existsb (pkg_eq p) l
  | None => false
  end.

(** 63-66: __iter__.  A name without entry would raise KeyError; that every name of [rp_names] has
    one is proved in RepositoryProofs.v. *)
Definition repo_iter (r : repository) : list package :=
  mjoin ((λ n, default [] (rp_map r !! n)) <$> rp_names r).

(** 94-117: find_package.  Simplification: NoPackageFound is raised directly; the construction of
    its argument from the string "name-version" (113-115) is not modelled. *)
Definition find_package (r : repository) (name : string) (v : version) : res package :=
  match filter (λ p, p_version p = v) (default [] (rp_map r !! name)) with
  | p :: _ => Ok p
  | [] => Raise NoPackageFound
  end.

(** 120-135: find_packages *)
Definition find_packages (r : repository) (name : string) : list package :=
  default [] (rp_map r !! name).
