(** * simplesat/compute_dependencies.py *)
From Verif Require Export Graph.

(** Python's [set.add] on a set of packages, i.e. up to [==]; the set is listed in the order of addition (82, 174). *)
Definition pkg_set_add (s : list package) (p : package) : list package :=
  if existsb (pkg_eq p) s then s else s ++ [p].

(** In the following [ord] is the iteration order of a Python set of ids. *)

(** 87-105 _neighbors_in_repositories and 129-139 _compute_dependency_dict.  The keys of the graph are
    iterated in the order in which package_lit_dependency_graph was given the ids.  Python's recursion limit
    is not modelled. *)
Definition neighbors_in (ord : gset Z → list Z) (po : pool) (transitive : bool) : res graph :=
  let ids := ord (list_to_set (iter_package_ids po)) in
  g ← lit_graph po ids false;
  if transitive then transitive_neighbors ord (S (size g)) ids g else Ok g.

(** 142-148: _reverse_mapping *)
Definition reverse_mapping (g : graph) : graph :=
  foldl (λ m kv, foldl (λ m v, <[v := {[kv.1]} ∪ default ∅ (m !! v)]> m) m (elements kv.2)) ∅ (map_to_list g).

(** 108-126: _reverse_neighbors_in_repositories *)
Definition reverse_neighbors_in ord po transitive : res graph :=
  g ← neighbors_in ord po transitive; Ok (reverse_mapping g).

(** 151-182: _neighbors_for_requirement, _package_ids_satisfying_requirement.  [look] is the lookup in
    [neighbor_mapping]: a dict raises KeyError for a missing key, a defaultdict returns the empty set. *)
Definition neighbors_for (ord : gset Z → list Z) (po : pool) (look : Z → res (gset Z)) (r : requirement)
  : res (list package) :=
  ps ← what_provides po r true;
  foldM (λ acc p,
    i ← package_id po p;
    ns ← look i;
    qs ← mapM_res (id_to_package po) (ord ns);
    Ok (foldl pkg_set_add acc qs)) ps [].
Definition look_dict (g : graph) (i : Z) : res (gset Z) := of_option KeyError (g !! i).
Definition look_default (g : graph) (i : Z) : res (gset Z) := Ok (default ∅ (g !! i)).

(** 10-31: compute_dependencies.  A repository is given by what iterating it yields; [Pool(repositories)]
    here is called with the list of repositories and without modifiers. *)
Definition compute_dependencies ord (repos : list (list package)) (r : requirement) (transitive : bool)
  : res (list package) :=
  po ← pool_of repos None;
  g ← neighbors_in ord po transitive;
  neighbors_for ord po (look_dict g) r.

(** 34-56: compute_reverse_dependencies *)
Definition compute_reverse_dependencies ord repos r transitive : res (list package) :=
  po ← pool_of repos None;
  g ← reverse_neighbors_in ord po transitive;
  neighbors_for ord po (look_default g) r.

(** 59-84: compute_leaf_packages.  Simplification: the requirement of 77-78 is taken to be the one for the
    package's name and version; see C54 (Parser.v) for what parsing "name-version" gives. *)
Definition compute_leaf_packages ord repos : res (list package) :=
  po ← pool_of repos None;
  g ← reverse_neighbors_in ord po false;
  foldM (λ acc p,
    ds ← neighbors_for ord po (look_default g) (req_exact (p_name p) (p_version p));
    Ok (match ds with [] => pkg_set_add acc p | _ => acc end)) (iter_packages po) [].
