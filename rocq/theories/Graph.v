(** * Graph utilities (simplesat/utils/graph.py) *)
From Verif Require Export Pool.

(** A directed graph: dict from node to the set of nodes its edges lead to. *)
Notation graph := (gmap Z (gset Z)).

(** 67-68: chain.from_iterable(values) *)
Definition all_edges (g : graph) : gset Z := ⋃ (map_to_list g).*2.

(** 60-72: self dependencies are dropped, nodes that only occur in edges get an empty entry. *)
Definition toposort_init (g : graph) : graph :=
  let data := map_imap (λ k v, Some (v ∖ {[k]})) g in
  let extra := all_edges data ∖ dom data in
  data ∪ gset_to_gmap ∅ extra.

(** 74-81: the loop.  Returns the yielded groups and what is left of [data]; it is non-empty iff the
    generator ends with ValueError (82-90).  The loop runs at most once per node; fuel is the
    number of nodes plus one. *)
Fixpoint toposort_loop (fuel : nat) (data : graph) : list (gset Z) * graph :=
  match fuel with
  | O => ([], data)
  | S fuel =>
      let ordered := dom (filter (λ kv, kv.2 = ∅) data) in
      if decide (ordered = ∅) then ([], data)
      else
        let data' := (λ dep, dep ∖ ordered) <$> filter (λ kv, kv.1 ∉ ordered) data in
        let '(gs, rest) := toposort_loop fuel data' in
        (ordered :: gs, rest)
  end.
Definition toposort_raw (g : graph) : list (gset Z) * graph :=
  let data := toposort_init g in toposort_loop (S (size data)) data.
(** 14-90: toposort, as consumed completely. *)
Definition toposort (g : graph) : res (list (gset Z)) :=
  let '(gs, rest) := toposort_raw g in
  if decide (rest = ∅) then Ok gs else Raise ValueError.

(** 123-133: the edges of one literal in package_lit_dependency_graph. *)
Definition lit_edges (po : pool) (closed : bool) (idmap : gmap Z Z) (p : package) : res (gset Z) :=
  foldM (λ acc c,
    r ← from_constraints RInstall c;
    deps ← what_provides po r true;
    ids ← mapM_res (package_id po) deps;
    let ids := filter (λ i, closed = false ∨ is_Some (idmap !! i)) ids in
    Ok (acc ∪ list_to_set ((λ i, default i (idmap !! i)) <$> ids)))
    (p_requires p) ∅.
(** 93-135: package_lit_dependency_graph.  All lookups of packages (116-118) precede the loop; they
    fail with the same exception as here. *)
Definition lit_graph (po : pool) (lits : list Z) (closed : bool) : res graph :=
  let idmap := foldl (λ m p, <[Z.abs p := p]> m) (∅ : gmap Z Z) lits in
  pkgs ← mapM_res (λ l, p ← id_to_package po (Z.abs l); Ok (l, p)) (fromkeys lits);
  foldM (λ g lp, e ← lit_edges po closed idmap lp.2; Ok (<[lp.1 := e]> g)) pkgs ∅.

(** 147-156: _transitive.  [ord] is the iteration order of a set.  Fuel bounds the recursion depth
    (Python's recursion limit is not modelled). *)
Fixpoint transitive_go (ord : gset Z → list Z) (g : graph) (fuel : nat) (node : Z) (trans : graph)
  : res graph :=
  match fuel with
  | O => Raise OutOfFuel
  | S fuel =>
      match trans !! node with
      | Some _ => Ok trans
      | None =>
          ns ← of_option KeyError (g !! node);
          foldM (λ t nb,
            t ← transitive_go ord g fuel nb t;
            Ok (<[node := default ∅ (t !! node) ∪ default ∅ (t !! nb)]> t))
            (ord ns) (<[node := ns]> trans)
      end
  end.
(** 138-144: transitive_neighbors; [keys] are the keys in iteration order. *)
Definition transitive_neighbors (ord : gset Z → list Z) (fuel : nat) (keys : list Z) (g : graph) : res graph :=
  foldM (λ t n, transitive_go ord g fuel n t) keys ∅.

(** 159-176: connected_nodes.  [ord n X] lists the set [X] in the order in which [pop] would return
    its elements at step [n]; a popped element is in the set. *)
Fixpoint connected_loop (ord : nat → gset Z → list Z) (nb : Z → res (gset Z)) (fuel : nat)
    (queue visited : gset Z) : res (gset Z) :=
  match fuel with
  | O => Raise OutOfFuel
  | S fuel' =>
      match ord fuel queue with
      | [] => Ok visited
      | node :: _ =>
          let queue := queue ∖ {[node]} in
          let visited := {[node]} ∪ visited in
          ns ← nb node;
          connected_loop ord nb fuel' (queue ∪ (ns ∖ visited)) visited
      end
  end.
Definition connected_nodes ord nb fuel (node : Z) (visited : gset Z) : res (gset Z) :=
  connected_loop ord nb fuel {[node]} visited.

(** 179-189 backtrack and 192-251 breadth_first_search, for any node type. *)
Section bfs.
  Context {A B : Type} `{Countable A} `{Countable B}.
  Context (nbrs : A → list A) (tf : A → B).

  Fixpoint backtrack_go (fuel : nat) (start node : A) (visited : gmap A (option A)) (path : list A)
    : res (list A) :=
    if decide (node = start) then Ok path
    else match fuel with
         | O => Raise OutOfFuel
         | S fuel =>
             o ← of_option KeyError (visited !! node);
             (* a [None] entry would make the next lookup fail *)
             n ← of_option KeyError o;
             backtrack_go fuel start n visited (n :: path)
         end.
  (** 179-189: the returned tuple runs from [start] to [end]. *)
  Definition backtrack (end_ start : A) (visited : gmap A (option A)) : res (list A) :=
    backtrack_go (size visited) start end_ visited [end_].

  (** 247-251: the loop over the neighbours *)
  Definition visit (node : A) (s : list A * gmap A (option A)) (n : A) : list A * gmap A (option A) :=
    match s.2 !! n with
    | Some _ => s
    | None => (s.1 ++ [n], <[n := Some node]> s.2)
    end.

  (** 233-251: the main loop; returns the yielded paths *)
  Fixpoint bfs_loop (fuel : nat) (start : A) (queue : list A) (visited : gmap A (option A))
      (targets : gset B) : res (list (list A)) :=
    match fuel with
    | O => Raise OutOfFuel
    | S fuel =>
        match queue with
        | [] => Ok []
        | node :: queue =>
            let found := tf node in
            let hit := bool_decide (found ∈ targets) in
            let targets' := if hit then targets ∖ {[found]} else targets in
            out ← (if hit then p ← backtrack node start visited; Ok [p] else Ok []);
            if decide (targets' = ∅) then Ok out
            else
              let '(queue, visited) := foldl (visit node) (queue, visited) (nbrs node) in
              rest ← bfs_loop fuel start queue visited targets';
              Ok (out ++ rest)
        end
    end.
  Definition breadth_first_search (fuel : nat) (start : A) (targets : gset B) : res (list (list A)) :=
    bfs_loop fuel start [start] {[start := None]} targets.
End bfs.
