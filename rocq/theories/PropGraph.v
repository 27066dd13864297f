(** * Properties C29, C31, C32, C33: graph utilities. *)
From Verif Require Import TopoProofs ReachProofs BfsProofs.

(** A graph maps nodes to sets of nodes; [arc g a b] is an edge from [a] to [b], [edge g a b] one that
    is not a self-loop, [node g n] says that [n] occurs in [g] (TopoProofs.v, ReachProofs.v).
    [tc R] is the transitive closure of [R]. *)
Example arc_edge : ∀ g a b, edge g a b ↔ arc g a b ∧ a ≠ b.
Proof. unfold arc, edge. naive_solver. Qed.

(** ** C29 *)
(** [toposort] raises ValueError iff there is a cycle, self-loops not counted; it does nothing else. *)
Theorem C29_cycle : ∀ g,
  (toposort g = Raise ValueError ↔ ∃ a, tc (edge g) a a) ∧
  ((¬ ∃ a, tc (edge g) a a) → ∃ gs, toposort g = Ok gs).
Proof.
  intros g. destruct (toposort_spec g) as [(gs & E & _ & Hac)|[E Hc]]; rewrite E.
  - split; [split; [done|intros [a Ha]; by apply Hac in Ha]|eauto].
  - split; [done|]. intros Hn. by exfalso.
Qed.
Theorem C29_layers : ∀ g gs, toposort g = Ok gs →
  (* the groups are non-empty and partition the nodes *)
  (∀ k G, gs !! k = Some G → G ≠ ∅) ∧
  (∀ a, node g a ↔ ∃ k G, gs !! k = Some G ∧ a ∈ G) ∧
  (∀ a k k' G G', gs !! k = Some G → gs !! k' = Some G' → a ∈ G → a ∈ G' → k = k') ∧
  (* edges lead to earlier groups *)
  (∀ a b k G, edge g a b → gs !! k = Some G → a ∈ G → ∃ k' G', (k' < k)%nat ∧ gs !! k' = Some G' ∧ b ∈ G') ∧
  (* no node could be in an earlier group: it has an edge to the group just before its own *)
  (∀ a k G, gs !! S k = Some G → a ∈ G → ∃ b G', edge g a b ∧ gs !! k = Some G' ∧ b ∈ G').
Proof.
  intros g gs Hgs. destruct (toposort_spec g) as [(gs' & E & L & _)|[E _]]; rewrite Hgs in E; [|done].
  injection E as <-. destruct (toposort_init_spec g) as [I1 I2].
  split; [apply (ly_nonempty _ _ L)|]. split; [intros a; rewrite <-I1; apply (ly_cover _ _ L)|].
  split; [apply (ly_unique _ _ L)|]. split.
  - intros a b k G He Hk Ha. assert (Hs : is_Some (toposort_init g !! a)) by (apply (ly_cover _ _ L); eauto).
    destruct Hs as [s Hs]. eapply (ly_earlier _ _ L); [exact Hs| |done|done]. by apply (I2 a s Hs).
  - intros a k G Hk Ha. destruct (ly_earliest _ _ L a k G Hk Ha) as (s & b & G' & Hs & Hb & Hk' & Hb').
    exists b, G'. split; [by apply (I2 a s Hs)|done].
Qed.

(** ** C31 *)
(** On graphs whose neighbours are all nodes, for any iteration order of the keys and of the sets, the
    computation succeeds; what it returns for a node is reachable and contains its neighbours; and it
    is everything reachable if there are no cycles except self-loops. *)
Theorem C31_reachability : ∀ ord g keys fuel,
  (∀ X, ord X ≡ₚ elements X) → (∀ a b, arc g a b → is_Some (g !! b)) →
  (∀ k, k ∈ keys ↔ is_Some (g !! k)) → (size g < fuel)%nat →
  ∃ t, transitive_neighbors ord fuel keys g = Ok t ∧ (∀ k, is_Some (t !! k) ↔ is_Some (g !! k)) ∧
    (∀ k s, t !! k = Some s → (∀ x, arc g k x → x ∈ s) ∧ ∀ x, x ∈ s → tc (arc g) k x) ∧
    ((¬ ∃ a, tc (edge g) a a) → ∀ k s, t !! k = Some s → ∀ x, x ∈ s ↔ tc (arc g) k x).
Proof.
  intros ord g keys fuel Ho Hc Hk Hf.
  destruct (transitive_neighbors_spec ord Ho g Hc fuel keys Hf Hk) as (t & E & D & S & C).
  exists t. split; [done|]. split; [intros k; rewrite <-!elem_of_dom, D; done|]. split; [exact S|].
  intros Hac k s Hs x. split; [by apply (S k s Hs)|]. apply C; [|done]. intros a Ha. apply Hac. eauto.
Qed.
(** With a cycle it may miss reachable nodes: a -> {b, c}, b -> {a}, c -> {d}. *)
Definition cyclic_graph : graph := {[ 1 := {[2; 3]}; 2 := {[1]}; 3 := {[4]}; 4 := ∅ ]}.
Theorem C31_cyclic_refuted : ∃ t s, 
  transitive_neighbors elements 10 [1; 2; 3; 4] cyclic_graph = Ok t ∧
  t !! 2 = Some s ∧ tc (arc cyclic_graph) 2 4 ∧ 4 ∉ s.
Proof.
  assert (E : match transitive_neighbors elements 10 [1; 2; 3; 4] cyclic_graph with
              | Ok t => match t !! 2 with Some s => bool_decide (4 ∉ s) | None => false end
              | Raise _ => false end = true) by (vm_compute; reflexivity).
  destruct (transitive_neighbors _ _ _ _) as [t|]; [|done]. destruct (t !! 2) as [s|] eqn:Es; [|done].
  apply bool_decide_eq_true in E. exists t, s. split; [done|]. split; [done|]. split; [|done].
  assert (Harc : ∀ a b, match cyclic_graph !! a with Some s => bool_decide (b ∈ s) | None => false end = true →
            arc cyclic_graph a b).
  { intros a b. destruct (cyclic_graph !! a) as [u|] eqn:Eu; [|done]. intros Hb%bool_decide_eq_true. by exists u. }
  eapply tc_l with 1; [apply Harc; vm_compute; reflexivity|].
  eapply tc_l with 3; [apply Harc; vm_compute; reflexivity|].
  apply tc_once, Harc. vm_compute. reflexivity.
Qed.

(** ** C32 *)
(** Reached from [start], not going on through nodes of [V] (except from [start] itself). *)
Inductive reached (f : Z → gset Z) (V : gset Z) (start : Z) : Z → Prop :=
  | reached_start : reached f V start start
  | reached_step x y : reached f V start x → y ∈ f x → y ∉ V → reached f V start y.
Lemma flood_reached nb f V start : (∀ x, reached f V start x → nb x = Ok (f x)) →
  ∀ x, flood nb V start x ↔ reached f V start x.
Proof.
  intros Hnb x. split.
  - induction 1 as [|x y ns Hx IH Hns Hy HyV]; [constructor|]. econstructor; [done| |done].
    rewrite Hnb in Hns by done. by injection Hns as <-.
  - induction 1 as [|x y Hx IH Hy HyV]; [constructor|]. econstructor; [done|by apply Hnb|done|done].
Qed.
(** For every order in which elements are popped. *)
Theorem C32_connected : ∀ ord nb f start V (F : gset Z) fuel,
  (∀ n X, ord n X ≡ₚ elements X) →
  (∀ x, reached f V start x → nb x = Ok (f x)) →           (* the neighbour function does not raise *)
  (∀ x, reached f V start x → x ∈ F) → (size F < fuel)%nat →  (* finitely many nodes are reached *)
  ∃ X, connected_nodes ord nb fuel start V = Ok X ∧ ∀ x, x ∈ X ↔ x ∈ V ∨ reached f V start x.
Proof.
  intros ord nb f start V F fuel Ho Hnb HF Hf. assert (Hfr := flood_reached nb f V start Hnb).
  assert (Hok : is_ok (connected_nodes ord nb fuel start V) = true).
  { apply (connected_nodes_total ord Ho nb F); [done| |].
    - intros x Hx. by apply HF, Hfr.
    - intros x Hx. exists (f x). by apply Hnb, Hfr. }
  destruct (connected_nodes ord nb fuel start V) as [X|] eqn:E; [|done]. exists X. split; [done|].
  intros x. apply (connected_nodes_inv ord Ho) in E as [E _]. rewrite E. by rewrite Hfr.
Qed.

(** ** C33 *)
(** [path_to nbrs start p x]: [p] starts at [start], follows the edges and ends in [x].  Each yielded path
    leads to a target, is a shortest one with this target, and each target that can be reached is
    yielded exactly once. *)
Theorem C33_bfs : ∀ {A B} `{Countable A} `{Countable B} (nbrs : A → list A) (tf : A → B) (start : A)
    (targets : gset B) (F : gset A) (fuel : nat),
  (∀ p x, path_to nbrs start p x → x ∈ F) → (S (size F) < fuel)%nat →
  ∃ paths ends, breadth_first_search nbrs tf fuel start targets = Ok paths ∧
    Forall2 (λ p t, ∃ x, path_to nbrs start p x ∧ tf x = t ∧
       ∀ p' x', path_to nbrs start p' x' → tf x' = t → (length p ≤ length p')%nat) paths ends ∧
    NoDup ends ∧
    (∀ t, t ∈ ends ↔ t ∈ targets ∧ ∃ p x, path_to nbrs start p x ∧ tf x = t).
Proof.
  intros A B ???? nbrs tf start targets F fuel HF Hf.
  destruct (bfs_spec nbrs tf start F fuel targets) as (paths & ts & E & H1 & H2 & H3); [|done|].
  { intros k x (p & Hp & _)%walk_path. eauto. }
  exists paths, ts. split; [done|]. split; [done|]. split; [done|]. intros t. rewrite H3. split.
  - intros (Ht & k & x & (p & Hp & _)%walk_path & Hx). eauto.
  - intros (Ht & p & x & (k & _ & Hw)%path_walk & Hx). eauto.
Qed.

(** ** Non-vacuity *)
Definition dag : graph := {[ 1 := {[1; 2; 3]}; 2 := {[4]}; 3 := {[2]} ]}.
Definition show (r : res (list (gset Z))) : res (list (list Z)) :=
  match r with Ok gs => Ok (elements <$> gs) | Raise e => Raise e end.
Example ex_topo : show (toposort dag) = Ok [[4]; [2]; [3]; [1]].
Proof. vm_compute. reflexivity. Qed.
Example ex_topo_cyclic : show (toposort cyclic_graph) = Raise ValueError.
Proof. vm_compute. reflexivity. Qed.
Example ex_trans : match transitive_neighbors elements 5 [1; 2; 3; 4] (<[4 := ∅]> dag) with
  | Ok t => elements <$> t !! 3 = Some [2; 4] | Raise _ => False end.
Proof. vm_compute. reflexivity. Qed.
Example ex_connected : match connected_nodes (λ _, elements) (λ x, Ok (default ∅ (dag !! x))) 10 3 {[7]} with
  | Ok X => sort_Z (elements X) = [2; 3; 4; 7] | Raise _ => False end.
Proof. vm_compute. reflexivity. Qed.
Example ex_bfs : breadth_first_search (λ x : Z, elements (default ∅ (dag !! x))) (λ x, x) 100 1 {[4; 7]} = Ok [[1; 2; 4]].
Proof. vm_compute. reflexivity. Qed.

Print Assumptions C29_cycle.
Print Assumptions C29_layers.
Print Assumptions C31_reachability.
Print Assumptions C31_cyclic_refuted.
Print Assumptions C32_connected.
Print Assumptions C33_bfs.
