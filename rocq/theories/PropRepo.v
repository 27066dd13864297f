(** * Properties C35, C36: repositories. *)
From Verif Require Import RepositoryProofs.

(** [repo_of ps] is the repository after the packages [ps] were added in this order, by the
    constructor, by add_package or by update. *)
Example history : ∀ ps qs, repo_update (repo_of ps) qs = repo_of (ps ++ qs) ∧
  (∀ p, add_package (repo_of ps) p = repo_of (ps ++ [p])).
Proof. intros. unfold repo_of, repo_update. rewrite foldl_app. split; [done|]. intros p. by rewrite foldl_app. Qed.

(** Name order, then version order. *)
Definition listed_before (p q : package) : Prop :=
  String.compare (p_name p) (p_name q) = Lt ∨ (p_name p = p_name q ∧ vle (p_version p) (p_version q)).

(** ** C35 *)
Theorem C35_iteration : ∀ ps,
  repo_iter (repo_of ps) ≡ₚ ps ∧
  StronglySorted listed_before (repo_iter (repo_of ps)) ∧
  (∀ n v, filter (λ p, p_name p = n ∧ p_version p = v) (repo_iter (repo_of ps)) =
          filter (λ p, p_name p = n ∧ p_version p = v) ps).
Proof.
  intros ps. split; [apply repo_iter_perm|]. rewrite repo_iter_sort. split.
  - assert (H := sort_by_sorted repo_lt repo_lt_asym repo_lt_cotrans ps). revert H. unfold sorted_by.
    generalize (sort_by repo_lt ps) as l. induction 1 as [|x l Hl IH Hx]; [constructor|].
    constructor; [done|]. eapply Forall_impl; [exact Hx|]. intros y Hy. cbn in Hy.
    apply repo_lt_false in Hy as [Hy|[Hy1 Hy2]].
    + left. unfold str_ltb in Hy. by destruct (String.compare _ _).
    + right. split; [done|]. by apply ver_ltb_false.
  - intros n v. apply (sort_by_filter repo_lt). intros x y [Hx1 Hx2] [Hy1 Hy2].
    assert (Hk : keq repo_lt y x) by (apply keq_repo; split; congruence). apply Hk.
Qed.
Theorem C35_order_independent : ∀ ps qs, ps ≡ₚ qs →
  (∀ p q, p ∈ ps → q ∈ ps → p_name p = p_name q → p_version p = p_version q → p = q) →
  repo_iter (repo_of ps) = repo_iter (repo_of qs).
Proof.
  intros ps qs Hp Hu. rewrite !repo_iter_sort.
  apply (sort_by_perm_eq repo_lt repo_lt_irrefl repo_lt_asym repo_lt_cotrans); [done|].
  intros x y Hx Hy [? ?]%keq_repo. auto.
Qed.
(** The docstring promises independence of the order of addition without this condition. *)
Theorem C35_order_independent_refuted :
  ∃ ps qs, ps ≡ₚ qs ∧ repo_iter (repo_of ps) ≠ repo_iter (repo_of qs).
Proof.
  pose (a := Pkg "A" (V 1 0) [] [] [] (Some "x")). pose (b := Pkg "A" (V 1 0) [] [] [] (Some "y")).
  exists [a; b], [b; a]. split; [constructor|]. vm_compute. discriminate.
Qed.
Theorem C35_len : ∀ ps, repo_len (repo_of ps) = length ps.
Proof. exact repo_of_len. Qed.
Theorem C35_contains : ∀ ps p,
  repo_contains (repo_of ps) p = true ↔ ∃ q, q ∈ ps ∧ pkg_key q = pkg_key p.
Proof.
  intros ps p. rewrite repo_of_contains, existsb_exists. split.
  - intros (q & Hq & He%bool_decide_eq_true). exists q. split; [by apply elem_of_list_In|done].
  - intros (q & Hq & He). exists q. split; [by apply elem_of_list_In|]. by apply bool_decide_eq_true.
Qed.

(** ** C36 *)
Theorem C36_find_package : ∀ ps n v,
  (∀ p, find_package (repo_of ps) n v = Ok p ↔
     ∃ l1 l2, ps = l1 ++ p :: l2 ∧ p_name p = n ∧ p_version p = v ∧
       ∀ q, q ∈ l1 → ¬ (p_name q = n ∧ p_version q = v)) ∧
  (find_package (repo_of ps) n v = Raise NoPackageFound ↔
     ∀ q, q ∈ ps → ¬ (p_name q = n ∧ p_version q = v)).
Proof.
  intros ps n v. rewrite repo_of_find_package. split.
  - intros p. split.
    + induction ps as [|q ps IH]; [done|]. rewrite filter_cons. case_decide as Hq.
      * intros [= <-]. exists [], ps. split; [done|]. split; [tauto|]. split; [tauto|].
        intros r Hr. by apply elem_of_nil in Hr.
      * intros (l1 & l2 & -> & H1 & H2 & H3)%IH. exists (q :: l1), l2. repeat split; [done|done|].
        intros r [->|Hr]%elem_of_cons; auto.
    + intros (l1 & l2 & -> & <- & <- & H). rewrite filter_app.
      assert (filter (λ p0, p_name p0 = p_name p ∧ p_version p0 = p_version p) l1 = []) as ->.
      { destruct (filter _ l1) as [|q l] eqn:E; [done|]. exfalso.
        assert (Hq : q ∈ filter (λ p0, p_name p0 = p_name p ∧ p_version p0 = p_version p) l1) by (rewrite E; left).
        apply elem_of_list_filter in Hq as [? ?]. by eapply H. }
      by rewrite filter_cons_True.
  - split.
    + intros H q Hq Hc. destruct (filter _ ps) as [|x l] eqn:E; [|done].
      assert (Hx : q ∈ filter (λ p0, p_name p0 = n ∧ p_version p0 = v) ps) by (by apply elem_of_list_filter).
      rewrite E in Hx. by apply elem_of_nil in Hx.
    + intros H. destruct (filter _ ps) as [|x l] eqn:E; [done|]. exfalso.
      assert (Hx : x ∈ filter (λ p0, p_name p0 = n ∧ p_version p0 = v) ps) by (rewrite E; left).
      apply elem_of_list_filter in Hx as [? ?]. by eapply H.
Qed.
Theorem C36_find_packages : ∀ ps n,
  find_packages (repo_of ps) n ≡ₚ filter (λ p, p_name p = n) ps ∧
  StronglySorted (λ p q, vle (p_version p) (p_version q)) (find_packages (repo_of ps) n).
Proof.
  intros ps n. rewrite repo_of_find. split; [apply sort_by_perm|].
  assert (H := sort_by_sorted pkg_ver_lt pkg_ver_lt_asym pkg_ver_lt_cotrans (named n ps)). revert H.
  unfold sorted_by. generalize (sort_by pkg_ver_lt (named n ps)) as l.
  induction 1 as [|x l Hl IH Hx]; [constructor|]. constructor; [done|].
  eapply Forall_impl; [exact Hx|]. intros y Hy. by apply ver_ltb_false.
Qed.

(** ** Non-vacuity *)
Definition ex_repo : list package :=
  [Pkg "numpy" (V 192 2) [("MKL", [])] [] [] None; Pkg "MKL" (V 103 1) [] [] [] None;
   Pkg "numpy" (V 192 1) [] [] [] None].
Example ex_repo_iter : (λ p, (p_name p, p_version p)) <$> repo_iter (repo_of ex_repo)
  = [("MKL", V 103 1); ("numpy", V 192 1); ("numpy", V 192 2)].
Proof. vm_compute. reflexivity. Qed.
Example ex_repo_find : is_ok (find_package (repo_of ex_repo) "numpy" (V 192 2)) = true ∧
  find_package (repo_of ex_repo) "numpy" (V 193 0) = Raise NoPackageFound.
Proof. vm_compute. done. Qed.

Print Assumptions C35_iteration.
Print Assumptions C35_order_independent.
Print Assumptions C35_order_independent_refuted.
Print Assumptions C35_len.
Print Assumptions C35_contains.
Print Assumptions C36_find_package.
Print Assumptions C36_find_packages.
