(** * Property C84: iterators instead of lists as arguments. *)
From Verif Require Import PoolProofs PropPool PropConstraints SpecSat ConstraintProofs PropRules RepositoryProofs.
From Verif Require Export Iterables PropApi.
From Verif Require Import PropLimits SpecCheck.

Lemma solve_nothing e po remote fuel m : env_ok e →
  solve e (DepSolver po remote [] true false) (S fuel) (Request m []) = Ok (Normal (Trans [] [])).
Proof.
  intros [He1 He2]. assert (E1 : ∀ n, e_ord e n ∅ = []).
  { intros n. apply Permutation_nil. by rewrite (He1 n ∅), elements_empty. }
  assert (E2 : e_pkgs e [] = []) by (apply Permutation_nil; by rewrite (He2 [])).
  unfold solve. cbn [convert_upgrade rq_jobs mbind res_bind]. unfold create_rules. cbn [rq_jobs foldM mbind res_bind ds_installed installed_ids].
  unfold preferred_ids. cbn. rewrite E2. cbn. 
  rewrite decide_True by done. cbn.
  assert (Es : solution_to_ids (aset_copy aset_empty) = []) by (vm_compute; reflexivity). rewrite Es.
  unfold connected_packages. rewrite (union_empty_l_L ∅), E1. cbn [root_names name_to_id foldM mbind res_bind].
  rewrite map_to_list_empty. cbn [filter list_filter fmap list_fmap list_to_set]. rewrite E1. cbn [foldM mbind res_bind].
  rewrite decide_True by done. cbn [mbind res_bind filter list_filter list_to_set]. rewrite (union_empty_l_L ∅), !E1. unfold root_names. cbn [foldM mbind res_bind]. rewrite E1. reflexivity.
Qed.

(** ** Functions that loop once over each argument do not care. *)
Theorem C84_once : ∀ e sortk fuel ps reqs m,
  requirements_are_satisfiable_it e fuel ps reqs m = requirements_are_satisfiable e fuel (items ps) (items reqs) m ∧
  satisfy_requirements_it e fuel ps reqs m = satisfy_requirements e fuel (items ps) (items reqs) m ∧
  (fst ∘ fst <$> packages_from_requirements_it sortk ps reqs m) = (Container <$> packages_from_requirements sortk (items ps) (items reqs) m) ∧
  requirements_are_complete_it e sortk fuel ps (Container (items reqs)) m = requirements_are_complete e sortk fuel (items ps) (items reqs) m.
Proof.
  intros e sortk fuel ps reqs m. split; [done|]. split; [done|]. unfold requirements_are_complete_it, requirements_are_complete, packages_from_requirements_it.
  cbn [items]. by destruct (packages_from_requirements _ _ _ _).
Qed.
(** With containers all functions are those of the other properties. *)
Theorem C84_containers : ∀ e sortk fuel ps reqs m,
  packages_are_consistent_it e fuel (Container ps) m = packages_are_consistent e fuel ps m ∧
  requirements_are_complete_it e sortk fuel (Container ps) (Container reqs) m = requirements_are_complete e sortk fuel ps reqs m ∧
  simplify_requirements_it sortk (Container ps) (Container reqs) = simplify_requirements sortk ps reqs.
Proof.
  intros e sortk fuel ps reqs m. split; [done|]. unfold requirements_are_complete_it, requirements_are_complete, simplify_requirements_it, simplify_requirements, packages_from_requirements_it.
  cbn [items]. split; by destruct (packages_from_requirements _ _ _ _).
Qed.

(** ** packages_are_consistent cannot be used with an iterator: it raises NoPackageFound unless there is no package at all. *)
Theorem C84_consistent : ∀ e fuel ps m, ps ≠ [] → packages_are_consistent_it e fuel (Iterator ps) m = Raise NoPackageFound.
Proof.
  intros e fuel ps m Hps. unfold packages_are_consistent_it, requirements_are_satisfiable_it, requirements_are_satisfiable. cbn [requirements_from_packages_it items rest].
  rewrite installs_all. cbn [mbind res_bind]. destruct ps as [|p ps]; [done|]. cbn [requirements_from_packages fmap list_fmap].
  cbn [installs fmap list_fmap pool_of repo_of repo_update repo_iter foldl foldM mbind res_bind]. cbn -[solve].
  match goal with |- solve ?e ?ds ?f ?rq ≫= _ = _ => assert (E : solve e ds f rq = Raise NoPackageFound) end; [|by rewrite E].
  unfold solve. match goal with |- convert_upgrade ?rq ?r ?i ≫= _ = _ => assert (E : convert_upgrade rq r i = Ok rq) by (by destruct ps) end.
  rewrite E. cbn [mbind res_bind]. unfold create_rules. cbn [rq_jobs foldM]. unfold job_ids at 1. cbn.
  reflexivity.
Qed.

(** ** requirements_are_complete, called with an iterator of requirements (its documentation asks for an iterable), says yes to everything:
    the second loop, which is to check that the selected packages are enough, sees no requirement. *)
Theorem C84_complete : ∀ e sortk fuel ps reqs m l, env_ok e → (∀ l, sortk l ≡ₚ l) → well_formed (items ps) →
  (∀ r, r ∈ reqs → r_class r = RInstall) →
  packages_from_requirements sortk (items ps) reqs m = Ok l →
  requirements_are_complete_it e sortk (S fuel) ps (Iterator reqs) m = Ok true.
Proof.
  intros e sortk fuel ps reqs m l He Hs Hk Hc Hl. assert (Sel := selected_spec sortk (items ps) reqs m l Hs Hk Hc Hl).
  unfold requirements_are_complete_it, packages_from_requirements_it. cbn [items]. rewrite Hl. cbn [mbind res_bind rest].
  unfold requirements_are_satisfiable_it, requirements_are_satisfiable. cbn [items foldM mbind res_bind].
  assert (Hu : ∀ p d, p ∈ items ps → d ∈ p_provides p → unversioned d).
  { intros p d Hp. apply (proj1 (C37_created_iff [repo_iter (repo_of (items ps))] m)).
    - revert Hl. unfold packages_from_requirements. by destruct (pool_of _ _).
    - by apply repo_elem. }
  destruct (api_pool l (Some (default no_mods m))) as [po Hpo].
  { intros p d Hp%Sel. apply Hu. apply Hp. }
  rewrite Hpo. cbn [mbind res_bind]. unfold request_new. rewrite solve_nothing by done. done.
Qed.
(** ** simplify_requirements, called with an iterator of packages, leaves out nothing. *)
Theorem C84_simplify : ∀ sortk ps reqs out r, (∀ l, sortk l ≡ₚ l) → well_formed ps → (∀ r, r ∈ items reqs → r_class r = RInstall) →
  simplify_requirements_it sortk (Iterator ps) reqs = Ok out →
  r ∈ out ↔ ∃ p, asked_for ps no_mods (items reqs) p ∧ r = exactly (p_name p) (p_version p).
Proof.
  intros sortk ps reqs out r Hs Hk Hc. unfold simplify_requirements_it, packages_from_requirements_it. cbn [items].
  destruct (packages_from_requirements sortk ps (items reqs) None) as [l|] eqn:Hl; cbn [mbind res_bind items rest]; [|done].
  assert (Sel := selected_spec sortk ps (items reqs) None l Hs Hk Hc Hl). cbn [default] in Sel.
  assert (Hpo : pool_of [repo_iter (repo_of [])] None = Ok (pool_empty None)) by done. rewrite Hpo. cbn [mbind res_bind].
  destruct (foldM _ l []) as [deps|] eqn:Hd; cbn [mbind res_bind]; [|done]. intros [= <-].
  assert (E1 : ∀ ds acc deps, foldM (λ acc c, r ← from_constraints RInstall c; qs ← what_provides (pool_empty None) r true; Ok (acc ++ qs)) ds acc = Ok deps →
    deps = acc).
  { induction ds as [|d ds IH]; intros acc deps'; cbn [foldM]; [by intros [= <-]|].
    destruct (from_constraints RInstall d) as [x|]; cbn [mbind res_bind]; [|done].
    assert (W : what_provides (pool_empty None) x true = Ok []) by done. rewrite W. cbn [mbind res_bind]. rewrite app_nil_r. apply IH. }
  assert (E2 : ∀ qs acc deps, foldM (λ acc p, foldM (λ acc c, r ← from_constraints RInstall c; qs ← what_provides (pool_empty None) r true; Ok (acc ++ qs)) (p_requires p) acc) qs acc = Ok deps →
    deps = acc).
  { induction qs as [|q qs IH]; intros acc deps'; cbn [foldM]; [by intros [= <-]|].
    destruct (foldM _ (p_requires q) acc) as [a|] eqn:E; cbn [mbind res_bind]; [|done]. apply E1 in E as ->. apply IH. }
  apply E2 in Hd as ->. unfold requirements_from_packages. rewrite elem_of_list_fmap. setoid_rewrite elem_of_list_filter. setoid_rewrite Sel.
  split; [intros (p & -> & _ & Hp)|intros (p & Hp & ->)]; exists p; done.
Qed.
(** ** Examples: the same call with a list and with an iterator *)
Definition on_pkgs : list package := [Pkg "app" (V 1 0) [("lib", [])] [] [] None; Pkg "lib" (V 1 0) [] [] [] None].
Definition on_reqs : list requirement := [Req RInstall "app" [CAny]].
Definition on_both : list requirement := [Req RInstall "app" [CAny]; Req RInstall "lib" [CAny]].
Theorem C84_refuted : well_formed on_pkgs ∧
  packages_are_consistent_it env0 40 (Container on_pkgs) None = Ok true ∧
  packages_are_consistent_it env0 40 (Iterator on_pkgs) None = Raise NoPackageFound ∧
  requirements_are_complete_it env0 id 40 (Container on_pkgs) (Container on_reqs) None = Ok false ∧
  requirements_are_complete_it env0 id 40 (Container on_pkgs) (Iterator on_reqs) None = Ok true ∧
  simplify_requirements_it id (Container on_pkgs) (Container on_both) = Ok [exactly "app" (V 1 0)] ∧
  simplify_requirements_it id (Iterator on_pkgs) (Container on_both) = Ok [exactly "app" (V 1 0); exactly "lib" (V 1 0)].
Proof. split; [apply well_formed_check; vm_compute; reflexivity|]. repeat (split; [vm_compute; reflexivity|]). vm_compute. reflexivity. Qed.
Print Assumptions C84_once. Print Assumptions C84_containers. Print Assumptions C84_consistent. Print Assumptions C84_complete. Print Assumptions C84_simplify. Print Assumptions C84_refuted.
