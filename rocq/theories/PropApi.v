(** * Properties C46-C49: the functions of simplesat.dependency_solver on package lists. *)
From Verif Require Import PoolProofs PropPool PropConstraints SpecSat ConstraintProofs RepositoryProofs PropRepo PropRules.
From Verif Require Export SpecApi PropLimits PropOps.

Definition installs (reqs : list requirement) : list job := (λ r, Job (Some r) JInstall) <$> reqs.
Lemma installs_all m reqs : foldM (λ rq r, add_job rq (Some r) JInstall) reqs (request_new m) = Ok (Request m (installs reqs)).
Proof. rewrite install_all; [done|]. by intros j ?%elem_of_nil. Qed.

Section api.
  Context (ps : list package) (Hk : well_formed ps).
  Local Notation repo := (repo_iter (repo_of ps)).
  Lemma repo_elem p : p ∈ mjoin [repo] ↔ p ∈ ps.
  Proof. cbn. rewrite app_nil_r. by rewrite (proj1 (C35_iteration ps)). Qed.
  Lemma api_setting m po : pool_of [repo] m = Ok po → setting [repo] (DepSolver po [repo] [] true false).
  Proof.
    intros Hpo. split; [by exists m|by intros p ?%elem_of_nil|]. split; [intros p q Hp%repo_elem Hq%repo_elem; by apply (wf_keys _ Hk)|intros p Hp%repo_elem; by apply (wf_names _ Hk)].
  Qed.
  Lemma api_asks po m reqs : asks (DepSolver po [repo] [] true false) (Request m (installs reqs)) (installs reqs).
  Proof. left. split; [|done]. intros j (r & -> & _)%elem_of_list_fmap. done. Qed.
  Lemma api_valid m reqs S : valid (mjoin [repo]) [] m (installs reqs) S ↔ installable ps m reqs S.
  Proof.
    split; intros [V1 V2 V3 V4 V5]; (split; [|idtac|done|done|done]).
    - intros p Hp. by apply repo_elem, V1.
    - intros r Hr. apply (V2 (Job (Some r) JInstall)). apply elem_of_list_fmap. eauto.
    - intros p Hp. by apply repo_elem, V1.
    - intros j (r & -> & Hr)%elem_of_list_fmap. exact (V2 r Hr).
  Qed.
  Lemma api_single : single_names ps → single_names (mjoin [repo]).
  Proof. intros H p q n Hp%repo_elem Hq%repo_elem. by apply H. Qed.
  Lemma api_same : same_metadata (mjoin [repo]) [].
  Proof. by intros p q ?%elem_of_nil. Qed.
  Lemma api_removes reqs : removes_known (mjoin [repo]) [] (installs reqs).
  Proof. intros j r (x & -> & _)%elem_of_list_fmap. done. Qed.
  Lemma api_pool m : (∀ p d, p ∈ ps → d ∈ p_provides p → unversioned d) → ∃ po, pool_of [repo] m = Ok po.
  Proof.
    intros H. assert (E : is_ok (pool_of [repo] m) = true).
    { apply C37_created_iff. intros p d Hp%repo_elem. by apply H. }
    destruct (pool_of [repo] m); [eauto|done].
  Qed.
  (** Conditions under which the solver always answers (C30). *)
  Record answerable (m : modifiers) (reqs : list requirement) : Prop := {
    an_provides : ∀ p d, p ∈ ps → d ∈ p_provides p → unversioned d;
    an_single : single_names ps;
    an_metadata : ∀ p, p ∈ ps → interpretable m p;
    an_candidates : ∀ r, r ∈ reqs → ∃ p, p ∈ ps ∧ req_meets r p;
    an_acyclic : acyclic ps m }.
  Lemma api_total e m po reqs : env_ok e → pool_of [repo] (Some m) = Ok po → answerable m reqs →
    ∃ n, ∀ fuel, (n ≤ fuel)%nat →
      let s := solve e (DepSolver po [repo] [] true false) fuel (Request m (installs reqs)) in
      (∃ t, s = Ok (Normal t)) ∨ (∃ c k st, s = Ok (Unsat c k st)).
  Proof.
    intros He Hpo [A1 A2 A3 A4 A5]. apply (C30_total e [repo] (DepSolver po [repo] [] true false) (Request m (installs reqs)) (installs reqs) He);
      [by eapply api_setting|apply api_asks|done|done|by apply api_single|by intros p q ?%elem_of_nil|apply api_removes| | |].
    - intros p Hp%repo_elem. by apply A3.
    - intros j (r & -> & Hr)%elem_of_list_fmap. split; [done|]. exists r. split; [done|]. destruct (A4 r Hr) as (p & Hp & Hm).
      exists p. split; [by apply repo_elem|done].
    - intros p Hp. apply (A5 p). eapply tc_mono; [|exact Hp]. intros x y (Hx%repo_elem & Hy%repo_elem & Hr). done.
  Qed.
End api.

(** ** C46 *)
Theorem C46_satisfiable : ∀ e fuel ps reqs m b, env_ok e → well_formed ps →
  requirements_are_satisfiable e fuel ps reqs m = Ok b →
  b = true ↔ ∃ S, installable ps (default no_mods m) reqs S.
Proof.
  intros e fuel ps reqs m b He Hk. unfold requirements_are_satisfiable. rewrite installs_all. cbn [mbind res_bind].
  destruct (pool_of _ _) as [po|] eqn:Hpo; cbn [mbind res_bind]; [|done].
  destruct (solve _ _ _ _) as [[t|c k s]|] eqn:Hs; cbn [mbind res_bind]; [| |done]; intros [= <-].
  - split; [intros _|done]. destruct (C15_sat _ _ _ _ _ _ _ He (api_setting ps Hk _ po Hpo) (api_asks ps po _ reqs) Hs) as [S HS].
    exists S. by apply api_valid.
  - split; [done|]. intros [S HS]. destruct (C15_unsat _ _ _ _ _ _ _ _ _ He (api_setting ps Hk _ po Hpo) (api_asks ps po _ reqs) Hs).
    exists S. by apply api_valid.
Qed.
Theorem C46_total : ∀ e ps reqs m, env_ok e → well_formed ps → answerable ps (default no_mods m) reqs →
  ∃ n, ∀ fuel, (n ≤ fuel)%nat → ∃ b, requirements_are_satisfiable e fuel ps reqs m = Ok b.
Proof.
  intros e ps reqs m He Hk Ha. destruct (api_pool ps (Some (default no_mods m)) (an_provides _ _ _ Ha)) as [po Hpo].
  destruct (api_total ps Hk e _ po reqs He Hpo Ha) as [n Hn]. exists n. intros fuel Hf.
  unfold requirements_are_satisfiable. rewrite installs_all. cbn [mbind res_bind]. rewrite Hpo. cbn [mbind res_bind].
  destruct (Hn fuel Hf) as [(t & ->)|(c & k & s & ->)]; cbn; eauto.
Qed.

(** ** C47 *)
(** packages_are_consistent: the packages can be installed together. *)
Theorem C47_consistent : ∀ e fuel ps m b, env_ok e → single_names ps → releases_differ ps →
  (∀ p, p ∈ ps → dist_name (of_s (p_name p))) →
  packages_are_consistent e fuel ps m = Ok b →
  b = true ↔ closed_set (default no_mods m) (λ p, p ∈ ps) ∧ one_version (λ p, p ∈ ps) ∧ no_conflict (λ p, p ∈ ps).
Proof.
  intros e fuel ps m b He H1 Hr Hnm H. unfold packages_are_consistent in H.
  assert (Hk : well_formed ps).
  { split; [|done]. intros p q Hp Hq Hpq. unfold pkg_key in Hpq. by apply Hr; simplify_eq. }
  rewrite (C46_satisfiable _ _ _ _ _ _ He Hk H).
  assert (Hmet : ∀ p q, p ∈ ps → q ∈ ps → req_meets (req_exact (p_name p) (p_version p)) q → q = p).
  { intros p q Hp Hq [Hpr Hc]. assert (p_version q = p_version p) by (apply (Hc (CEqual (p_version p))); left).
    apply Hr; [done|done| |done]. apply (H1 q p (p_name p)); [done|done|done|by left]. }
  split.
  - intros [S [V1 V2 V3 V4 V5]].
    assert (HS : ∀ p, p ∈ ps → S p).
    { intros p Hp. destruct (V2 (req_exact (p_name p) (p_version p))) as (q & Hq & Hmq).
      { unfold requirements_from_packages. apply elem_of_list_fmap. eauto. }
      by rewrite <-(Hmet p q Hp (V1 q Hq) Hmq). }
    split; [|split].
    + intros p d Hp Hd. destruct (V3 p d (HS p Hp) Hd) as (q & Hq & ? & ?). exists q. auto.
    + intros p q Hp Hq. apply V4; auto.
    + intros p d q Hp Hd Hq. apply (V5 p d q); auto.
  - intros (V3 & V4 & V5). exists (λ p, p ∈ ps). split; try done.
    intros r (p & -> & Hp)%elem_of_list_fmap. exists p. split; [done|]. split; [by left|]. by intros c ->%elem_of_list_singleton.
Qed.
(** requirements_are_complete: the packages the requirements select suffice.  [sortk] is the sorting of a
    set of packages by [_key]. *)
Lemma add_new_elem (acc qs : list package) (p : package) : (∀ x y, x ∈ acc ++ qs → y ∈ acc ++ qs → pkg_key x = pkg_key y → x = y) →
  p ∈ foldl (λ acc q, if pkg_in q acc then acc else acc ++ [q]) acc qs ↔ p ∈ acc ∨ p ∈ qs.
Proof.
  revert acc. induction qs as [|q qs IH]; intros acc Hk; cbn; [set_solver|].
  assert (Hpi : pkg_in q acc = true ↔ q ∈ acc).
  { unfold pkg_in. rewrite existsb_exists. split.
    - intros (x & Hx%elem_of_list_In & E%bool_decide_eq_true). rewrite (Hk q x); [done| | |exact E]; set_solver.
    - intros Hq. exists q. split; [by apply elem_of_list_In|]. by apply bool_decide_eq_true. }
  destruct (pkg_in q acc) eqn:E.
  - assert (Hq : q ∈ acc) by by apply Hpi. rewrite IH; [set_solver|]. intros x y Hx Hy. apply Hk; set_solver.
  - rewrite IH; [set_solver|]. intros x y Hx Hy. apply Hk; set_solver.
Qed.
Lemma selected_spec sortk ps reqs m qs : (∀ l, sortk l ≡ₚ l) → well_formed ps → (∀ r, r ∈ reqs → r_class r = RInstall) →
  packages_from_requirements sortk ps reqs m = Ok qs →
  ∀ p, p ∈ qs ↔ asked_for ps (default no_mods m) reqs p.
Proof.
  intros Hsort Hk Hc. unfold packages_from_requirements. destruct (pool_of _ _) as [po|] eqn:Hpo; cbn [mbind res_bind]; [|done].
  destruct (foldM _ reqs []) as [l|] eqn:Hl; cbn [mbind res_bind]; [|done]. intros [= <-] p. rewrite Hsort.
  assert (Hgen : ∀ rs acc l, (∀ r, r ∈ rs → r_class r = RInstall) → (∀ x, x ∈ acc → x ∈ ps) →
    foldM (λ acc r, qs ← what_provides po r true; Ok (foldl (λ acc q, if pkg_in q acc then acc else acc ++ [q]) acc qs)) rs acc = Ok l →
    ∀ p, p ∈ l ↔ p ∈ acc ∨ asked_for ps (default no_mods m) rs p).
  { clear Hl Hc p l. induction rs as [|r rs IH]; intros acc l Hc Hacc Hl p; cbn [foldM] in Hl.
    - injection Hl as <-. split; [by left|]. intros [?|(_ & r & Hr & _)]; [done|]. by apply elem_of_nil in Hr.
    - destruct (C38_what_provides _ _ _ r true Hpo) as (qs & Hqs & Hel); [left; apply Hc; left|]. rewrite Hqs in Hl. cbn [mbind res_bind] in Hl.
      assert (Hqp : ∀ x, x ∈ qs → x ∈ ps) by (intros x Hx%Hel; apply repo_elem; tauto).
      assert (Hadd := λ q, add_new_elem acc qs q). 
      rewrite (IH (foldl (λ acc q, if pkg_in q acc then acc else acc ++ [q]) acc qs) l); [|intros; apply Hc; by right| |exact Hl].
      + rewrite Hadd.
        2:{ intros x y Hx Hy. apply (wf_keys _ Hk); [apply elem_of_app in Hx as [?|?]|apply elem_of_app in Hy as [?|?]]; auto. }
        rewrite (Hel p). assert (Ha : accepts m true r (p_version p) ↔ ∀ c, c ∈ r_cons r → relaxed (default no_mods m) (r_name r) c (p_version p)).
        { unfold accepts. destruct m as [m|]; [done|]. cbn. by setoid_rewrite relaxed_none. }
        rewrite Ha, repo_elem. unfold asked_for. split.
        * intros [[?|(Hp & Hpr & Hx)]|(Hp & r' & Hr' & Hx)]; [by left| |]; right; (split; [done|]); [exists r|exists r']; split; [left|done|by right|done].
        * intros [?|(Hp & r' & [->|Hr']%elem_of_cons & Hx)]; [by left; left|left; right; tauto|right]. split; [done|]. eauto.
      + intros x. rewrite Hadd; [intros [?|?]; auto|]. intros y z Hy Hz. apply (wf_keys _ Hk); [apply elem_of_app in Hy as [?|?]|apply elem_of_app in Hz as [?|?]]; auto. }
  rewrite (Hgen reqs [] l Hc); [|by intros x ?%elem_of_nil|done]. split; [by intros [?%elem_of_nil|?]|by right].
Qed.
Theorem C47_complete : ∀ e sortk fuel ps reqs m b, env_ok e → (∀ l, sortk l ≡ₚ l) → well_formed ps →
  (∀ r, r ∈ reqs → r_class r = RInstall) →
  requirements_are_complete e sortk fuel ps reqs m = Ok b →
  b = true ↔ ∃ S, installable ps (default no_mods m) reqs S ∧ ∀ p, S p → asked_for ps (default no_mods m) reqs p.
Proof.
  intros e sortk fuel ps reqs m b He Hsort Hk Hc. unfold requirements_are_complete.
  destruct (packages_from_requirements sortk ps reqs m) as [qs|] eqn:Hqs; cbn [mbind res_bind]; [|done]. intros H.
  assert (Hel := selected_spec _ _ _ _ _ Hsort Hk Hc Hqs).
  assert (Hsub : ∀ p, p ∈ qs → p ∈ ps) by (intros p Hp%Hel; apply Hp).
  assert (Hk' : well_formed qs) by (split; [intros p q Hp Hq; apply (wf_keys _ Hk); by apply Hsub|intros p Hp; by apply (wf_names _ Hk), Hsub]).
  rewrite (C46_satisfiable _ _ _ _ _ _ He Hk' H). split.
  - intros [S [V1 V2 V3 V4 V5]]. exists S. split; [split; try done; intros p Hp; by apply Hsub, V1|]. intros p Hp. by apply Hel, V1.
  - intros (S & [V1 V2 V3 V4 V5] & HS). exists S. split; try done. intros p Hp. by apply Hel, HS.
Qed.

(** The functions return [Result(is_satisfiable, message)], a namedtuple (dependency_solver.py 139); in a
    boolean context Python takes a tuple as true iff it has a field, and namedtuple does not change that. *)
Record result := Result { is_satisfiable : bool; message : string }.
Definition fields (r : result) : list (bool + string) := [inl (is_satisfiable r); inr (message r)].
Definition tuple_truth {A} (l : list A) : bool := negb (length l =? 0)%nat.
Definition as_condition (r : result) : bool := tuple_truth (fields r).
(** "Return True if all packages can be installed together": as a condition the result is true for
    packages that cannot be installed together, whatever the message. *)
Theorem C47_boolean_refuted : ∃ ps, single_names ps ∧ releases_differ ps ∧
  packages_are_consistent env0 20 ps None = Ok false ∧ ¬ closed_set no_mods (λ p, p ∈ ps) ∧
  ∀ msg, as_condition (Result false msg) = true.
Proof.
  exists [Pkg "A" (V 1 0) [("B", [])] [] [] None].
  split; [apply single_b_spec; vm_compute; reflexivity|]. split; [by intros p q ->%elem_of_list_singleton ->%elem_of_list_singleton|].
  split; [vm_compute; reflexivity|]. split; [|done]. intros H.
  destruct (H (Pkg "A" (V 1 0) [("B", [])] [] [] None) ("B", [])) as (q & Hq & Hne & _); [left|left|].
  apply elem_of_list_singleton in Hq. done.
Qed.
(** With virtual packages the field itself is wrong: A-1 and V-1 exclude each other, but V-1 is also taken
    for A-1. *)
Theorem C47_virtual_refuted : ∃ ps, releases_differ ps ∧ packages_are_consistent env0 20 ps None = Ok true ∧
  ¬ no_conflict (λ p, p ∈ ps).
Proof.
  set (v := Pkg "V" (V 1 0) [] [("A", [])] [("A", [])] None). set (a := Pkg "A" (V 1 0) [] [] [] None).
  exists [v; a]. split.
  { intros p q. rewrite !elem_of_cons, !elem_of_nil. intros [->|[->|[]]] [->|[->|[]]]; done. }
  split; [vm_compute; reflexivity|]. intros H. apply (H v ("A", []) a); [left|left|right; left|done|]. split; [by left|by left].
Qed.

(** ** C48 *)
Lemma satisfy_open e fuel ps reqs m o : satisfy_requirements e fuel ps reqs (Some m) = Ok o →
  ∃ po s, pool_of [repo_iter (repo_of ps)] (Some m) = Ok po ∧
    solve e (DepSolver po [repo_iter (repo_of ps)] [] true false) fuel (Request m (installs reqs)) = Ok s ∧
    match s with Normal t => o = Normal (op_package <$> t_ops t) | Unsat _ _ _ => ∃ c k st, o = Unsat c k st end.
Proof.
  unfold satisfy_requirements. cbn [of_option mbind res_bind]. rewrite installs_all. cbn [mbind res_bind].
  destruct (pool_of _ _) as [po|] eqn:Hpo; cbn [mbind res_bind]; [|done].
  destruct (solve _ _ _ _) as [[t|c k s]|] eqn:Hs; cbn [mbind res_bind]; [| |done].
  - destruct (forallb _ _); cbn [mbind res_bind]; [|done]. intros [= <-]. by exists po, (Normal t).
  - intros [= <-]. exists po, (Unsat c k s). eauto 6.
Qed.
(** The result is an installable set meeting the requirements; nothing is listed twice; each package comes
    after its dependencies. *)
Theorem C48_installable : ∀ e fuel ps reqs m out, env_ok e → well_formed ps → single_names ps →
  satisfy_requirements e fuel ps reqs (Some m) = Ok (Normal out) →
  NoDup out ∧ installable ps m reqs (λ p, p ∈ out) ∧
  ∀ l1 p l2 d, out = l1 ++ p :: l2 → d ∈ p_requires p → ∃ q, q ∈ l1 ∧ q ≠ p ∧ dep_meets m d q.
Proof.
  intros e fuel ps reqs m out He Hk H1 (po & s & Hpo & Hs & Ho)%satisfy_open. destruct s as [t|]; [|by destruct Ho as (? & ? & ? & ?)].
  injection Ho as ->. set (ds := DepSolver po [repo_iter (repo_of ps)] [] true false) in *.
  assert (Hset := api_setting ps Hk _ po Hpo). assert (Hask := api_asks ps po m reqs).
  assert (V := C16_valid e _ ds fuel _ _ t He Hset Hask eq_refl (api_single ps H1) (api_same ps) (api_removes ps reqs) Hs).
  destruct (C27_solve e _ ds fuel _ _ t He Hset Hask Hs) as (N1 & N2 & Hops & _).
  assert (Hins : ∀ o, o ∈ t_ops t → o = InstallOp (op_package o)).
  { intros o Ho. destruct (Hops o Ho) as [(p & -> & Hp)|(p & -> & _)]; [by apply elem_of_nil in Hp|done]. }
  assert (Haft : ∀ o, (∀ x, x ∈ o → x ∈ t_ops t) → ∀ p, after [] o p ↔ p ∈ op_package <$> o).
  { intros o Hsub p. unfold after. rewrite elem_of_nil, elem_of_list_fmap. split.
    - intros [[[] _]|Hp]. by exists (InstallOp p).
    - intros (x & -> & Hx). right. rewrite <-(Hins x); auto. }
  split; [done|]. split.
  - apply api_valid in V. destruct V as [V1 V2 V3 V4 V5]. assert (Ha := Haft (t_ops t) (λ x H, H)). split.
    + intros p Hp. by apply V1, Ha.
    + intros r Hr. destruct (V2 r Hr) as (q & Hq & Hm). exists q. split; [by apply Ha|done].
    + intros p d Hp%Ha Hd. destruct (V3 p d Hp Hd) as (q & Hq & Hne & Hm). exists q. split; [by apply Ha|done].
    + intros p q Hp%Ha Hq%Ha. by apply V4.
    + intros p d q Hp%Ha Hd Hq%Ha. by apply V5.
  - intros l1 p l2 d E Hd. apply fmap_app_inv in E as (o1 & o2 & -> & E & Eo). symmetry in E. apply fmap_cons_inv in E as (o & o2' & -> & -> & ->).
    assert (Hoo := Hins o ltac:(rewrite Eo; set_solver)). rewrite Hoo in Eo.
    destruct (C28_dependencies_first e _ ds fuel _ _ t o1 (op_package o) o2' d He Hset Hask eq_refl (api_single ps H1) (api_same ps) (api_removes ps reqs) Hs Eo Hd)
      as (q & Hq & Hne & Hm).
    exists q. split; [|done]. apply Haft; [|exact Hq]. intros x Hx. rewrite Eo. set_solver.
Qed.
(** SatisfiabilityError is raised only if there is no such set. *)
Theorem C48_unsat : ∀ e fuel ps reqs m c k s, env_ok e → well_formed ps →
  satisfy_requirements e fuel ps reqs (Some m) = Ok (Unsat c k s) → ¬ ∃ S, installable ps m reqs S.
Proof.
  intros e fuel ps reqs m c k s He Hk (po & x & Hpo & Hs & Ho)%satisfy_open [S HS]. destruct x as [t|c' k' s']; [done|].
  destruct (C15_unsat _ _ _ _ _ _ _ _ _ He (api_setting ps Hk _ po Hpo) (api_asks ps po _ reqs) Hs). exists S. by apply api_valid.
Qed.
Theorem C48_total : ∀ e ps reqs m, env_ok e → well_formed ps → answerable ps m reqs →
  ∃ n, ∀ fuel, (n ≤ fuel)%nat →
    (∃ out, satisfy_requirements e fuel ps reqs (Some m) = Ok (Normal out)) ∨
    (∃ c k s, satisfy_requirements e fuel ps reqs (Some m) = Ok (Unsat c k s)).
Proof.
  intros e ps reqs m He Hk Ha. destruct (api_pool ps (Some m) (an_provides _ _ _ Ha)) as [po Hpo].
  destruct (api_total ps Hk e _ po reqs He Hpo Ha) as [n Hn]. exists n. intros fuel Hf.
  unfold satisfy_requirements. cbn [of_option mbind res_bind]. rewrite installs_all. cbn [mbind res_bind]. rewrite Hpo. cbn [mbind res_bind].
  destruct (Hn fuel Hf) as [(t & Ht)|(c & k & s & Ht)]; rewrite Ht; cbn [mbind res_bind]; [left|right; eauto].
  destruct (C27_solve e _ _ fuel _ _ t He (api_setting ps Hk _ po Hpo) (api_asks ps po m reqs) Ht) as (_ & _ & Hops & _).
  assert (forallb (λ o, match o with InstallOp _ => true | _ => false end) (t_ops t) = true) as ->; [|cbn; eauto].
  apply forallb_forall. intros o Ho%elem_of_list_In. destruct (Hops o Ho) as [(p & -> & Hp)|(p & -> & _)]; [by apply elem_of_nil in Hp|done].
Qed.
(** Called without modifiers, as its signature allows, it always fails with TypeError. *)
Theorem C48_default_refuted : ∀ e fuel ps reqs, satisfy_requirements e fuel ps reqs None = Raise TypeError.
Proof. done. Qed.

(** ** C49 *)
Lemma acyclic_wf {A} (R : A → A → Prop) (l : list A) : (∀ x y, R x y → x ∈ l) → (∀ x, ¬ tc R x x) →
  ∀ x, x ∈ l → Acc R x.
Proof.
  intros Hl Hac.
  assert (H : ∀ k x v, NoDup v → (∀ z, z ∈ v → z ∈ l ∧ tc R x z) → x ∈ l → (length l < k + length v)%nat → Acc R x).
  { induction k as [|k IH]; intros x v Hn Hv Hx Hlen.
    - exfalso. assert (v ⊆+ l) as Hs%submseteq_length; [|lia]. apply NoDup_submseteq; [done|]. intros z Hz. by apply Hv.
    - constructor. intros a Ha. apply (IH a (x :: v)); [| |by eapply Hl|cbn; lia].
      + apply NoDup_cons. split; [|done]. intros Hz. apply (Hac x), Hv, Hz.
      + intros z [->|Hz]%elem_of_cons; [split; [done|by apply tc_once]|]. split; [by apply Hv|].
        eapply tc_l; [exact Ha|]. by apply Hv. }
  intros x Hx. apply (H (S (length l)) x []); [by constructor|by intros z ?%elem_of_nil|done|cbn; lia].
Qed.

Section simplify.
  Context (sortk : list package → list package) (Hsort : ∀ l, sortk l ≡ₚ l).
  Context (ps : list package) (Hk : well_formed ps) (reqs : list requirement) (Hc : ∀ r, r ∈ reqs → r_class r = RInstall).
  Context (out : list requirement) (Hout : simplify_requirements sortk ps reqs = Ok out).
  Definition kept (p : package) : Prop :=
    asked_for ps no_mods reqs p ∧ ∀ q d, asked_for ps no_mods reqs q → d ∈ p_requires q → ¬ dep_meets no_mods d p.
  Lemma simplify_spec r : r ∈ out ↔ ∃ p, kept p ∧ r = exactly (p_name p) (p_version p).
  Proof.
    revert Hout. unfold simplify_requirements. destruct (packages_from_requirements sortk ps reqs None) as [needed|] eqn:Hn; cbn [mbind res_bind]; [|done].
    assert (Hel := selected_spec _ _ _ _ _ Hsort Hk Hc Hn). cbn [default] in Hel.
    destruct (pool_of _ _) as [po|] eqn:Hpo; cbn [mbind res_bind]; [|done].
    destruct (pool_of_rep _ _ _ Hpo) as [R Hms].
    destruct (foldM _ needed []) as [deps|] eqn:Hd; cbn [mbind res_bind]; [|done]. intros [= <-].
    assert (Hone : ∀ cs acc deps, foldM (λ acc c, r ← from_constraints RInstall c; qs ← what_provides po r true; Ok (acc ++ qs)) cs acc = Ok deps →
      ∀ x, x ∈ deps ↔ x ∈ acc ∨ ∃ d, d ∈ cs ∧ x ∈ ps ∧ dep_meets no_mods d x).
    { induction cs as [|c cs IH]; intros acc deps' H x; cbn [foldM] in H.
      - injection H as <-. split; [by left|]. intros [?|(d & Hd' & _)]; [done|]. by apply elem_of_nil in Hd'.
      - destruct (from_constraints RInstall c) as [r0|] eqn:Hr; cbn [mbind res_bind] in H; [|done].
        destruct (from_constraints_spec _ _ _ Hr) as (Hpl & _ & _).
        destruct (what_provides po r0 true) as [qs|] eqn:Hw; cbn [mbind res_bind] in H; [|done].
        assert (Hq : ∀ x, x ∈ qs ↔ x ∈ ps ∧ dep_meets no_mods c x).
        { intros y. assert (Hdc := dcand_spec po _ R c y Hpl). unfold dcand, wp in Hdc. rewrite Hr, Hw in Hdc. rewrite Hdc, repo_elem.
          unfold sem_mods. by rewrite Hms. }
        rewrite (IH _ _ H x), elem_of_app, Hq. split.
        + intros [[?|?]|(d & ? & ?)]; [by left|right; exists c; split; [left|done]|right; exists d; split; [by right|done]].
        + intros [?|(d & [->|?]%elem_of_cons & ?)]; [by left; left|left; by right|right; eauto]. }
    assert (Hall : ∀ ns acc deps, foldM (λ acc p, foldM (λ acc c, r ← from_constraints RInstall c; qs ← what_provides po r true; Ok (acc ++ qs)) (p_requires p) acc) ns acc = Ok deps →
      ∀ x, x ∈ deps ↔ x ∈ acc ∨ ∃ q d, q ∈ ns ∧ d ∈ p_requires q ∧ x ∈ ps ∧ dep_meets no_mods d x).
    { induction ns as [|q ns IH]; intros acc deps' H x; cbn [foldM] in H.
      - injection H as <-. split; [by left|]. intros [?|(q & d & Hq & _)]; [done|]. by apply elem_of_nil in Hq.
      - destruct (foldM _ (p_requires q) acc) as [acc'|] eqn:Hq; cbn [mbind res_bind] in H; [|done].
        rewrite (IH _ _ H x), (Hone _ _ _ Hq x). split.
        + intros [[?|(d & ? & ?)]|(q' & d & ? & ?)]; [by left|right; exists q, d; split; [left|done]|right; exists q', d; split; [by right|done]].
        + intros [?|(q' & d & [->|?]%elem_of_cons & Hr')]; [by left; left|left; right; eauto|right; eauto]. }
    assert (Hdeps := Hall _ _ _ Hd). unfold requirements_from_packages. rewrite elem_of_list_fmap.
    assert (Hin : ∀ x, x ∈ ps → pkg_in x deps = false ↔ x ∉ deps).
    { intros x Hx. unfold pkg_in. rewrite <-not_true_iff_false, existsb_exists. apply not_iff_compat. split.
      - intros (y & Hy%elem_of_list_In & E%bool_decide_eq_true). assert (y = x) as <-; [|done]. apply (wf_keys _ Hk); [|done|done].
        apply Hdeps in Hy as [Hy%elem_of_nil|(? & ? & _ & _ & Hy & _)]; done.
      - intros Hy. exists x. split; [by apply elem_of_list_In|]. by apply bool_decide_eq_true. }
    assert (Hkept : ∀ x, x ∈ filter (λ p, pkg_in p deps = false) needed ↔ kept x).
    { intros x. rewrite elem_of_list_filter, Hel. unfold kept. split.
      - intros [H1 H2]. split; [done|]. apply Hin in H1; [|by apply H2]. intros q d Hq Hdq Hm. apply H1, Hdeps. right. exists q, d.
        split; [by apply Hel|]. split; [done|]. split; [by apply H2|done].
      - intros [H2 H1]. split; [|done]. apply Hin; [by apply H2|]. rewrite Hdeps. intros [?%elem_of_nil|(q & d & Hq & Hdq & _ & Hm)]; [done|].
        apply Hel in Hq. by apply (H1 q d). }
    split.
    - intros (p & -> & Hp). exists p. split; [by apply Hkept|done].
    - intros (p & Hp & ->). exists p. split; [done|by apply Hkept].
  Qed.

  (** If each name is offered in one version only, dependencies are acyclic, and each requirement can be
      met, the simplified requirements are equivalent to the original ones. *)
  Context (H1 : single_names ps) (Hone : one_version (λ p, p ∈ ps)) (Hac : acyclic ps no_mods).
  Context (Hself : ∀ p d, p ∈ ps → d ∈ p_requires p → ¬ dep_meets no_mods d p).
  Context (Hcand : ∀ r, r ∈ reqs → ∃ p, p ∈ ps ∧ req_meets r p).
  Lemma only_one p q n : p ∈ ps → q ∈ ps → provides p n → provides q n → p = q.
  Proof. intros Hp Hq Hpn Hqn. apply Hone; [done|done|]. by apply (H1 p q n). Qed.
  Lemma asked_meets p : asked_for ps no_mods reqs p ↔ p ∈ ps ∧ ∃ r, r ∈ reqs ∧ req_meets r p.
  Proof. unfold asked_for, req_meets. setoid_rewrite relaxed_none. done. Qed.
  Lemma simplify_equiv S : installable ps no_mods reqs S ↔ installable ps no_mods out S.
  Proof.
    split; intros [V1 V2 V3 V4 V5]; (split; [done| |done|done|done]).
    - intros r (p & [[Hp (r0 & Hr & Hpr)]%asked_meets _] & ->)%simplify_spec.
      destruct (V2 r0 Hr) as (q & Hq & Hm). assert (q = p) as ->.
      { apply (only_one q p (r_name r0)); [by apply V1|done|apply Hm|apply Hpr]. }
      exists p. split; [done|]. split; [by left|]. by intros c ->%elem_of_list_singleton.
    - assert (Hall : ∀ p, p ∈ ps → asked_for ps no_mods reqs p → S p).
      { intros p Hp. pose proof (acyclic_wf (depends ps no_mods) ps (λ x y H, proj1 H) Hac p Hp) as Ha.
        induction Ha as [p _ IH]. intros Has.
        destruct (decide (Exists (λ r, r_name r = p_name p ∧ r_cons r = [CEqual (p_version p)]) out)) as [Hx|Hx].
        - apply Exists_exists in Hx as (r & Hr & Hn & Hcs). destruct (V2 r Hr) as (q & Hq & Hm & _).
          assert (q = p) as <-; [|done]. apply (only_one q p (p_name p)); [by apply V1|done|by rewrite <-Hn|by left].
        - assert (Hnk : ¬ kept p).
          { intros Hkp. apply Hx, Exists_exists. exists (exactly (p_name p) (p_version p)). split; [|done]. apply simplify_spec. eauto. }
          assert (Hdep : ¬ ¬ ∃ q d, asked_for ps no_mods reqs q ∧ d ∈ p_requires q ∧ dep_meets no_mods d p).
          { intros Hno. apply Hnk. split; [done|]. intros q d Hq Hd Hm. apply Hno. eauto. }
          (* finitely many packages and dependencies: the double negation can be dropped *)
          assert (Hdec : Decision (Exists (λ q, Exists (λ r, req_b r q = true) reqs ∧ Exists (λ d, dep_b no_mods d p = true) (p_requires q)) ps)) by apply _.
          destruct Hdec as [Hd|Hd].
          + apply Exists_exists in Hd as (q & Hq & Hqr & Hqd). apply Exists_exists in Hqr as (r & Hr & Hmr%req_b_spec).
            apply Exists_exists in Hqd as (d & Hd & Hmd%dep_b_spec).
            assert (Hqa : asked_for ps no_mods reqs q) by (apply asked_meets; eauto).
            assert (Hqp : p ≠ q) by (intros ->; by apply (Hself q d)).
            assert (HSq : S q).
            { apply IH; [split; [done|]; split; [done|]; split; [done|]; eauto|done|done]. }
            destruct (V3 q d HSq Hd) as (z & Hz & _ & Hmz).
            assert (z = p) as <-; [|done]. apply (only_one z p d.1); [by apply V1|done|apply Hmz|apply Hmd].
          + exfalso. apply Hdep. intros (q & d & [Hq (r & Hr & Hmr)]%asked_meets & Hdq & Hm). apply Hd, Exists_exists. exists q. split; [done|].
            split; apply Exists_exists; [exists r|exists d]; (split; [done|]); [by apply req_b_spec|by apply dep_b_spec]. }
      intros r Hr. destruct (Hcand r Hr) as (p & Hp & Hm). exists p. split; [|done]. apply Hall; [done|]. apply asked_meets. eauto.
  Qed.
End simplify.

Theorem C49_equivalent : ∀ sortk ps reqs out S, (∀ l, sortk l ≡ₚ l) → well_formed ps → (∀ r, r ∈ reqs → r_class r = RInstall) →
  simplify_requirements sortk ps reqs = Ok out →
  single_names ps → one_version (λ p, p ∈ ps) → acyclic ps no_mods →
  (∀ p d, p ∈ ps → d ∈ p_requires p → ¬ dep_meets no_mods d p) →
  (∀ r, r ∈ reqs → ∃ p, p ∈ ps ∧ req_meets r p) →
  installable ps no_mods reqs S ↔ installable ps no_mods out S.
Proof. intros. eapply simplify_equiv; eauto. Qed.
(** What is returned in general: the releases asked for that no package asked for depends on. *)
Theorem C49_result : ∀ sortk ps reqs out r, (∀ l, sortk l ≡ₚ l) → well_formed ps → (∀ r, r ∈ reqs → r_class r = RInstall) →
  simplify_requirements sortk ps reqs = Ok out →
  r ∈ out ↔ ∃ p, asked_for ps no_mods reqs p ∧
    (∀ q d, asked_for ps no_mods reqs q → d ∈ p_requires q → ¬ dep_meets no_mods d p) ∧
    r = exactly (p_name p) (p_version p).
Proof.
  intros sortk ps reqs out r Hs Hk Hc H. rewrite (simplify_spec sortk Hs ps Hk reqs Hc out H r). unfold kept. split.
  - intros (p & [? ?] & ?). eauto.
  - intros (p & ? & ? & ?). eauto.
Qed.
(** "Return a reduced, but equivalent set of requirements" is false in general: A needs B, and exactly
    B-1 is required; the simplified requirements also allow B-2.  Cyclic dependencies lose everything. *)
Theorem C49_refuted : ∃ ps reqs out S, well_formed ps ∧ (∀ r, r ∈ reqs → r_class r = RInstall) ∧
  single_names ps ∧ acyclic ps no_mods ∧ (∀ r, r ∈ reqs → ∃ p, p ∈ ps ∧ req_meets r p) ∧
  simplify_requirements id ps reqs = Ok out ∧
  installable ps no_mods out S ∧ ¬ installable ps no_mods reqs S.
Proof.
  set (a := Pkg "A" (V 1 0) [("B", [])] [] [] None). set (b1 := Pkg "B" (V 1 0) [] [] [] None). set (b2 := Pkg "B" (V 2 0) [] [] [] None).
  exists [a; b1; b2], [Req RInstall "A" [CAny]; Req RInstall "B" [CEqual (V 1 0)]], [Req RInstall "A" [CEqual (V 1 0)]], (λ p, p ∈ [a; b2]).
  split; [apply well_formed_check; vm_compute; reflexivity|]. split; [intros r; rewrite !elem_of_cons, elem_of_nil; intros [->|[->|[]]]; done|].
  split; [apply single_b_spec; vm_compute; reflexivity|].
  split; [apply (ranked_b_spec (λ p, length (p_requires p))); vm_compute; reflexivity|]. split.
  { intros r. rewrite !elem_of_cons, elem_of_nil. intros [->|[->|[]]]; [exists a|exists b1]; (split; [set_solver|]); by apply req_b_spec; vm_compute. }
  split; [vm_compute; reflexivity|]. split.
  - apply api_valid. apply valid_b_spec. vm_compute. reflexivity.
  - intros [_ V2 _ _ _]. destruct (V2 (Req RInstall "B" [CEqual (V 1 0)])) as (q & Hq & Hm%req_b_spec); [right; left|].
    rewrite !elem_of_cons, elem_of_nil in Hq. destruct Hq as [->|[->|[]]]; by vm_compute in Hm.
Qed.
Theorem C49_cycle_refuted : ∃ ps reqs, well_formed ps ∧ single_names ps ∧ one_version (λ p, p ∈ ps) ∧
  reqs ≠ [] ∧ simplify_requirements id ps reqs = Ok [] ∧ (∃ S, installable ps no_mods reqs S) ∧
  ¬ installable ps no_mods reqs (λ _, False).
Proof.
  set (a := Pkg "A" (V 1 0) [("B", [])] [] [] None). set (b := Pkg "B" (V 1 0) [("A", [])] [] [] None).
  exists [a; b], [Req RInstall "A" [CAny]; Req RInstall "B" [CAny]].
  split; [apply well_formed_check; vm_compute; reflexivity|]. split; [apply single_b_spec; vm_compute; reflexivity|].
  split; [apply names_b_spec; vm_compute; reflexivity|]. split; [done|]. split; [vm_compute; reflexivity|]. split.
  - exists (λ p, p ∈ [a; b]). apply api_valid. apply valid_b_spec. vm_compute. reflexivity.
  - intros [_ V2 _ _ _]. destruct (V2 (Req RInstall "A" [CAny])) as (q & [] & _). left.
Qed.

(** ** Examples *)
Definition api_pkgs : list package :=
  [Pkg "app" (V 2 0) [("lib", [[[CGeq (V 1 0)]]]); ("gui", [])] [] [] None; Pkg "gui" (V 1 0) [("lib", [])] [] [] None;
   Pkg "lib" (V 1 0) [] [] [] None; Pkg "lib" (V 2 0) [] [("gui", [])] [] None; Pkg "extra" (V 1 0) [] [] [] None].
Definition api_reqs : list requirement := [Req RInstall "app" [CAny]; Req RInstall "extra" [CLt (V 2 0)]].
Theorem C48_example : well_formed api_pkgs ∧ answerable api_pkgs no_mods api_reqs ∧
  ∃ out, satisfy_requirements env0 40 api_pkgs api_reqs (Some no_mods) = Ok (Normal out) ∧
    (p_name <$> out) = ["extra"; "lib"; "gui"; "app"] ∧
  requirements_are_satisfiable env0 40 api_pkgs api_reqs None = Ok true ∧
  requirements_are_complete env0 id 40 api_pkgs api_reqs None = Ok false ∧
  requirements_are_satisfiable env0 40 api_pkgs (Req RInstall "lib" [CGt (V 1 0)] :: api_reqs) None = Ok false ∧
  packages_are_consistent env0 40 out None = Ok true ∧
  simplify_requirements id out (requirements_from_packages out)
    = Ok [exactly "extra" (V 1 0); exactly "app" (V 2 0)].
Proof.
  split; [apply well_formed_check; vm_compute; reflexivity|]. split.
  { split.
    - intros p d Hp Hd. assert (Hn : all api_pkgs (λ p, bool_decide (p_provides p = [])) = true) by (vm_compute; reflexivity).
      apply (all_spec _ _ Hn), bool_decide_eq_true in Hp. rewrite Hp in Hd. by apply elem_of_nil in Hd.
    - apply single_b_spec. vm_compute. reflexivity.
    - apply interp_b_spec. vm_compute. reflexivity.
    - intros r Hr. assert (Hc : forallb (λ r, any api_pkgs (req_b r)) api_reqs = true) by (vm_compute; reflexivity).
      rewrite forallb_forall in Hc. apply elem_of_list_In in Hr. apply Hc, any_spec in Hr as (p & Hp & Hm%req_b_spec). eauto.
    - apply (ranked_b_spec ex_rank). vm_compute. reflexivity. }
  eexists. split; [vm_compute; reflexivity|]. split; [vm_compute; reflexivity|]. repeat (split; [vm_compute; reflexivity|]). vm_compute. reflexivity.
Qed.
Print Assumptions C46_satisfiable. Print Assumptions C46_total. Print Assumptions C47_consistent. Print Assumptions C47_complete.
Print Assumptions C48_installable. Print Assumptions C48_unsat. Print Assumptions C48_total. Print Assumptions C49_equivalent. Print Assumptions C49_refuted.
