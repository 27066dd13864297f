(** * Properties C81, C82: packages that have nothing to do with the request do not matter. *)
From Verif Require Import PoolProofs PropPool PropConstraints SpecSat ConstraintProofs PropRules SatLearn RepositoryProofs PolicyProofs PropSat.
From Verif Require Import Unrelated.
From Verif Require Export PropMono.
From Verif Require Import PropLimits SpecCheck.

(** ** C81: whether a request can be met depends on the packages it leads to only. *)
(** The packages that a job asks for and, from there, those that can meet a dependency. *)
Inductive leads_to (pkgs : list package) (m : modifiers) (jobs : list job) : package → Prop :=
  | leads_job j r p : j ∈ jobs → j_req j = Some r → p ∈ pkgs → req_meets r p → leads_to pkgs m jobs p
  | leads_dep p d q : leads_to pkgs m jobs p → d ∈ p_requires p → q ∈ pkgs → dep_meets m d q → leads_to pkgs m jobs q.
Lemma leads_in pkgs m jobs p : leads_to pkgs m jobs p → p ∈ pkgs.
Proof. by destruct 1. Qed.
Lemma valid_restrict pkgs inst m jobs pkgs' inst' S : Forall plain_job jobs → (∀ p, leads_to pkgs m jobs p → p ∈ pkgs') →
  valid pkgs inst m jobs S → valid pkgs' inst' m jobs (λ p, S p ∧ leads_to pkgs m jobs p).
Proof.
  intros Hpl Hsub V. rewrite Forall_forall in Hpl. split.
  - intros p [_ H]. by apply Hsub.
  - intros j Hj. pose proof (va_jobs _ _ _ _ _ V j Hj) as J. unfold job_ok in *. destruct (j_req j) as [r|] eqn:Er; [|done].
    destruct (Hpl j Hj) as [E|[E|E]]; rewrite E in *.
    + destruct J as (q & Hq & Hr). exists q. split; [|done]. split; [done|]. eapply leads_job; [exact Hj|done|by apply (va_sub _ _ _ _ _ V)|done].
    + destruct J as (q & Hq & Hr). exists q. split; [|done]. split; [done|]. eapply leads_job; [exact Hj|done|by apply (va_sub _ _ _ _ _ V)|done].
    + intros q [Hq _]. by apply J.
  - intros p d [HS Hp] Hd. destruct (va_closed _ _ _ _ _ V p d HS Hd) as (q & Hq & Hne & Hmt). exists q.
    split; [|done]. split; [done|]. eapply leads_dep; [exact Hp|done|by apply (va_sub _ _ _ _ _ V)|done].
  - intros p q [Hp _] [Hq _]. by apply (va_names _ _ _ _ _ V).
  - intros p d q [Hp _] Hd [Hq _]. by apply (va_conflicts _ _ _ _ _ V).
Qed.
(** If two pools agree on these packages (nothing else needs to be shared, in particular not what is installed), a request
    that is solved with one is not refused with the other. *)
Theorem C81_solvable : ∀ e e' repos repos' ds ds' fuel fuel' rq t c k s, env_ok e → env_ok e' →
  setting repos ds → setting repos' ds' → Forall plain_job (rq_jobs rq) →
  (∀ p, leads_to (mjoin repos) (rq_mods rq) (rq_jobs rq) p → p ∈ mjoin repos') →
  solve e ds fuel rq = Ok (Normal t) → solve e' ds' fuel' rq ≠ Ok (Unsat c k s).
Proof.
  intros e e' repos repos' ds ds' fuel fuel' rq t c k s He He' Hset Hset' Hpl Hsub H1 H2.
  assert (A : ∀ ds, asks ds rq (rq_jobs rq)).
  { intros d. left. split; [|done]. rewrite Forall_forall in Hpl. intros j Hi Hk. destruct (Hpl j Hi) as [?|[?|?]]; congruence. }
  eapply (C15_unsat e'); [done|exact Hset'|exact (A ds')|exact H2|].
  destruct (C15_sat _ _ _ _ _ _ _ He Hset (A ds) H1) as (S & V). eexists. by eapply valid_restrict.
Qed.
Print Assumptions C81_solvable.

(** ** C82: packages nobody speaks of change nothing *)
(** The packages that have to do with a request: the installed ones, those of the names it mentions and, from there, those of the
    names mentioned in metadata. *)
Inductive related (pkgs inst : list package) (jobs : list job) : package → Prop :=
  | related_installed p : p ∈ inst → related pkgs inst jobs p
  | related_job j r p : j ∈ jobs → j_req j = Some r → p ∈ pkgs → provides p (r_name r) → related pkgs inst jobs p
  | related_by p n q : related pkgs inst jobs p → speaks_of p n → q ∈ pkgs → provides q n → related pkgs inst jobs q.
Definition mentioned (pkgs inst : list package) (jobs : list job) (n : string) : Prop :=
  (∃ p, related pkgs inst jobs p ∧ speaks_of p n) ∨ (∃ j r, j ∈ jobs ∧ j_req j = Some r ∧ r_name r = n).

Lemma related_within pkgs inst jobs jobs' p : (∀ j r, j ∈ jobs' → j_req j = Some r → mentioned pkgs inst jobs (r_name r)) →
  related pkgs inst jobs' p → related pkgs inst jobs p.
Proof.
  intros H. induction 1 as [p Hp|j r p Hj Er Hp Hpr|p n q Hp IH Hs Hq Hpr]; [by apply related_installed| |eapply related_by; eauto].
  destruct (H j r Hj Er) as [(p' & Hp' & Hs)|(j' & r' & Hj' & Er' & En)]; [by eapply related_by|eapply related_job; [exact Hj'|exact Er'|done|by rewrite En]].
Qed.
Lemma mentioned_within pkgs inst jobs jobs' n : (∀ j r, j ∈ jobs' → j_req j = Some r → mentioned pkgs inst jobs (r_name r)) →
  mentioned pkgs inst jobs' n → mentioned pkgs inst jobs n.
Proof.
  intros H [(p & Hp & Hs)|(j & r & Hj & Er & <-)]; [left; exists p; split; [by eapply related_within|done]|by eapply H].
Qed.
Lemma join_app {A} (xs ys : list (list A)) : mjoin (xs ++ ys) = mjoin xs ++ mjoin ys.
Proof. induction xs as [|z xs IH]; [done|]. change (z ++ mjoin (xs ++ ys) = (z ++ mjoin xs) ++ mjoin ys). by rewrite IH, app_assoc. Qed.

Section same.
  Context (e : env) (He : env_ok e) (repos more : list (list package)) (ds ds' : dep_solver) (m' : option modifiers).
  Context (Hset : setting repos ds) (Hpool : pool_of (repos ++ more) m' = Ok (ds_pool ds')).
  Context (Ei : ds_installed ds' = ds_installed ds) (Ep : ds_pruning ds' = ds_pruning ds) (Es : ds_strict ds' = ds_strict ds).
  Let l := mjoin repos.
  Let x := mjoin more.

  Lemma named_more n remote rem : (∀ q, q ∈ mjoin rem → p_name q ≠ n) →
    find_packages (foldl repo_update repo_empty (remote ++ rem)) n = find_packages (foldl repo_update repo_empty remote) n.
  Proof.
    intros H. rewrite !update_all, join_app. change (repo_update repo_empty ?k) with (repo_of k). rewrite !repo_of_find. f_equal.
    unfold named. rewrite filter_app. replace (filter (λ p, p_name p = n) (mjoin rem)) with (@nil package); [by rewrite app_nil_r|].
    symmetry. apply list_filter_nil || (destruct (filter (λ p, p_name p = n) (mjoin rem)) as [|q k] eqn:E; [done|];
      exfalso; assert (Hq : q ∈ filter (λ p, p_name p = n) (mjoin rem)) by (rewrite E; left); apply elem_of_list_filter in Hq as [H1 H2]; by apply (H q)).
  Qed.

  Section request.
    Context (jobs : list job) (fuel : nat) (rq : request).
    Context (Hun : ∀ q n, q ∈ x → provides q n → ¬ mentioned l (ds_installed ds) jobs n).
    Context (Hjobs : ∀ j r, j ∈ rq_jobs rq → j_req j = Some r → mentioned l (ds_installed ds) jobs (r_name r)).
    Let K := related l (ds_installed ds) jobs.
    Let Nm := mentioned l (ds_installed ds) jobs.
    Let po := solve_pool (ds_pool ds) rq.
    Let po' := solve_pool (ds_pool ds') rq.
    Local Lemma HR : pool_rep po l.
    Proof. destruct (sv_pool _ _ Hset) as [m Hm]. apply set_mods_rep. by apply (pool_of_rep _ _ _ Hm). Qed.
    Local Lemma HR' : pool_rep po' (l ++ x).
    Proof. apply set_mods_rep. unfold l, x. rewrite <-join_app. by apply (pool_of_rep _ _ _ Hpool). Qed.
    Local Lemma HKl p : K p → p ∈ l.
    Proof. destruct 1; [by apply (sv_installed _ _ Hset)|done|done]. Qed.
    Local Lemma HKn p n : K p → speaks_of p n → Nm n.
    Proof. intros Hp Hs. left. by exists p. Qed.
    Local Lemma HNx n q : Nm n → q ∈ x → ¬ provides q n.
    Proof. intros Hn Hq Hp. by eapply Hun. Qed.
    Local Lemma HNK n q : Nm n → q ∈ l → provides q n → K q.
    Proof. intros [(p & Hp & Hs)|(j & r & Hj & Er & <-)] Hq Hpr; [by eapply related_by|by eapply related_job]. Qed.
    Local Notation Kid := (Kid po K).
    Local Notation wf := (sv_keys _ _ Hset).

    Definition core (po : pool) : res (list Z * list rule * list Z) :=
      '(ids, soft) ← foldM (job_ids po (ds_installed ds)) (rq_jobs rq) ([], []);
      iids ← installed_ids po (ds_installed ds);
      prefer ← preferred_ids e po (ds_installed ds) soft;
      st ← iter_rules po iids (ds_strict ds) fuel (rq_jobs rq);
      Ok (ids, g_rules st, prefer).
    Definition tail (po : pool) (c : list Z * list rule * list Z) : res (out transaction) :=
      let '(ids, rules, prefer) := c in
      o ← solve_clauses (logged_policy (uc_policy (UcEnv (pkg_id_to_version po) (e_ord e) prefer))) fuel
            (uc_add_requirements ids uc_new, [], []) (rule_clauses rules);
      match o with
      | Unsat c l s => Ok (Unsat c l s)
      | Normal a =>
          let solution := solution_to_ids a in
          iids ← mapM_res (package_id po) (ds_installed ds);
          let inst : gset Z := list_to_set iids in
          decisions ← (if ds_pruning ds
                       then X ← connected_packages e po fuel solution (inst ∪ list_to_set ids); Ok (e_ord e 2 X)
                       else Ok solution);
          t ← mk_transaction po decisions (e_ord e 3 inst);
          Ok (Normal t)
      end.
    Lemma create_core po0 : create_rules e po0 (ds_installed ds) (ds_strict ds) fuel rq =
      ('(ids, rules, prefer) ← core po0; Ok (ids, rules, UcEnv (pkg_id_to_version po0) (e_ord e) prefer, uc_add_requirements ids uc_new)).
    Proof.
      unfold create_rules, core. destruct (foldM (job_ids po0 (ds_installed ds)) (rq_jobs rq) ([], [])) as [[ids so]|ex]; [rewrite !res_bind_ok|done].
      destruct (installed_ids po0 (ds_installed ds)) as [iids|ex]; [rewrite !res_bind_ok|done].
      destruct (preferred_ids e po0 (ds_installed ds) so) as [pr|ex]; [rewrite !res_bind_ok|done].
      by destruct (iter_rules po0 iids (ds_strict ds) fuel (rq_jobs rq)).
    Qed.
    Definition core_ok (c : list Z * list rule * list Z) : Prop :=
      (∀ i, i ∈ c.1.1 → Kid i) ∧ (∀ r, r ∈ c.1.2 → rule_ok po K r) ∧ (∀ i, i ∈ c.2 → Kid i).
    Lemma core_both : both core_ok (core po) (core po').
    Proof.
      pose proof HR as R. pose proof HR' as R'. pose proof (λ p, related_installed l (ds_installed ds) jobs p) as HI.
      unfold core. apply (both_bind (λ acc : list Z * list package, ∀ i, i ∈ acc.1 → Kid i)).
      { apply both_foldM; [|intros i Hi; by apply elem_of_nil in Hi]. intros acc j Hj Hacc.
        eapply (job_ids_both po po' l x R R'); [done|exact HKl|exact HKn|exact HNx|exact HNK|exact HI| |done]. intros r Er. by eapply Hjobs. }
      intros [ids so] Hids. cbn in Hids.
      eapply both_bind; [apply (installed_ids_both po po' l x R R' K Nm); [exact HKl|exact HKn|exact HNx|exact HI]|]. intros iids Hii.
      eapply both_bind; [apply (preferred_both po po' l x R R' wf K Nm); [exact HKl|exact HKn|exact HNx|done|exact HI]|]. intros pr Hpr.
      eapply both_bind; [apply (iter_rules_both po po' l x R R' eq_refl wf K Nm); [exact HKl|exact HKn|exact HNx|exact HNK|exact Hii|exact Hjobs]|].
      intros st Hst. by apply both_ok.
    Qed.
    Lemma tail_same c : core po = Ok c → tail po c = tail po' c.
    Proof.
      intros Ec. pose proof HR as R. pose proof HR' as R'. destruct (proj2 core_both c Ec) as (Hids & Hrules & Hpr).
      pose proof (λ p, related_installed l (ds_installed ds) jobs p) as HI.
      destruct c as [[ids rules] prefer]. cbn in Hids, Hrules, Hpr. unfold tail.
      set (ue := UcEnv (pkg_id_to_version po) (e_ord e) prefer). set (ue' := UcEnv (pkg_id_to_version po') (e_ord e) prefer).
      destruct (create_rules_spec e He po l R wf (ds_installed ds) (sv_installed _ _ Hset) (ds_strict ds) fuel rq ids rules ue (uc_add_requirements ids uc_new)) as (iids & st & PB).
      { by rewrite create_core, Ec, res_bind_ok. }
      pose proof (pol_good e He po l R wf (ds_installed ds) (sv_installed _ _ Hset) (ds_strict ds) fuel (rq_jobs rq) ids rules ue _ iids st PB) as [W G].
      pose proof (ust_good e He po l R wf (ds_installed ds) (sv_installed _ _ Hset) (ds_strict ds) fuel (rq_jobs rq) ids rules ue _ iids st PB) as U.
      assert (Hknown : ∀ v, is_var (rule_clauses rules).*1 v ∨ v ∈ extra ids ue → Kid v).
      { intros v [(c & y & Hc & Hy & ->)|Hv].
        - unfold rule_clauses in Hc. rewrite <-list_fmap_compose in Hc. apply elem_of_list_fmap in Hc as (r & -> & Hr). by apply (Hrules r).
        - unfold extra in Hv. apply elem_of_union in Hv as [Hv|Hv]; apply elem_of_list_to_set in Hv; [by apply Hpr|by apply Hids]. }
      rewrite <-(agree_solve _ (logged_policy (uc_policy ue')) _ (rule_clauses rules) _ _ G W); [|clear G U W|exact U].
      2:{ intros q a cls Hq Hcls.
          apply (logged_same ue ue' Kid); [done|done| |apply He|exact Hpr| | |].
          - intros v Hv. exact (proj1 (version_same po po' l x R R' wf K HKl v Hv)).
          - intros c y Hc Hy. by apply Hknown, (Hcls c y).
          - intros v Hv. destruct Hq as [-> _] in Hv || (destruct Hq as [Eq _]; rewrite Eq in Hv). apply elem_of_list_to_set in Hv. by apply Hids.
          - intros v Hv. destruct Hq as [_ Hq]. apply Hq in Hv. apply Hknown. by rewrite (clauses_fst e po l (ds_installed ds) (ds_strict ds) fuel (rq_jobs rq) ids rules ue _ iids st PB). }
      destruct (solve_clauses (logged_policy (uc_policy ue)) fuel (uc_add_requirements ids uc_new, [], []) (rule_clauses rules)) as [[a|? ? ?]|ex] eqn:Ea;
        [rewrite !res_bind_ok|done|done]. cbn zeta.
      assert (Hsol : ∀ i, i ∈ solution_to_ids a → Kid (Z.abs i)).
      { destruct (solve_result _ _ _ _ _ W G fuel (_, [], []) _ U Ea) as (s & Hf & ->).
        destruct (co_asg _ _ _ _ _ _ _ _ _ _ (iv_core _ _ _ _ _ _ (fi_ready _ _ _ _ Hf))) as [O1 O2 O3].
        intros i Hi. unfold solution_to_ids in Hi. rewrite elem_of_sort_by in Hi. apply elem_of_list_fmap in Hi as ([k b] & -> & Hk).
        assert (Hk' : k ∈ a_seen (s_asg s)).
        { unfold aset_items in Hk. apply elem_of_list_fmap in Hk as (k' & [= <- _] & Hk). rewrite merge_sort_Permutation in Hk. by rewrite elem_of_elements in Hk. }
        apply O3, Hknown in Hk'. cbn. destruct b as [[]|]; by apply (Kid_abs po l R K HKl). }
      pose proof (ids_both po po' l x R R' K Nm HKl HKn HNx (ds_installed ds) HI) as [Eids Hiids]. rewrite <-Eids.
      destruct (mapM_res (package_id po) (ds_installed ds)) as [is|ex] eqn:Eis; [rewrite !res_bind_ok|done]. specialize (Hiids is eq_refl).
      assert (HI2 : ∀ i, i ∈ e_ord e 3 (list_to_set is) → Kid i).
      { intros i Hi. rewrite (proj1 He), elem_of_elements in Hi. apply elem_of_list_to_set in Hi. by apply Hiids. }
      assert (T : ∀ dec, (∀ y, y ∈ dec → Kid (Z.abs y)) → mk_transaction po dec (e_ord e 3 (list_to_set is)) = mk_transaction po' dec (e_ord e 3 (list_to_set is))).
      { intros dec Hd. by apply (transaction_both po po' l x R R' eq_refl wf K Nm HKl HKn HNx HNK). }
      destruct (ds_pruning ds).
      - pose proof (connected_both po po' l x R R' eq_refl wf K Nm HKl HKn HNx HNK e fuel (solution_to_ids a) (list_to_set is ∪ list_to_set ids) He Hsol) as [EX HX].
        { intros i [Hi|Hi]%elem_of_union; apply elem_of_list_to_set in Hi; [by apply Hiids|by apply Hids]. }
        rewrite <-EX. destruct (connected_packages e po fuel (solution_to_ids a) (list_to_set is ∪ list_to_set ids)) as [X|ex]; [rewrite !res_bind_ok|done].
        rewrite T; [done|]. intros y Hy. rewrite (proj1 He), elem_of_elements in Hy. by apply (HX X).
      - rewrite !res_bind_ok. by rewrite T.
    Qed.
    Lemma run_same : (c ← core po'; tail po' c) = (c ← core po; tail po c).
    Proof.
      destruct core_both as [<- _]. destruct (core po) as [c|ex] eqn:E; [|done]. rewrite !res_bind_ok. symmetry. by apply tail_same.
    Qed.
  End request.

  Context (rem : list (list package)) (Erem : ds_remote ds' = ds_remote ds ++ rem) (Hrem : ∀ q, q ∈ mjoin rem → q ∈ x).
  Lemma solve_tail fuel rq : solve e ds fuel rq =
    (rq ← convert_upgrade rq (ds_remote ds) (ds_installed ds);
     c ← core fuel rq (solve_pool (ds_pool ds) rq); tail fuel (solve_pool (ds_pool ds) rq) c).
  Proof.
    unfold solve. destruct (convert_upgrade rq (ds_remote ds) (ds_installed ds)) as [rq1|ex]; [rewrite !res_bind_ok|done]. cbn zeta.
    rewrite create_core. destruct (core fuel rq1 (solve_pool (ds_pool ds) rq1)) as [[[ids rules] pr]|ex]; [rewrite !res_bind_ok|done]. done.
  Qed.
  Lemma solve_tail' fuel rq : solve e ds' fuel rq =
    (rq ← convert_upgrade rq (ds_remote ds') (ds_installed ds);
     c ← core fuel rq (solve_pool (ds_pool ds') rq); tail fuel (solve_pool (ds_pool ds') rq) c).
  Proof.
    unfold solve. rewrite Ei, Ep, Es. destruct (convert_upgrade rq (ds_remote ds') (ds_installed ds)) as [rq1|ex]; [rewrite !res_bind_ok|done]. cbn zeta.
    rewrite create_core. destruct (core fuel rq1 (solve_pool (ds_pool ds') rq1)) as [[[ids rules] pr]|ex]; [rewrite !res_bind_ok|done]. done.
  Qed.
  Lemma latest_same jobs : (∀ q n, q ∈ x → provides q n → ¬ mentioned l (ds_installed ds) jobs n) →
    latest_packages (ds_remote ds') (ds_installed ds) = latest_packages (ds_remote ds) (ds_installed ds).
  Proof.
    intros Hun. unfold latest_packages. cbn zeta. rewrite Erem.
    assert (G : ∀ k : list package, (∀ p, p ∈ k → p ∈ ds_installed ds) →
      omap (λ p, last (find_packages (foldl repo_update repo_empty (ds_remote ds ++ rem)) (p_name p))) k =
      omap (λ p, last (find_packages (foldl repo_update repo_empty (ds_remote ds)) (p_name p))) k); [|by apply G].
    induction k as [|p k IH]; intros Hk; [done|]. cbn. rewrite IH by (intros q Hq; apply Hk; by right).
    rewrite named_more; [done|]. intros q Hq E. apply (Hun q (p_name p)); [by apply Hrem|left; by rewrite E|].
    left. exists p. split; [apply related_installed, Hk; left|by left].
  Qed.
  Lemma converted jobs rq rq1 : jobs = rq_jobs rq → convert_upgrade rq (ds_remote ds) (ds_installed ds) = Ok rq1 →
    ∀ j r, j ∈ rq_jobs rq1 → j_req j = Some r → mentioned l (ds_installed ds) jobs (r_name r).
  Proof.
    intros -> E j r Hj Er. unfold convert_upgrade in E. 
    assert (D : rq_jobs rq1 = rq_jobs rq → mentioned l (ds_installed ds) (rq_jobs rq) (r_name r)).
    { intros Ej. right. exists j, r. by rewrite <-Ej. }
    destruct (rq_jobs rq) as [|j0 [|j1 js]] eqn:Ejs; [injection E as <-; auto| |injection E as <-; auto].
    case_decide; [|injection E as <-; auto]. clear D.
    rewrite <-(foldM_fmap (λ rq r, add_job rq (Some r) JInstall) upgrade_requirement), install_all in E; [|intros j' Hj'; by apply elem_of_nil in Hj'].
    injection E as <-. cbn in Hj. apply elem_of_list_fmap in Hj as (r' & -> & Hr'). injection Er as ->.
    apply elem_of_list_fmap in Hr' as (q & -> & Hq). unfold latest_packages in Hq. apply elem_of_list_omap in Hq as (p & Hp & Hl).
    pose proof (latest_spec (ds_remote ds) (p_name p)) as L. rewrite Hl in L. destruct L as [En _].
    left. exists p. split; [by apply related_installed|]. left. cbn. done.
  Qed.
  Lemma solve_same fuel rq : (∀ q n, q ∈ x → provides q n → ¬ mentioned l (ds_installed ds) (rq_jobs rq) n) →
    solve e ds' fuel rq = solve e ds fuel rq.
  Proof.
    intros Hun. rewrite solve_tail, solve_tail'.
    assert (convert_upgrade rq (ds_remote ds') (ds_installed ds) = convert_upgrade rq (ds_remote ds) (ds_installed ds)) as ->.
    { unfold convert_upgrade. by rewrite (latest_same _ Hun). }
    destruct (convert_upgrade rq (ds_remote ds) (ds_installed ds)) as [rq1|ex] eqn:E; [rewrite !res_bind_ok|done].
    apply (run_same (rq_jobs rq)); [done|]. by eapply converted.
  Qed.
End same.

(** What the added repositories hold is mentioned neither by the request nor by a package related to it. *)
Definition unrelated (repos more : list (list package)) (inst : list package) (jobs : list job) : Prop :=
  ∀ q n, q ∈ mjoin more → provides q n → ¬ mentioned (mjoin repos) inst jobs n.

(** Adding such repositories (behind the others; they may or may not be used as remote repositories) changes nothing: solve
    returns the same transaction, or raises the same error. *)
Theorem C82_same : ∀ e repos more rem ds ds' m fuel rq, env_ok e → setting repos ds →
  pool_of (repos ++ more) m = Ok (ds_pool ds') →
  ds_installed ds' = ds_installed ds → ds_pruning ds' = ds_pruning ds → ds_strict ds' = ds_strict ds →
  ds_remote ds' = ds_remote ds ++ rem → (∀ q, q ∈ mjoin rem → q ∈ mjoin more) →
  unrelated repos more (ds_installed ds) (rq_jobs rq) →
  solve e ds' fuel rq = solve e ds fuel rq.
Proof. intros e repos more rem ds ds' m fuel rq He Hset Hpool Ei Ep Es Erem Hrem Hun. by eapply (solve_same e He repos more). Qed.

(** The same holds for the hint for requests that cannot be met. *)
Section subset.
  Context {A : Type} (cb cb' : list A → res bool) (J : A → Prop) (Hcb : ∀ js, (∀ j, j ∈ js → J j) → cb js = cb' js).
  Lemma minimal_both : ∀ fuel clauses include, (∀ j, j ∈ clauses → J j) → (∀ j, j ∈ include → J j) →
    both (λ js, ∀ j, j ∈ js → J j) (minimal_unsat cb fuel clauses include) (minimal_unsat cb' fuel clauses include).
  Proof.
    induction fuel as [|fuel IH]; intros cl inc Hcl Hinc; cbn [minimal_unsat]; [apply both_raise|].
    destruct (Nat.eqb _ _); [by apply both_ok|]. destruct (DepSolver.split cl) as [a b] eqn:E.
    assert (Hab : a ++ b = cl). { unfold DepSolver.split in E. injection E as <- <-. apply take_drop. }
    assert (Ha : ∀ j, j ∈ a → J j) by (intros j Hj; apply Hcl; rewrite <-Hab; apply elem_of_app; by left).
    assert (Hb : ∀ j, j ∈ b → J j) by (intros j Hj; apply Hcl; rewrite <-Hab; apply elem_of_app; by right).
    assert (App : ∀ u v, (∀ j, j ∈ u → J j) → (∀ j, j ∈ v → J j) → ∀ j, j ∈ u ++ v → J j) by (intros u v Hu Hv j [H|H]%elem_of_app; auto).
    rewrite <-(Hcb (a ++ inc)) by (by apply App). eapply both_bind; [apply both_refl|]. intros sa _. destruct (negb sa); [by apply IH|].
    rewrite <-(Hcb (b ++ inc)) by (by apply App). eapply both_bind; [apply both_refl|]. intros sb _. destruct (negb sb); [by apply IH|].
    eapply both_bind; [apply IH; [done|by apply App]|]. intros u Hu. eapply both_bind; [apply IH; [done|by apply App]|]. intros v Hv. apply both_ok. by apply App.
  Qed.
End subset.
Theorem C82_hint : ∀ e repos more rem ds ds' m fuel rq, env_ok e → setting repos ds →
  pool_of (repos ++ more) m = Ok (ds_pool ds') →
  ds_installed ds' = ds_installed ds → ds_pruning ds' = ds_pruning ds → ds_strict ds' = ds_strict ds →
  ds_remote ds' = ds_remote ds ++ rem → (∀ q, q ∈ mjoin rem → q ∈ mjoin more) →
  unrelated repos more (ds_installed ds) (rq_jobs rq) →
  solve_with_hint e ds' fuel rq = solve_with_hint e ds fuel rq.
Proof.
  intros e repos more rem ds ds' m fuel rq He Hset Hpool Ei Ep Es Erem Hrem Hun. unfold solve_with_hint.
  rewrite (C82_same e repos more rem ds ds' m fuel rq) by done.
  destruct (solve e ds fuel rq) as [[t|c k s]|ex] eqn:Eo; [done| |done]. rewrite !res_bind_ok. clear Eo. rewrite Ei.
  assert (convert_upgrade rq (ds_remote ds') (ds_installed ds) = convert_upgrade rq (ds_remote ds) (ds_installed ds)) as ->.
  { unfold convert_upgrade. by rewrite (latest_same repos more ds ds' rem Erem Hrem _ Hun). }
  destruct (convert_upgrade rq (ds_remote ds) (ds_installed ds)) as [rq1|ex] eqn:E; [rewrite !res_bind_ok|done].
  pose proof (converted repos ds _ rq rq1 eq_refl E) as Hj. clear E.
  assert (Hcb : ∀ js, (∀ j, j ∈ js → j ∈ rq_jobs rq1) → hint_callback e ds' fuel (rq_mods rq1) js = hint_callback e ds fuel (rq_mods rq1) js).
  { intros js Hjs. unfold hint_callback. rewrite (C82_same e repos more rem ds ds' m fuel (Request (rq_mods rq1) js)); try done.
    intros q n Hq Hpr Hm. apply (Hun q n Hq Hpr). cbn in Hm. eapply mentioned_within; [|exact Hm]. intros j r Hin. by apply Hj, Hjs. }
  unfold minimal_unsatisfiable_subset. rewrite (Hcb (rq_jobs rq1)) by done.
  destruct (hint_callback e ds fuel (rq_mods rq1) (rq_jobs rq1)) as [b|ex]; [rewrite !res_bind_ok|done].
  destruct b; [done|]. f_equal. eapply both_eq, minimal_both; [exact Hcb|done|intros j Hjn; by apply elem_of_nil in Hjn].
Qed.
Print Assumptions C82_same.
Print Assumptions C82_hint.

(** ** Concrete cases *)
Definition spoken (p : package) : list string := p_name p :: ((p_requires p).*1 ++ (p_conflicts p).*1).
Lemma spoken_spec p n : speaks_of p n → n ∈ spoken p.
Proof.
  unfold spoken. intros [->|(d & Hd & <-)]; [left|right]. apply elem_of_app.
  destruct Hd; [left|right]; apply elem_of_list_fmap; eauto.
Qed.
Definition unrelated_b (repos more : list (list package)) (jobs : list job) : bool :=
  let names := mjoin (spoken <$> mjoin repos) ++ omap (λ j, r_name <$> j_req j) jobs in
  forallb (λ q, forallb (λ n, bool_decide (n ∉ names)) (p_name q :: (p_provides q).*1)) (mjoin more).
Lemma unrelated_b_spec repos more inst jobs : (∀ p, p ∈ inst → p ∈ mjoin repos) →
  unrelated_b repos more jobs = true → unrelated repos more inst jobs.
Proof.
  intros Hi H q n Hq Hp Hm. unfold unrelated_b in H. cbv zeta in H. rewrite forallb_forall in H. setoid_rewrite forallb_forall in H.
  assert (Hn : n ∉ mjoin (spoken <$> mjoin repos) ++ omap (λ j, r_name <$> j_req j) jobs).
  { refine (proj1 (bool_decide_eq_true _) (H q _ n _)); apply elem_of_list_In; [done|]. destruct Hp as [->|(d & Hd & <-)]; [left|right]. apply elem_of_list_fmap. eauto. }
  apply Hn. apply elem_of_app. destruct Hm as [(p & Hr & Hs)|(j & r & Hj & Er & <-)].
  - left. apply elem_of_list_join. exists (spoken p). split; [by apply spoken_spec|]. apply elem_of_list_fmap. exists p. split; [done|].
    destruct Hr; [by apply Hi|done|done].
  - right. apply elem_of_list_omap. exists j. by rewrite Er.
Qed.
Local Notation rem_pkg n v rq cf pv := (Pkg n (V v 0) rq cf pv (Some "r")).
Local Notation ext_pkg n v rq cf pv := (Pkg n (V v 0) rq cf pv (Some "x")).
(** C16_example again, with a third repository: one of its packages needs packages of the others, one conflicts with them. *)
Definition zoo : list package :=
  [ext_pkg "zoo" 9 [("app", [])] [] [("menagerie", [])]; ext_pkg "ape" 1 [] [("gui", []); ("lib", [])] []; ext_pkg "ape" 2 [("zoo", [])] [] []].
Definition zoo_ds : dep_solver := ds0 [ex_remote; ex_installed; zoo] [ex_remote; zoo] ex_installed true false.
Theorem C82_example : setting [ex_remote; ex_installed] (ex_ds true) ∧
  pool_of ([ex_remote; ex_installed] ++ [zoo]) None = Ok (ds_pool zoo_ds) ∧
  ds_remote zoo_ds = ds_remote (ex_ds true) ++ [zoo] ∧
  unrelated [ex_remote; ex_installed] [zoo] ex_installed (rq_jobs ex_request) ∧
  ∃ t, solve env0 (ex_ds true) 60 ex_request = Ok (Normal t) ∧ solve env0 zoo_ds 60 ex_request = Ok (Normal t) ∧ t_ops t = ex_ops.
Proof.
  assert (S : setting [ex_remote; ex_installed] (ex_ds true)) by run.
  assert (P : pool_of ([ex_remote; ex_installed] ++ [zoo]) None = Ok (ds_pool zoo_ds)) by (vm_compute; reflexivity).
  assert (U : unrelated [ex_remote; ex_installed] [zoo] ex_installed (rq_jobs ex_request)).
  { apply unrelated_b_spec; [exact (sv_installed _ _ S)|vm_compute; reflexivity]. }
  split; [exact S|]. split; [exact P|]. split; [done|]. split; [exact U|].
  destruct C16_example as (_ & _ & _ & _ & _ & _ & _ & _ & _ & _ & _ & t & Et & Ho). exists t. split; [exact Et|]. split; [|exact Ho].
  refine (eq_trans (C82_same env0 [ex_remote; ex_installed] [zoo] [zoo] (ex_ds true) zoo_ds None 60 ex_request env0_ok S P eq_refl eq_refl eq_refl eq_refl (λ q H, H) U) Et).
Qed.

(** Behind the others, not in front of them: there, the ids of the other packages change, and the answer may depend on them.  Of
    two packages that provide what is asked for and have the same version, the one is chosen that comes first when the ids are
    gone through; CPython goes through a set of small ints by their lowest bits (here, three). *)
Definition by_bits (X : gset Z) : list Z := sort_by (λ i j, i `mod` 8 <? j `mod` 8) (elements X).
Definition env_bits : env := Env (λ _ X, by_bits X) (λ l, l).
Lemma env_bits_ok : env_ok env_bits.
Proof. split; [intros n X; cbn; unfold by_bits; apply sort_by_perm|intros l; reflexivity]. Qed.
Definition twins : list package := [rem_pkg "left" 1 [] [("right", [])] [("way", [])]; rem_pkg "right" 1 [] [] [("way", [])]].
Definition herd : list package := [ext_pkg "a" 1 [] [] []; ext_pkg "b" 1 [] [] []; ext_pkg "c" 1 [] [] []; ext_pkg "d" 1 [] [] []; ext_pkg "e" 1 [] [] []; ext_pkg "f" 1 [] [] []].
Definition way : request := ask [want "way"].
Theorem C82_front_refuted : let ds := ds0 [twins] [twins] [] true false in let ds' := ds0 [herd; twins] [herd; twins] [] true false in
  env_ok env_bits ∧ setting [twins] ds ∧ setting [herd; twins] ds' ∧ unrelated [twins] [herd] [] (rq_jobs way) ∧
  (∃ t, solve env_bits ds 60 way = Ok (Normal t) ∧ t_ops t = [InstallOp (rem_pkg "left" 1 [] [("right", [])] [("way", [])])]) ∧
  (∃ t, solve env_bits ds' 60 way = Ok (Normal t) ∧ t_ops t = [InstallOp (rem_pkg "right" 1 [] [] [("way", [])])]).
Proof.
  cbv zeta. split; [apply env_bits_ok|]. split; [run|]. split; [run|]. split; [apply unrelated_b_spec; [intros p Hp; by apply elem_of_nil in Hp|vm_compute; reflexivity]|].
  split; run.
Qed.

(** C81: of the pool of C16_example, a request for app and gui leads to the versions of app, lib and gui; the other pool holds only those,
    and one that gets in the way of them; another package is installed. *)
Definition leads_b (pkgs k : list package) (m : modifiers) (jobs : list job) : bool :=
  all pkgs (λ q, bool_decide (q ∈ k) || negb (existsb (λ j, match j_req j with Some r => req_b r q | None => false end) jobs ||
                                             existsb (λ p, existsb (λ d, dep_b m d q) (p_requires p)) k)).
Lemma leads_b_spec pkgs k m jobs : leads_b pkgs k m jobs = true → ∀ p, leads_to pkgs m jobs p → p ∈ k.
Proof.
  intros H. assert (G : ∀ q, q ∈ pkgs → q ∉ k → existsb (λ j, match j_req j with Some r => req_b r q | None => false end) jobs = false ∧
    existsb (λ p, existsb (λ d, dep_b m d q) (p_requires p)) k = false).
  { intros q Hq Hn. pose proof (all_spec _ _ H q Hq) as H1. cbn beta in H1. rewrite bool_decide_eq_false_2 in H1 by done. cbn in H1.
    by apply negb_true_iff, orb_false_iff in H1. }
  induction 1 as [j r p Hj Er Hp Hr|p d q Hp IH Hd Hq Hm].
  - destruct (decide (p ∈ k)) as [|Hn]; [done|exfalso]. destruct (G _ Hp Hn) as [G1 _]. apply not_true_iff_false in G1. apply G1, existsb_exists. exists j. split; [by apply elem_of_list_In|]. rewrite Er. by apply req_b_spec.
  - destruct (decide (q ∈ k)) as [|Hn]; [done|exfalso]. destruct (G _ Hq Hn) as [_ G1]. apply not_true_iff_false in G1. apply G1, existsb_exists. exists p. split; [by apply elem_of_list_In|].
    apply existsb_exists. exists d. split; [by apply elem_of_list_In|]. by apply dep_b_spec.
Qed.
Definition few : list package := take 6 ex_remote ++ [Pkg "lib" (V 1 0) [] [] [] (Some "i")].
Definition few_inst : list package := [ext_pkg "spoiler" 1 [] [("app", [])] []].
Theorem C81_example : let rq := ask [want "app"; want "gui"] in let ds' := ds0 [few; few_inst] [few] few_inst false true in
  setting [ex_remote; ex_installed] (ex_ds true) ∧ setting [few; few_inst] ds' ∧ Forall plain_job (rq_jobs rq) ∧
  (∀ p, leads_to (mjoin [ex_remote; ex_installed]) (rq_mods rq) (rq_jobs rq) p → p ∈ mjoin [few; few_inst]) ∧
  (∃ t, solve env0 (ex_ds true) 60 rq = Ok (Normal t) ∧
       t_ops t = [InstallOp (rem_pkg "app" 1 [("lib", [[[CGeq (V 1 0)]]])] [] []); InstallOp (rem_pkg "gui" 1 [("lib", [])] [] [("toolkit", [])])]) ∧
  (∃ t, solve env0 ds' 60 rq = Ok (Normal t) ∧ t_ops t = RemoveOp (ext_pkg "spoiler" 1 [] [("app", [])] []) :: drop 2 ex_ops).
Proof.
  cbv zeta. split; [run|]. split; [run|]. split; [|split; [apply leads_b_spec; vm_compute; reflexivity|split; run]].
  rewrite Forall_forall. intros j Hj. cbn in Hj. rewrite !elem_of_cons, elem_of_nil in Hj. destruct Hj as [->|[->|[]]]; by left.
Qed.
