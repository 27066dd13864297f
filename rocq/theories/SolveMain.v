(** * Opening a successful [solve]. *)
From Verif Require Import PoolProofs PropPool PropConstraints SpecSat ConstraintProofs PropRules SatLearn RepositoryProofs.
From Verif Require Export FinalProofs.

(** ** Upgrade requests *)
Lemma update_all remote : ∀ r, foldl repo_update r remote = repo_update r (mjoin remote).
Proof.
  induction remote as [|ps remote IH]; intros r; [done|]. cbn [foldl]. rewrite IH, mjoin_cons. unfold repo_update. by rewrite foldl_app.
Qed.

Lemma latest_spec remote n : 
  match last (find_packages (foldl repo_update repo_empty remote) n) with
  | Some q => p_name q = n ∧ newest_remote remote n (p_version q)
  | None => ∀ q, q ∈ mjoin remote → p_name q ≠ n
  end.
Proof.
  rewrite update_all. change (repo_update repo_empty (mjoin remote)) with (repo_of (mjoin remote)). rewrite repo_of_find.
  assert (Hs := sort_by_sorted pkg_ver_lt pkg_ver_lt_asym pkg_ver_lt_cotrans (named n (mjoin remote))).
  destruct (last _) as [q|] eqn:El.
  - apply last_Some in El as (k & Ek). rewrite Ek in Hs.
    assert (Hq : q ∈ named n (mjoin remote)) by (rewrite <-(elem_of_sort_by pkg_ver_lt), Ek; set_solver).
    apply elem_of_list_filter in Hq as [Hn Hq]. split; [done|]. split; [exists q; done|].
    intros q' Hq' Hn' Hv.
    assert (Hin : q' ∈ sort_by pkg_ver_lt (named n (mjoin remote))) by (rewrite elem_of_sort_by; by apply elem_of_list_filter).
    rewrite Ek in Hin. apply elem_of_app in Hin as [Hin| ->%elem_of_list_singleton]; [|unfold vlt in Hv; lia].
    unfold sorted_by in Hs.
    assert (Hf : pkg_ver_lt q q' = false) by exact (elem_of_StronglySorted_app _ _ _ q' q Hs Hin (elem_of_list_here _ _)).
    unfold pkg_ver_lt in Hf. apply ver_ltb_vlt in Hv. congruence.
  - apply last_None in El. intros q Hq Hn. 
    assert (Hin : q ∈ sort_by pkg_ver_lt (named n (mjoin remote))) by (rewrite elem_of_sort_by; by apply elem_of_list_filter).
    rewrite El in Hin. by apply elem_of_nil in Hin.
Qed.

Lemma newest_unique remote n v w : newest_remote remote n v → newest_remote remote n w → v = w.
Proof.
  intros [(q & Hq & Hn & <-) Hv] [(q' & Hq' & Hn' & <-) Hw]. specialize (Hv q' Hq' Hn'). specialize (Hw q Hq Hn).
  destruct (p_version q) as [u1 b1], (p_version q') as [u2 b2]. unfold vlt in *. cbn in *. f_equal; lia.
Qed.

Lemma add_install rq r : (∀ j, j ∈ rq_jobs rq → j_kind j ≠ JUpgrade) →
  add_job rq (Some r) JInstall = Ok (Request (rq_mods rq) (rq_jobs rq ++ [Job (Some r) JInstall])).
Proof.
  intros Hj. unfold add_job. cbn [mk_job].
  assert (E : existsb (λ j, bool_decide (j_kind j = JUpgrade)) (rq_jobs rq) = false).
  { apply not_true_is_false. intros (j & Hin & Hk%bool_decide_eq_true)%existsb_exists. apply (Hj j); [by apply elem_of_list_In|done]. }
  rewrite E. cbn [orb]. rewrite (bool_decide_false (JInstall = JUpgrade)) by done. rewrite andb_false_r. done.
Qed.
Lemma install_all rs : ∀ rq, (∀ j, j ∈ rq_jobs rq → j_kind j ≠ JUpgrade) →
  foldM (λ rq r, add_job rq (Some r) JInstall) rs rq
  = Ok (Request (rq_mods rq) (rq_jobs rq ++ ((λ r, Job (Some r) JInstall) <$> rs))).
Proof.
  induction rs as [|p ps IH]; intros rq Hj; cbn [foldM fmap list_fmap].
  - destruct rq; cbn. by rewrite app_nil_r.
  - rewrite add_install by done. cbn [mbind res_bind]. rewrite IH.
    + cbn. by rewrite <-app_assoc.
    + cbn. intros j [Hin| ->%elem_of_list_singleton]%elem_of_app; [auto|done].
Qed.
Lemma foldM_fmap {A B C} (f : B → A → res B) (g : C → A) xs : ∀ b, foldM f (g <$> xs) b = foldM (λ b x, f b (g x)) xs b.
Proof. induction xs as [|x xs IH]; intros b; [done|]. cbn [foldM fmap list_fmap]. destruct (f b (g x)); [apply IH|done]. Qed.

(** The request that is solved. *)
Lemma convert_spec ds rq jobs : asks ds rq jobs →
  ∃ rq', convert_upgrade rq (ds_remote ds) (ds_installed ds) = Ok rq' ∧ rq_mods rq' = rq_mods rq ∧
    ∀ j, j ∈ rq_jobs rq' ↔ j ∈ jobs.
Proof.
  intros [[Hno ->]|[(j & Ej & Ek) Hjobs]].
  - exists rq. split; [|done]. unfold convert_upgrade. destruct (rq_jobs rq) as [|j [|? ?]] eqn:E; [done| |done].
    rewrite decide_False; [done|]. apply Hno. left.
  - unfold convert_upgrade. rewrite Ej, decide_True by done.
    rewrite <-(foldM_fmap (λ rq r, add_job rq (Some r) JInstall) upgrade_requirement), install_all by (by intros ? ?%elem_of_nil).
    eexists. split; [done|]. cbn [rq_mods rq_jobs app]. split; [done|].
    intros k. rewrite <-list_fmap_compose, Hjobs, elem_of_list_fmap. unfold latest_packages, compose, upgrade_requirement, req_exact, exactly. split.
    + intros (q & -> & (p & Hp & Hl)%elem_of_list_omap). assert (S := latest_spec (ds_remote ds) (p_name p)). rewrite Hl in S.
      destruct S as [Hn Hv]. exists p, (p_version q). split; [done|]. split; [done|]. unfold upgrade_requirement, req_exact, exactly. by rewrite Hn.
    + intros (p & v & Hp & Hv & ->). assert (S := latest_spec (ds_remote ds) (p_name p)).
      destruct (last _) as [q|] eqn:El.
      * destruct S as [Hn Hv']. exists q. unfold upgrade_requirement, req_exact, exactly. rewrite Hn, (newest_unique _ _ _ _ Hv Hv'). split; [done|].
        apply elem_of_list_omap. eauto.
      * destruct Hv as [(q & Hq & Hn & _) _]. by destruct (S q Hq).
Qed.
Lemma asks_exists ds rq : (∀ j, j ∈ rq_jobs rq → j_kind j ≠ JUpgrade) ∨ (∃ j, rq_jobs rq = [j] ∧ j_kind j = JUpgrade) →
  ∃ jobs, asks ds rq jobs.
Proof.
  intros [H|(j & E & Hk)]; [exists (rq_jobs rq); by left|].
  exists ((λ p, Job (Some (upgrade_requirement p)) JInstall) <$> latest_packages (ds_remote ds) (ds_installed ds)).
  right. split; [eauto|]. intros k. rewrite elem_of_list_fmap. unfold latest_packages. split.
  - intros (q & -> & (p & Hp & Hl)%elem_of_list_omap). assert (S := latest_spec (ds_remote ds) (p_name p)). rewrite Hl in S.
      destruct S as [Hn Hv]. exists p, (p_version q). split; [done|]. split; [done|]. unfold upgrade_requirement, req_exact, exactly. by rewrite Hn.
  - intros (p & v & Hp & Hv & ->). assert (S := latest_spec (ds_remote ds) (p_name p)).
      destruct (last _) as [q|] eqn:El.
      + destruct S as [Hn Hv']. exists q. unfold upgrade_requirement, req_exact, exactly. rewrite Hn, (newest_unique _ _ _ _ Hv Hv'). split; [done|].
        apply elem_of_list_omap. eauto.
      + destruct Hv as [(q & Hq & Hn & _) _]. by destruct (S q Hq).
Qed.

(** Only the set of jobs matters. *)
Lemma valid_jobs pkgs inst m jobs jobs' S : (∀ j, j ∈ jobs' → j ∈ jobs) → valid pkgs inst m jobs S → valid pkgs inst m jobs' S.
Proof. intros H [V1 V2 V3 V4 V5]. split; auto. Qed.
Lemma soft_jobs jobs jobs' p : (∀ j, j ∈ jobs' → j ∈ jobs) → soft jobs' p → soft jobs p.
Proof. intros H (j & r & Hj & ?). exists j, r. split; [auto|done]. Qed.

(** The needed packages depend on the set of jobs and what the modifiers accept only. *)
Lemma needed_ext pkgs inst m m' jobs jobs' p : (∀ n c v, relaxed m n c v ↔ relaxed m' n c v) → (∀ j, j ∈ jobs → j ∈ jobs') →
  needed pkgs inst m jobs p → needed pkgs inst m' jobs' p.
Proof.
  intros Hm Hj. induction 1 as [j r p ? ? ? ? ?|j r p ? ? ? ?|i p ? ? ?|p d q Hn IH Hh Hd Hq Hmt].
  - eapply nd_install; eauto.
  - eapply nd_hard; eauto.
  - eapply nd_installed; eauto.
  - eapply nd_depends; [exact IH| |exact Hd|done|by apply (dep_meets_mods m m' Hm)].
    intros d' Hd'. destruct (Hh d' Hd') as (x & Hx & Hmx). exists x. split; [done|]. by apply (dep_meets_mods m m' Hm).
Qed.

(** ** A successful solve *)
Record opened (e : env) (ds : dep_solver) (l : list package) (fuel : nat) (m : modifiers) (jobs : list job) (o : out transaction)
    (po : pool) (jobs' : list job) (ids : list Z) (rules : list rule) (uenv : uc_env) (ust : uc_state)
    (iids : list (Z * package)) (st : gst) : Prop := {
  op_rep : pool_rep po l;
  op_mods : ∀ n c v, relaxed (sem_mods po) n c v ↔ relaxed m n c v;
  op_jobs : ∀ j, j ∈ jobs' ↔ j ∈ jobs;
  op_pb : problem e po l (ds_installed ds) (ds_strict ds) fuel jobs' ids rules uenv ust iids st;
  op_out : match o with
    | Unsat c k s => solve_clauses (logged_policy (uc_policy uenv)) fuel (ust, [], []) (rule_clauses rules) = Ok (Unsat c k s)
    | Normal t => ∃ a dec,
        solve_clauses (logged_policy (uc_policy uenv)) fuel (ust, [], []) (rule_clauses rules) = Ok (Normal a) ∧
        (if ds_pruning ds
         then ∃ X, connected_packages e po fuel (solution_to_ids a) (inst_set po (ds_installed ds) ∪ list_to_set ids) = Ok X ∧
                   dec = e_ord e 2 X
         else dec = solution_to_ids a) ∧
        mk_transaction po dec (ilist e po (ds_installed ds)) = Ok t
    end }.

Lemma solve_pool_mods po rq n c v : relaxed (sem_mods (solve_pool po rq)) n c v ↔ relaxed (rq_mods rq) n c v.
Proof.
  unfold solve_pool, sem_mods, set_mods. cbn. destruct (decide (targets (rq_mods rq) = ∅)) as [Ht|Ht]; cbn; [|done].
  symmetry. by apply relaxed_no_targets.
Qed.

Lemma solve_open e repos ds fuel rq jobs o : env_ok e → setting repos ds → asks ds rq jobs → solve e ds fuel rq = Ok o →
  ∃ po jobs' ids rules uenv ust iids st, opened e ds (mjoin repos) fuel (rq_mods rq) jobs o po jobs' ids rules uenv ust iids st.
Proof.
  intros He [[m0 Hpool] Hinst Hinj] Hask H. destruct (convert_spec _ _ _ Hask) as (rq' & Erq & Em & Ej).
  unfold solve in H. rewrite Erq in H. cbn [mbind res_bind] in H.
  set (po := solve_pool (ds_pool ds) rq') in *.
  assert (Hpo : pool_of repos (po_mods po) = Ok po) by (eapply pool_of_mods; exact Hpool).
  destruct (pool_of_rep _ _ _ Hpo) as [R _].
  apply mbind_ok in H as ([[[ids rules] uenv] ust] & Hcr & H).
  destruct (create_rules_spec e He po _ R Hinj _ Hinst _ _ _ _ _ _ _ Hcr) as (iids & st & PB).
  apply mbind_ok in H as (o' & Hrun & H).
  exists po, (rq_jobs rq'), ids, rules, uenv, ust, iids, st. split; [done| |done|done|].
  { intros n c v. rewrite <-Em. apply solve_pool_mods. }
  destruct o' as [a|c k s]; [|injection H as <-; done].
  apply mbind_ok in H as (iids' & Hii & H). rewrite (pids_ok po _ R) in Hii by done. injection Hii as <-.
  apply mbind_ok in H as (dec & Hdec & H). apply mbind_ok in H as (t & Ht & H). injection H as <-.
  exists a, dec. split; [done|]. split; [|done].
  destruct (ds_pruning ds).
  - apply mbind_ok in Hdec as (X & HX & [= <-]). exists X. done.
  - by injection Hdec as <-.
Qed.
