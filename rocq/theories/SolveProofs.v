(** * The dependency solver: the SAT problem it sets up and the solution it finds. *)
From Verif Require Import PoolProofs PropPool PropConstraints SpecSat ConstraintProofs PropSat PropRules SatLearn PolicyProofs.
From Verif Require Export RulesMain DepSolver SpecSolve.

(** ** Modifiers of the pool *)
Lemma pool_add_mods po p m po' : pool_add po p = Ok po' → pool_add (set_mods po m) p = Ok (set_mods po' m).
Proof.
  unfold pool_add. intros (b & Hb & [= <-])%mbind_ok.
  change (po_byname (set_mods po m)) with (po_byname po). by rewrite Hb.
Qed.
Lemma add_repository_mods ps m : ∀ po po', add_repository po ps = Ok po' →
  add_repository (set_mods po m) ps = Ok (set_mods po' m).
Proof.
  induction ps as [|p ps IH]; intros po po'; unfold add_repository; cbn [foldM]; [by intros [= <-]|].
  intros (po1 & H1 & H2)%mbind_ok. rewrite (pool_add_mods _ _ _ _ H1). cbn. by apply IH.
Qed.
Lemma pool_of_mods repos m0 m po : pool_of repos m0 = Ok po → pool_of repos m = Ok (set_mods po m).
Proof.
  unfold pool_of. assert (G : ∀ rs po po', foldM add_repository rs po = Ok po' →
    foldM add_repository rs (set_mods po m) = Ok (set_mods po' m)).
  { induction rs as [|r rs IH]; intros po1 po2; cbn [foldM]; [by intros [= <-]|].
    intros (po3 & H1 & H2)%mbind_ok. rewrite (add_repository_mods _ _ _ _ H1). cbn. by apply IH. }
  intros H%G. exact H.
Qed.
(** Without targets the modifiers change nothing. *)
Lemma relaxed_no_targets m n c v : targets m = ∅ → relaxed m n c v ↔ relaxed no_mods n c v.
Proof.
  intros Ht. unfold targets in Ht. unfold relaxed. destruct c; try done;
    rewrite !(decide_False (P := n ∈ _)) by (cbn; set_solver); done.
Qed.

Section valid_mods.
  Context (m m' : modifiers) (Hm : ∀ n c v, relaxed m n c v ↔ relaxed m' n c v).
  Lemma dep_meets_mods d q : dep_meets m d q ↔ dep_meets m' d q.
  Proof. unfold dep_meets. by setoid_rewrite Hm. Qed.
  Lemma valid_mods pkgs inst jobs S : valid pkgs inst m jobs S → valid pkgs inst m' jobs S.
  Proof.
    intros [V1 V2 V3 V4 V5]. split; try done. intros p d Hp Hd. destruct (V3 p d Hp Hd) as (q & ? & ? & ?).
    exists q. split; [done|]. split; [done|]. by apply dep_meets_mods.
  Qed.
End valid_mods.
Lemma valid_ext pkgs inst m jobs (S S' : package → Prop) : (∀ p, S p ↔ S' p) →
  valid pkgs inst m jobs S → valid pkgs inst m jobs S'.
Proof.
  intros Heq [V1 V2 V3 V4 V5]. split.
  - intros p Hp%Heq. auto.
  - intros j Hj. specialize (V2 j Hj). unfold job_ok in *. destruct (j_req j) as [r|]; [|done].
    destruct (j_kind j); try done; [..|]; setoid_rewrite <-Heq; done.
  - intros p d Hp%Heq Hd. destruct (V3 p d Hp Hd) as (q & Hq%Heq & ?). eauto.
  - intros p q Hp%Heq Hq%Heq. by apply V4.
  - intros p d q Hp%Heq Hd Hq%Heq. by apply V5.
Qed.

(** ** The request as the policy sees it *)
Lemma soft_snoc js j p : soft (js ++ [j]) p ↔ soft js p ∨ soft [j] p.
Proof.
  split.
  - intros (j' & r & [Hj|Hj]%elem_of_app & ?); [left|right]; by exists j', r.
  - intros [(j' & r & Hj & ?)|(j' & r & Hj & ?)]; exists j', r; (split; [apply elem_of_app|done]); [by left|by right].
Qed.

Lemma max_first_ext {A} (lt lt' : A → A → bool) (xs : list A) : ∀ x,
  (∀ a b, a ∈ x :: xs → b ∈ x :: xs → lt a b = lt' a b) → max_first lt x xs = max_first lt' x xs.
Proof.
  unfold max_first. induction xs as [|y xs IH]; intros x H; [done|]. cbn [foldl].
  rewrite (H x y) by set_solver. apply IH. intros a b Ha Hb. apply H; destruct (lt' x y); set_solver.
Qed.

Section setup.
  Context (po : pool) (l : list package) (R : pool_rep po l) (Hinj : well_formed l).
  Context (inst : list package) (Hinst : ∀ p, p ∈ inst → p ∈ l).
  Local Notation pid := (pid po).

  Lemma pkg_in_spec p k : p ∈ l → (∀ q, q ∈ k → q ∈ l) → pkg_in p k = true ↔ p ∈ k.
  Proof.
    intros Hp Hk. unfold pkg_in. rewrite existsb_exists. split.
    - intros (q & Hq%elem_of_list_In & E). by apply (pkg_eq_eq l Hinj) in E as ->; [..|auto].
    - intros Hin. exists p. split; [by apply elem_of_list_In|]. by apply pkg_eq_true.
  Qed.
  Lemma pkg_in_false p k : p ∈ l → (∀ q, q ∈ k → q ∈ l) → pkg_in p k = false ↔ p ∉ k.
  Proof. intros Hp Hk. rewrite <-(pkg_in_spec p k Hp Hk). by destruct (pkg_in p k). Qed.

  Lemma installed_lt_spec iids p q : (∀ ip, ip ∈ iids ↔ ∃ p, p ∈ inst ∧ ip = (pid p, p)) → p ∈ l → q ∈ l →
    installed_lt inst p q = update_lt po iids p q.
  Proof.
    intros Hii Hp Hq. unfold installed_lt, update_lt.
    assert (E : ∀ p, p ∈ l → is_installed_id po iids p = pkg_in p inst).
    { intros x Hx. unfold is_installed_id. rewrite (pid_ok _ _ R x Hx).
      assert (H1 := iids_ids po l R Hinj inst Hinst iids Hii x Hx). assert (H2 := pkg_in_spec x inst Hx Hinst).
      case_bool_decide as Hb; destruct (pkg_in x inst); [done| | |done].
      - symmetry. apply H2. by apply H1.
      - exfalso. apply Hb, H1, H2. done. }
    by rewrite !E.
  Qed.

  Lemma job_ids_spec j acc acc' : job_ids po inst acc j = Ok acc' →
    (∃ r p, j_req j = Some r ∧ j_kind j ≠ JUpgrade ∧ p ∈ l ∧ req_meets r p) ∧
    (∀ i, i ∈ acc'.1 ↔ i ∈ acc.1 ∨ ∃ p, i = pid p ∧ job_about l inst j p) ∧
    (∀ p, p ∈ acc'.2 ↔ p ∈ acc.2 ∨ (p ∈ inst ∧ soft [j] p)).
  Proof.
    destruct (installed_ids_spec po l R Hinj inst Hinst) as (iids & _ & Hii).
    unfold job_ids, job_about. destruct (j_req j) as [r|] eqn:Er; [|by destruct (j_kind j)].
    assert (Hk : j_kind j ≠ JUpgrade →
      (ps ← what_provides po r false;
       match ps with
       | [] => Raise NoPackageFound
       | p :: rest =>
          let ps := if decide (j_kind j = JHardUpdate) then [max_first (installed_lt inst) p rest] else p :: rest in
          let soft := if decide (j_kind j = JSoftUpdate) then filter (λ q, pkg_in q inst = true) (p :: rest) else [] in
          ids ← mapM_res (package_id po) ps; Ok (acc.1 ++ ids, acc.2 ++ soft)
       end) = Ok acc' →
      (∃ r0 p, Some r = Some r0 ∧ j_kind j ≠ JUpgrade ∧ p ∈ l ∧ req_meets r0 p) ∧
      (∀ i, i ∈ acc'.1 ↔ i ∈ acc.1 ∨ ∃ p, i = pid p ∧ ∃ r0, Some r = Some r0 ∧
         match j_kind j with
         | JInstall | JSoftUpdate | JRemove => p ∈ l ∧ req_meets r0 p
         | JHardUpdate => hard_choice l inst r0 p
         | JUpgrade => False
         end) ∧
      (∀ p, p ∈ acc'.2 ↔ p ∈ acc.2 ∨ (p ∈ inst ∧ soft [j] p))).
    2:{ destruct (j_kind j); try done; apply Hk; done. }
    intros Hnu. rewrite (jcand_ok _ _ R). cbn [mbind res_bind]. destruct (wp po r false) as [|p rest] eqn:Ew; [done|].
    cbv zeta. intros (ids & Hids & [= <-])%mbind_ok.
    assert (Hwl : ∀ q, q ∈ p :: rest ↔ q ∈ l ∧ req_meets r q) by (intros q; rewrite <-Ew; apply (jcand_spec _ _ R)).
    split; [|split].
    - exists r, p. split; [done|]. split; [done|]. apply Hwl. left.
    - assert (Hbest : best po iids r = Some (max_first (installed_lt inst) p rest)).
      { unfold best. rewrite Ew. f_equal. symmetry. apply max_first_ext. intros a b Ha%Hwl Hb%Hwl.
        apply installed_lt_spec; [done|apply Ha|apply Hb]. }
      assert (Hin : ∀ q, q ∈ (if decide (j_kind j = JHardUpdate) then [max_first (installed_lt inst) p rest] else p :: rest) → q ∈ l).
      { case_decide.
        - intros q ->%elem_of_list_singleton. apply best_elem in Hbest. rewrite Ew in Hbest. by apply Hwl in Hbest as [? _].
        - intros q Hq%Hwl. apply Hq. }
      rewrite (pids_ok _ _ R _ Hin) in Hids. injection Hids as <-.
      intros i. cbn [fst]. rewrite elem_of_app, elem_of_list_fmap. f_equiv. f_equiv. intros q. f_equiv.
      transitivity (match j_kind j with
         | JInstall | JSoftUpdate | JRemove => q ∈ l ∧ req_meets r q
         | JHardUpdate => hard_choice l inst r q
         | JUpgrade => False
         end); [|naive_solver].
      destruct (j_kind j) eqn:Ek; try done; try (rewrite decide_False by done; apply Hwl).
      rewrite decide_True by done. rewrite <-(best_spec po l R Hinj inst Hinst iids Hii), Hbest, elem_of_list_singleton. naive_solver.
    - intros q. cbn [snd]. rewrite elem_of_app. f_equiv. unfold soft. destruct (decide (j_kind j = JSoftUpdate)) as [Hs|Hs].
      + rewrite elem_of_list_filter, Hwl. split.
        * intros (Hq & Hql & Hr). split; [by apply (pkg_in_spec q inst)|]. exists j, r. split; [left|]. done.
        * intros (Hq & j' & r' & ->%elem_of_list_singleton & _ & Er' & Hm). rewrite Er in Er'. injection Er' as <-.
          split; [by apply (pkg_in_spec q inst); auto|]. auto.
      + split; [by intros ?%elem_of_nil|]. intros (_ & j' & r' & ->%elem_of_list_singleton & ? & _). done.
  Qed.
  Lemma jobs_ids_spec jobs acc : foldM (job_ids po inst) jobs ([], []) = Ok acc →
    (∀ j, j ∈ jobs → ∃ r p, j_req j = Some r ∧ j_kind j ≠ JUpgrade ∧ p ∈ l ∧ req_meets r p) ∧
    (∀ i, i ∈ acc.1 ↔ ∃ p j, i = pid p ∧ j ∈ jobs ∧ job_about l inst j p) ∧
    (∀ p, p ∈ acc.2 ↔ p ∈ inst ∧ soft jobs p).
  Proof.
    intros H. pattern jobs, acc. eapply (foldM_inv (job_ids po inst)); [| |exact H].
    - split; [by intros j ?%elem_of_nil|]. split.
      + intros i. cbn. rewrite elem_of_nil. split; [done|]. by intros (p & j & _ & ?%elem_of_nil & _).
      + intros p. cbn. rewrite elem_of_nil. split; [done|]. by intros (_ & j & r & ?%elem_of_nil & _).
    - intros js j a a' (H1 & H2 & H3) _ (J1 & J2 & J3)%job_ids_spec. split; [|split].
      + intros j' [Hj'| ->%elem_of_list_singleton]%elem_of_app; auto.
      + intros i. rewrite J2, H2. split.
        * intros [(p & j' & ? & ? & ?)|(p & ? & ?)]; [exists p, j'|exists p, j]; (split; [done|]);
            (split; [apply elem_of_app|done]); [by left|right; left].
        * intros (p & j' & ? & [Hj'| ->%elem_of_list_singleton]%elem_of_app & ?); [left; by exists p, j'|right; by exists p].
      + intros p. rewrite J3, H3, soft_snoc. tauto.
  Qed.
End setup.

(** ** The rules and the policy *)
Section rules.
  Context (po : pool) (l : list package) (R : pool_rep po l) (Hinj : well_formed l).
  Context (inst : list package) (Hinst : ∀ p, p ∈ inst → p ∈ l).
  Context (iids : list (Z * package)) (Hii : ∀ ip, ip ∈ iids ↔ ∃ p, p ∈ inst ∧ ip = (pid po p, p)).
  Context (strict : bool) (fuel : nat) (jobs : list job) (st : gst).
  Context (Hst : iter_rules po iids strict fuel jobs = Ok st).
  Local Notation pid := (pid po).

  Lemma req_clause_lits p ds c x : p ∈ l → req_clause po p ds c → x ∈ c → ∃ q, q ∈ l ∧ (x = pid q ∨ x = - pid q).
  Proof.
    intros Hp. induction ds as [|d ds IH]; cbn [req_clause]; [done|]. intros Hc Hx.
    assert (G : c = broken_clause po p ∨ c = dep_clause po p d ∨ req_clause po p ds c) by (destruct (dcand po d); tauto).
    destruct G as [-> |[-> |G]]; [| |by apply IH].
    - unfold broken_clause in Hx. rewrite elem_of_sort_Z, elem_of_list_singleton in Hx. eauto.
    - unfold dep_clause in Hx. rewrite elem_of_sort_Z in Hx. apply elem_of_cons in Hx as [-> |Hx]; [eauto|].
      apply elem_of_list_fmap in Hx as (q & -> & [_ Hq]%elem_of_list_filter). exists q. split; [|by left].
      by eapply dcand_sub.
  Qed.
  Lemma rules_lits c x : c ∈ rule_lits st → x ∈ c → ∃ q, q ∈ l ∧ (x = pid q ∨ x = - pid q).
  Proof.
    intros Hc Hx. apply in_rules in Hc.
    destruct (rules_inv po l R Hinj inst Hinst iids Hii strict fuel jobs st Hst) as [_ I].
    apply (gi_lits _ _ _ _ _ _ I) in Hc as [(j & Hj & Hc)|(p & [Hp _] & [Hc|Hc])].
    - unfold job_clause in Hc. destruct (j_kind j), (j_req j) as [r|]; try done.
      + subst c. rewrite elem_of_sort_Z in Hx. apply elem_of_list_fmap in Hx as (q & -> & Hq).
        exists q. split; [by eapply wp_sub|by left].
      + destruct Hc as (q & Hq & ->). rewrite elem_of_sort_Z, elem_of_list_singleton in Hx. exists q.
        split; [by eapply wp_sub|by right].
      + subst c. rewrite elem_of_sort_Z in Hx. apply elem_of_list_fmap in Hx as (q & -> & Hq).
        exists q. split; [by eapply wp_sub|by left].
      + destruct Hc as (q & Hq%best_elem & ->). rewrite elem_of_sort_Z, elem_of_list_singleton in Hx. exists q.
        split; [by eapply wp_sub|by left].
    - by eapply req_clause_lits.
    - destruct Hc as (q & _ & -> & Hq). unfold pair_clause in Hx. rewrite elem_of_sort_Z in Hx.
      apply elem_of_cons in Hx as [-> |Hx%elem_of_list_singleton]; [eauto|].
      exists q. split; [|by right]. destruct Hq as [[? _]|(d & _ & Hq)]; [done|]. by eapply ccand_sub.
  Qed.
  Lemma rules_wf : wf_cnf (rule_lits st).
  Proof.
    intros c x Hc Hx. destruct (rules_lits c x Hc Hx) as (q & Hq & ?). pose proof (pid_pos po l R q Hq). lia.
  Qed.
  Lemma rules_var v : is_var (rule_lits st) v → ∃ q, q ∈ l ∧ v = pid q.
  Proof.
    intros (c & x & Hc & Hx & ->). destruct (rules_lits c x Hc Hx) as (q & Hq & Hv).
    pose proof (pid_pos po l R q Hq). exists q. split; [done|]. lia.
  Qed.
  Lemma rules_nonempty : [] ∉ rule_lits st.
  Proof.
    intros Hc. apply in_rules in Hc.
    assert (Hs : ∀ xs, sort_Z xs = [] → xs = []).
    { intros xs E. apply Permutation_nil. rewrite <-E. apply sort_Z_perm. }
    destruct (rules_inv po l R Hinj inst Hinst iids Hii strict fuel jobs st Hst) as [Hf I].
    apply (gi_lits _ _ _ _ _ _ I) in Hc as [(j & Hj & Hc)|(p & [Hp _] & [Hc|Hc])].
    - specialize (Hf j Hj). unfold job_clause in Hc. unfold job_fine in Hf.
      destruct (j_kind j), (j_req j) as [r|]; try done.
      + symmetry in Hc. apply Hs in Hc. by destruct (wp po r false).
      + destruct Hc as (q & _ & E). symmetry in E. by apply Hs in E.
      + symmetry in Hc. apply Hs in Hc. by destruct (wp po r false).
      + destruct Hc as (q & _ & E). symmetry in E. by apply Hs in E.
    - induction (p_requires p) as [|d ds IH]; cbn [req_clause] in Hc; [done|].
      assert (G : [] = broken_clause po p ∨ [] = dep_clause po p d ∨ req_clause po p ds []) by (destruct (dcand po d); tauto).
      destruct G as [E|[E|G]]; [..|auto]; symmetry in E; by apply Hs in E.
    - destruct Hc as (q & _ & E & _). symmetry in E. by apply Hs in E.
  Qed.
  Lemma version_pid p : p ∈ l → pkg_id_to_version po (pid p) = Some (p_version p).
  Proof.
    intros Hp. unfold pkg_id_to_version. pose proof (pid_package po l R Hinj p Hp) as H. unfold id_to_package in H.
    by destruct (zdict_get _ _); [injection H as ->|].
  Qed.
End rules.

(** The preferred ids are in ascending order of versions. *)
Lemma id_insert_sorted po x l : is_Some (pkg_id_to_version po x) → (∀ y, y ∈ l → is_Some (pkg_id_to_version po y)) →
  sorted_by (id_ver_lt po) l → sorted_by (id_ver_lt po) (insert_by (id_ver_lt po) x l).
Proof.
  assert (E : ∀ v w, ver_ltb v w = false ↔ ¬ (upstream v < upstream w ∨ upstream v = upstream w ∧ build v < build w)).
  { intros v w. rewrite <-PolicyProofs.ver_ltb_lt. by destruct (ver_ltb v w). }
  unfold sorted_by. intros [xv Hx] Hl. induction 1 as [|y l Hs IH Hall]; cbn; [repeat constructor|].
  destruct (Hl y) as [yv Hy]; [left|].
  destruct (id_ver_lt po y x) eqn:Eyx.
  - constructor; [apply IH; intros z Hz; apply Hl; by right|]. rewrite insert_by_perm. constructor; [|done].
    unfold id_ver_lt in *. rewrite Hx, Hy in *. apply PolicyProofs.ver_ltb_lt in Eyx. apply E. lia.
  - constructor; [by constructor|]. constructor; [done|].
    rewrite Forall_forall in *. intros z Hz. specialize (Hall z Hz). destruct (Hl z) as [zv Hzv]; [by right|].
    unfold id_ver_lt in *. rewrite Hx, Hy, Hzv in *. rewrite E in *. lia.
Qed.
Lemma id_sorted po l : (∀ y, y ∈ l → is_Some (pkg_id_to_version po y)) → sorted_by (id_ver_lt po) (sort_by (id_ver_lt po) l).
Proof.
  induction l as [|x l IH]; intros Hl; [constructor|]. cbn. apply id_insert_sorted; [apply Hl; left| |].
  - intros y Hy%elem_of_sort_by. apply Hl. by right.
  - apply IH. intros y Hy. apply Hl. by right.
Qed.

(** What create_rules sets up. *)
Record problem (e : env) (po : pool) (l inst : list package) (strict : bool) (fuel : nat) (jobs : list job)
    (ids : list Z) (rules : list rule) (uenv : uc_env) (ust : uc_state) (iids : list (Z * package)) (st : gst) : Prop := {
  pb_iids : ∀ ip, ip ∈ iids ↔ ∃ p, p ∈ inst ∧ ip = (pid po p, p);
  pb_ok : installed_ids po inst = Ok iids;
  pb_st : iter_rules po iids strict fuel jobs = Ok st;
  pb_rules : rules = g_rules st;
  pb_jobs : ∀ j, j ∈ jobs → ∃ r p, j_req j = Some r ∧ j_kind j ≠ JUpgrade ∧ p ∈ l ∧ req_meets r p;
  pb_ids : ∀ i, i ∈ ids ↔ ∃ p j, i = pid po p ∧ j ∈ jobs ∧ job_about l inst j p;
  pb_version : uc_version uenv = pkg_id_to_version po;
  pb_order : uc_order uenv = e_ord e;
  pb_prefer : ∀ i, i ∈ uc_prefer uenv ↔ ∃ p, p ∈ inst ∧ ¬ soft jobs p ∧ i = pid po p;
  pb_ust : ust = uc_add_requirements ids uc_new;
  pb_sorted : sorted_by (id_ver_lt po) (uc_prefer uenv) }.

Lemma job_about_in l inst j p : job_about l inst j p → p ∈ l.
Proof.
  intros (r & _ & H). destruct (j_kind j); try apply H; [|done].
  destruct H as (l1 & l2 & -> & _). apply elem_of_app. right. left.
Qed.

Section problem.
  Context (e : env) (He : env_ok e).
  Context (po : pool) (l : list package) (R : pool_rep po l) (Hinj : well_formed l).
  Context (inst : list package) (Hinst : ∀ p, p ∈ inst → p ∈ l).
  Context (strict : bool) (fuel : nat).
  Local Notation pid := (pid po).

  Lemma create_rules_spec rq ids rules uenv ust :
    create_rules e po inst strict fuel rq = Ok (ids, rules, uenv, ust) →
    ∃ iids st, problem e po l inst strict fuel (rq_jobs rq) ids rules uenv ust iids st.
  Proof.
    intros ([ids' sf] & Hj & H)%mbind_ok. cbn beta iota in H. apply mbind_ok in H as (iids & Hi & H).
    apply mbind_ok in H as (prefer & Hp & H). apply mbind_ok in H as (st & Hst & H). injection H as -> <- <- <-.
    destruct (jobs_ids_spec po l R Hinj inst Hinst _ _ Hj) as (J1 & J2 & J3). cbn in J2, J3.
    exists iids, st. destruct (installed_ids_spec po l R Hinj inst Hinst) as (iids' & E & Hii). rewrite E in Hi. injection Hi as ->.
    split; try done; [intros i|]; cbn [uc_prefer].
    2:{ unfold preferred_ids in Hp. apply mbind_ok in Hp as (pids & Hpi & [= <-]). apply id_sorted. intros y Hy.
        rewrite (proj2 He), elem_of_fromkeys in Hy.
        rewrite (pids_ok po l R) in Hpi; [|intros q [_ Hq]%elem_of_list_filter; auto]. injection Hpi as <-.
        apply elem_of_list_fmap in Hy as (p & -> & [_ Hpi]%elem_of_list_filter). rewrite (version_pid po l R Hinj p) by auto. eauto. }
    unfold preferred_ids in Hp. apply mbind_ok in Hp as (pids & Hpi & [= <-]).
    assert (Hsl : ∀ q, q ∈ sf → q ∈ l) by (intros q [? _]%J3; auto).
    rewrite (pids_ok po l R) in Hpi; [|intros q [_ Hq]%elem_of_list_filter; auto]. injection Hpi as <-.
    rewrite elem_of_sort_by, (proj2 He), elem_of_fromkeys, elem_of_list_fmap. split.
    - intros (p & -> & [Hs Hpi]%elem_of_list_filter). exists p. split; [done|]. split; [|done].
      rewrite (pkg_in_false l Hinj p sf) in Hs by auto. intros Hsoft. apply Hs, J3. done.
    - intros (p & Hpi & Hs & ->). exists p. split; [done|]. apply elem_of_list_filter. split; [|done].
      apply (pkg_in_false l Hinj p sf); [auto..|]. intros [_ ?]%J3. done.
  Qed.

  Context (jobs : list job) (ids : list Z) (rules : list rule) (uenv : uc_env) (ust : uc_state) (iids : list (Z * package)) (st : gst).
  Context (PB : problem e po l inst strict fuel jobs ids rules uenv ust iids st).

  Definition extra : gset Z := list_to_set (uc_prefer uenv) ∪ list_to_set ids.
  Lemma elem_of_extra i : i ∈ extra → ∃ p, p ∈ l ∧ i = pid p.
  Proof.
    unfold extra. rewrite elem_of_union, !elem_of_list_to_set, (pb_prefer _ _ _ _ _ _ _ _ _ _ _ _ _ PB), (pb_ids _ _ _ _ _ _ _ _ _ _ _ _ _ PB).
    intros [(p & ? & _ & ->)|(p & j & -> & _ & Hp%job_about_in)]; eauto.
  Qed.
  Lemma env_good : uc_env_ok uenv (rule_lits st) extra (list_to_set ids).
  Proof.
    destruct PB as [P1 P2 P3 P4 P5 P6 P7 P8 P9 P10 P11].
    assert (Hv : ∀ v, is_var (rule_lits st) v ∨ v ∈ extra → ∃ p, p ∈ l ∧ v = pid p).
    { intros v [Hv|Hv]; [by eapply rules_var|by apply elem_of_extra]. }
    split.
    - intros v (p & Hp & ->)%Hv. rewrite P7, (version_pid po l R Hinj) by done. done.
    - intros n X. rewrite P8. apply He.
    - intros v. unfold extra. by rewrite elem_of_union, !elem_of_list_to_set.
    - intros v Hx. destruct (Hv v) as (p & Hp & ->); [by right|]. pose proof (pid_pos po l R p Hp). lia.
  Qed.
  Lemma ust_good : uc_inv (rule_lits st) extra (list_to_set ids) ust.
  Proof. rewrite (pb_ust _ _ _ _ _ _ _ _ _ _ _ _ _ PB). split; [cbn; set_solver|]. intros v Hv. cbn in Hv. set_solver. Qed.
  Lemma clauses_fst : (rule_clauses rules).*1 = rule_lits st.
  Proof. rewrite (pb_rules _ _ _ _ _ _ _ _ _ _ _ _ _ PB). unfold rule_clauses, rule_lits. rewrite <-list_fmap_compose. done. Qed.

  Definition uprio (a : aset) (v : Z) : Prop := 0 < v ∧ uc_follows uenv (list_to_set ids) a v.
  Lemma pol_good : wf_cnf (rule_clauses rules).*1 ∧ good_policy (rule_clauses rules).*1 extra uprio
    (logged_policy (uc_policy uenv)) (λ p, uc_inv (rule_lits st) extra (list_to_set ids) p.1.1).
  Proof.
    rewrite clauses_fst. destruct PB as [P1 P2 P3 P4 P5 P6 P7 P8 P9 P10 P11].
    assert (W : wf_cnf (rule_lits st)) by (by eapply rules_wf). split; [done|].
    apply C12_logged_policy; [done|]. apply env_good.
  Qed.
  Local Notation run n := (solve_clauses (logged_policy (uc_policy uenv)) n (ust, [], []) (rule_clauses rules)).

  (** SatisfiabilityError: there is no valid installation. *)
  Lemma run_unsat n c k s : run n = Ok (Unsat c k s) → ¬ satisfiable (rule_lits st).
  Proof.
    destruct pol_good as [W G]. intros E. rewrite <-clauses_fst.
    eapply (C02_unsat_is_sound _ _ _ _ _ n (ust, [], []) _ _ _ W G); [|exact E]. exact ust_good.
  Qed.
  Lemma run_unsat_valid n c k s : run n = Ok (Unsat c k s) → ¬ ∃ S, valid l inst (sem_mods po) jobs S.
  Proof.
    intros E%run_unsat (S & V). destruct PB as [P1 P2 P3 P4 P5 P6 P7 P8 P9 P10 P11].
    by apply (valid_not_unsat po l R Hinj inst Hinst iids P1 strict fuel jobs st P3 S V).
  Qed.
  (** The SAT solver answers. *)
  Lemma run_decides : ∃ N, ∀ n, (N ≤ n)%nat →
    (satisfiable (rule_lits st) ∧ ∃ a, run n = Ok (Normal a)) ∨
    (¬ satisfiable (rule_lits st) ∧ ∃ c k s, run n = Ok (Unsat c k s)).
  Proof.
    destruct pol_good as [W G]. rewrite <-clauses_fst. eapply C03_decides; [done|exact G|exact ust_good|].
    rewrite clauses_fst. destruct PB as [P1 P2 P3 P4 P5 P6 P7 P8 P9 P10 P11]. by eapply rules_nonempty.
  Qed.

  (** ** The solution *)
  Section solution.
    Context (n : nat) (a : aset) (Hrun : run n = Ok (Normal a)).
    Definition val (p : package) : option bool := aset_value a (pid p).
    Definition asg : valuation := λ v, bool_decide (aset_value a v = Some true).

    Lemma sol_model : model asg (rule_lits st).
    Proof.
      destruct pol_good as [W G].
      destruct (C01_solution_is_model _ _ _ _ _ n (ust, [], []) a W G ust_good Hrun) as [_ H].
      rewrite clauses_fst in H. apply H.
      - destruct PB as [P1 P2 P3 P4 P5 P6 P7 P8 P9 P10 P11]. by eapply rules_nonempty.
      - unfold asg. intros v [] ->; done.
    Qed.
    Lemma sol_chosen p : p ∈ l → chosen po l asg p ↔ val p = Some true.
    Proof. intros Hp. unfold chosen, asg, val. rewrite bool_decide_eq_true. tauto. Qed.
    Lemma sol_var v : is_var (rule_lits st) v → is_Some (aset_value a v).
    Proof.
      destruct pol_good as [W G].
      destruct (C04_total_consistent _ _ _ _ _ n (ust, [], []) a W G ust_good Hrun) as [H _].
      rewrite clauses_fst in H. intros [b Hb]%H. eauto.
    Qed.
    Lemma sol_wf : AWf a ∧ a_assigned a = a_seen a ∧ ∀ v, v ∈ a_seen a → ∃ p, p ∈ l ∧ v = pid p.
    Proof.
      destruct pol_good as [W G].
      destruct (solve_result _ _ _ _ _ W G n (ust, [], []) _ ust_good Hrun) as (s & Hf & ->).
      destruct (co_asg _ _ _ _ _ _ _ _ _ _ (iv_core _ _ _ _ _ _ (fi_ready _ _ _ _ Hf))) as [O1 O2 O3].
      split; [by eapply awf_fields|]. split; [apply (fi_total _ _ _ _ Hf)|]. intros v Hv.
      destruct (O3 v Hv) as [Hx|Hx]; [|by apply elem_of_extra].
      destruct PB as [P1 P2 P3 P4 P5 P6 P7 P8 P9 P10 P11]. rewrite clauses_fst in Hx. by eapply rules_var.
    Qed.
    (** The priorities. *)
    Lemma sol_prefers_order p g : p ∈ inst → ¬ soft jobs p → model g (rule_lits st) →
      (∀ q, q ∈ inst → ¬ soft jobs q → ¬ vlt (p_version p) (p_version q) → val q = Some true → g (pid q) = true) →
      val p = Some false → g (pid p) = false.
    Proof.
      intros Hp Hs Hg HB Hv. destruct pol_good as [W G]. rewrite <-clauses_fst in Hg.
      assert (Hpl : p ∈ l) by auto. pose proof (pid_pos po l R p Hpl).
      eapply (C06_priorities _ _ _ _ (λ v, ∃ q, q ∈ inst ∧ ¬ soft jobs q ∧ ¬ vlt (p_version p) (p_version q) ∧ v = pid q)
                (pid p) _ n (ust, [], []) a g W G ust_good Hrun); [|lia|done| |done].
      - intros a' v [Hv0 ([_ Hf] & _ & _)] Hu. split; [done|].
        assert (Hpr : pid p ∈ uc_prefer uenv) by (apply (pb_prefer _ _ _ _ _ _ _ _ _ _ _ _ _ PB); eauto).
        apply elem_of_list_split in Hpr as (l1 & l2 & EL). rewrite EL in Hf.
        destruct (filter_first (λ u, u ∉ a_assigned a') l1 l2 (pid p) Hu) as (w & r & Ef & Hw & _). rewrite Ef in Hf. subst w.
        apply elem_of_app in Hw as [Hw|Hw%elem_of_list_singleton]; [|by right]. left.
        assert (Hw' : v ∈ uc_prefer uenv) by (rewrite EL; apply elem_of_app; by left).
        apply (pb_prefer _ _ _ _ _ _ _ _ _ _ _ _ _ PB) in Hw' as (q & Hq & Hqs & ->). exists q. split_and!; try done.
        pose proof (pb_sorted _ _ _ _ _ _ _ _ _ _ _ _ _ PB) as Hso. unfold sorted_by in Hso. rewrite EL in Hso.
        assert (Hlt : id_ver_lt po (pid p) (pid q) = false).
        { apply elem_of_list_split in Hw as (k1 & k2 & ->). rewrite <-app_assoc in Hso. clear - Hso.
          induction k1 as [|x k1 IH]; cbn in Hso; apply StronglySorted_inv in Hso as [Hso Hall]; [|by apply IH].
          rewrite Forall_forall in Hall. apply Hall. apply elem_of_app. right. left. }
        unfold id_ver_lt in Hlt. rewrite !(version_pid po l R Hinj) in Hlt by auto. unfold vlt.
        rewrite <-PolicyProofs.ver_ltb_lt. by rewrite Hlt.
      - intros x (q & Hq & Hqs & Hle & ->) Hx. by apply HB.
    Qed.
    Lemma sol_prefers p g : p ∈ inst → ¬ soft jobs p → model g (rule_lits st) →
      (∀ q, q ∈ inst → ¬ soft jobs q → val q = Some true → g (pid q) = true) →
      val p = Some false → g (pid p) = false.
    Proof. intros Hp Hs Hg HB. apply sol_prefers_order; auto. Qed.
    Lemma sol_newest p g : (∃ j, j ∈ jobs ∧ job_about l inst j p) → model g (rule_lits st) →
      (∀ q, q ∈ inst → ¬ soft jobs q → val q = Some true → g (pid q) = true) →
      (∀ j q, j ∈ jobs → job_about l inst j q → ¬ vlt (p_version q) (p_version p) → val q = Some true → g (pid q) = true) →
      val p = Some false → g (pid p) = false.
    Proof.
      intros (j & Hj & Hp) Hg HB HC Hv. destruct pol_good as [W G]. rewrite <-clauses_fst in Hg.
      assert (Hpl : p ∈ l) by (by eapply job_about_in). pose proof (pid_pos po l R p Hpl).
      eapply (C06_priorities _ _ _ _ (λ v, v ∈ uc_prefer uenv ∨ ∃ q j, j ∈ jobs ∧ job_about l inst j q ∧
                 ¬ vlt (p_version q) (p_version p) ∧ v = pid q) (pid p) _ n (ust, [], []) a g W G ust_good Hrun); [|lia|done| |done].
      - intros a' v [Hv0 (_ & _ & Hpr)] Hu. split; [done|]. left.
        destruct (proj2 (Hpr (pid p) Hu)) as [Hx|[Hx Hle]]; [|by left|].
        + rewrite elem_of_list_to_set. apply (pb_ids _ _ _ _ _ _ _ _ _ _ _ _ _ PB). eauto.
        + right. rewrite elem_of_list_to_set in Hx. apply (pb_ids _ _ _ _ _ _ _ _ _ _ _ _ _ PB) in Hx as (q & j' & -> & Hj' & Hq).
          exists q, j'. split; [done|]. split; [done|]. split; [|done].
          assert (Hql : q ∈ l) by (by eapply job_about_in).
          rewrite (pb_version _ _ _ _ _ _ _ _ _ _ _ _ _ PB) in Hle.
          specialize (Hle _ _ (version_pid po l R Hinj p Hpl) (version_pid po l R Hinj q Hql)).
          apply ver_leb_le in Hle. unfold vlt. lia.
      - intros x [(q & Hq & Hqs & ->)%(pb_prefer _ _ _ _ _ _ _ _ _ _ _ _ _ PB)|(q & j' & ? & ? & ? & ->)] Hx; [by apply HB|by eapply HC].
    Qed.
    (** The literals of the solution. *)
    Lemma sol_ids i : i ∈ solution_to_ids a ↔
      ∃ p, p ∈ l ∧ ((i = pid p ∧ val p = Some true) ∨ (i = - pid p ∧ val p = Some false)).
    Proof.
      destruct sol_wf as (Wa & Ht & Hs). unfold solution_to_ids. rewrite elem_of_sort_by, elem_of_list_fmap.
      assert (Hin : ∀ k b, (k, b) ∈ aset_items a ↔ k ∈ a_seen a ∧ b = a_data a !! k).
      { intros k b. unfold aset_items. rewrite elem_of_list_fmap. setoid_rewrite merge_sort_Permutation.
        setoid_rewrite elem_of_elements. naive_solver. }
      split.
      - intros ([k b] & -> & [Hk ->]%Hin). destruct (Hs k Hk) as (p & Hp & ->). exists p. split; [done|].
        assert (pid p ∈ a_assigned a) as [_ [b Hb]]%(awf_assigned _ Wa) by (by rewrite Ht).
        cbn. unfold val, aset_value. rewrite Hb. destruct b; auto.
      - intros (p & Hp & H). pose proof (pid_pos po l R p Hp).
        assert (Hk : is_Some (val p)) by (destruct H as [[_ ->]|[_ ->]]; eauto).
        assert (pid p ∈ a_seen a) by (rewrite <-Ht; apply (awf_assigned _ Wa); split; [lia|done]).
        exists (pid p, val p). split; [|by apply Hin]. cbn. destruct H as [[-> ->]|[-> ->]]; done.
    Qed.
  End solution.
End problem.
