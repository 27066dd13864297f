(** * Properties C30, C17, C18: solve answers, and where it does not. *)
From Verif Require Import PoolProofs PropPool PropConstraints SpecSat ConstraintProofs PropRules SatLearn RepositoryProofs.
From Verif Require Export SolveTotal.

(** ** C30: solve answers *)
(** Without the hypothesis that dependencies are acyclic there is one more outcome: ValueError, and
    only if there is a cycle among the packages of the pool. *)
Theorem C30_otherwise : ∀ e repos ds rq jobs, env_ok e → setting repos ds → asks ds rq jobs →
  ds_pruning ds = true → ds_strict ds = false →
  single_names (mjoin repos) → one_version (λ p, p ∈ ds_installed ds) → removes_known (mjoin repos) (ds_installed ds) jobs →
  (∀ p, p ∈ mjoin repos → interpretable (rq_mods rq) p) → (∀ j, j ∈ jobs → has_candidate (mjoin repos) j) →
  ∃ n, ∀ fuel, (n ≤ fuel)%nat →
    (∃ t, solve e ds fuel rq = Ok (Normal t)) ∨ (∃ c k s, solve e ds fuel rq = Ok (Unsat c k s)) ∨
    (solve e ds fuel rq = Raise ValueError ∧ ¬ acyclic (mjoin repos) (rq_mods rq)).
Proof.
  intros e repos ds rq jobs He Hset Hask Hpr Hst H1 Hone H2 Hint Hcand.
  destruct Hset as [[m0 Hpool] Hinst Hinj] eqn:Eset. clear Eset.
  destruct (convert_spec _ _ _ Hask) as (rq' & Erq & Em & Ej).
  set (po := solve_pool (ds_pool ds) rq').
  assert (Hpo : pool_of repos (po_mods po) = Ok po) by (eapply pool_of_mods; exact Hpool).
  destruct (pool_of_rep _ _ _ Hpo) as [R _].
  assert (Hm : ∀ n c v, relaxed (sem_mods po) n c v ↔ relaxed (rq_mods rq) n c v) by (intros; rewrite <-Em; apply solve_pool_mods).
  assert (Htg : targets (default no_mods (po_mods po)) = targets (rq_mods rq)).
  { rewrite <-Em. unfold po, solve_pool, set_mods. cbn. destruct (decide (targets (rq_mods rq') = ∅)) as [Ht|]; [|done]. rewrite Ht. cbn. unfold targets. cbn. set_solver. }
  destruct (installed_ids_spec po _ R Hinj _ Hinst) as (iids & Hii & _).
  destruct (C20_succeeds repos _ po (ds_installed ds) iids Hpo Hinj Hinst Hii) as [n0 Hn0].
  { intros p Hp. destruct (Hint p Hp) as [I1 I2]. split; [done|]. by rewrite Htg. }
  assert (Hc' : ∀ j, j ∈ rq_jobs rq' → has_candidate (mjoin repos) j) by (intros j Hj; apply Hcand; by apply Ej).
  destruct (Hn0 n0 (rq_jobs rq') (le_n _) Hc') as [st Hst0].
  destruct (jobs_ids_total po _ R (ds_installed ds) _ Hc') as ([ids sf] & Hids).
  assert (Hsf : ∀ q, q ∈ sf → q ∈ mjoin repos).
  { intros q Hq. apply (proj2 (proj2 (jobs_ids_spec po _ R Hinj _ Hinst _ _ Hids))) in Hq as [? _]. auto. }
  assert (∃ pref, preferred_ids e po (ds_installed ds) sf = Ok pref) as [pref Hpref].
  { unfold preferred_ids. rewrite (pids_ok po _ R); [cbn [mbind res_bind]; eauto|]. intros q [_ ?]%elem_of_list_filter. auto. }
  assert (Hcr : ∀ fuel, (n0 ≤ fuel)%nat → create_rules e po (ds_installed ds) (ds_strict ds) fuel rq'
     = Ok (ids, g_rules st, UcEnv (pkg_id_to_version po) (e_ord e) pref, uc_add_requirements ids uc_new)).
  { intros fuel Hf. unfold create_rules. rewrite Hids. cbn [mbind res_bind]. rewrite Hii. cbn [mbind res_bind]. rewrite Hpref. cbn [mbind res_bind].
    rewrite Hst, (iter_rules_grows po iids false n0 fuel Hf _ st Hst0). done. }
  destruct (create_rules_spec e He po _ R Hinj _ Hinst _ _ _ _ _ _ _ (Hcr n0 (le_n _))) as (iids1 & st1 & PB1).
  destruct (run_decides e He po _ R Hinj _ Hinst _ _ _ _ _ _ _ _ _ PB1) as [N HN].
  exists (n0 + N + S (length (mjoin repos)))%nat. intros fuel Hfuel.
  destruct (create_rules_spec e He po _ R Hinj _ Hinst _ _ _ _ _ _ _ (Hcr fuel ltac:(lia))) as (iids2 & st2 & PB2).
  unfold solve. rewrite Erq. cbn [mbind res_bind]. change (solve_pool (ds_pool ds) rq') with po. rewrite Hcr by lia. cbn [mbind res_bind].
  destruct (HN fuel ltac:(lia)) as [(_ & a & Ha)|(_ & c & k & s & Ha)]; rewrite Ha; cbn [mbind res_bind]; [|right; left; eauto].
  rewrite (pids_ok po _ R) by done. cbn [mbind res_bind].
  destruct (transaction_or e He po _ R Hinj _ Hinst _ _ _ _ _ _ _ _ _ PB2 _ _ (run_solved e He po _ R Hinj _ Hinst _ _ _ _ _ _ _ _ _ PB2 _ _ Ha) H1) as (X & HX & Ht).
  - intros j r Hj. apply (H2 j r). by apply Ej.
  - done.
  - intros p d Hp Hd. exact (proj1 (Hint p Hp) d Hd).
  - lia.
  - rewrite Hpr. unfold inst_set in HX. rewrite HX. cbn [mbind res_bind]. unfold ilist, inst_set in Ht. destruct Ht as [[t Ht]|[Ht Hac]]; rewrite Ht; cbn [mbind res_bind]; [left; eauto|].
    right; right. split; [done|]. contradict Hac. intros p Hp. apply (Hac p). eapply tc_mono; [|exact Hp]. intros x y (Hx & Hy & Hne & d & Hd & Hmt).
    split; [done|]. split; [done|]. split; [done|]. exists d. split; [done|]. by apply (dep_meets_mods _ _ Hm).
Qed.

(** With acyclic dependencies in the pool, and metadata and jobs that can be interpreted, solve (with
    pruning, not strict) returns a transaction or raises SatisfiabilityError: no ValueError, KeyError,
    AssertionError, and the recursion ends. *)
Theorem C30_total : ∀ e repos ds rq jobs, env_ok e → setting repos ds → asks ds rq jobs →
  ds_pruning ds = true → ds_strict ds = false →
  single_names (mjoin repos) → one_version (λ p, p ∈ ds_installed ds) → removes_known (mjoin repos) (ds_installed ds) jobs →
  (∀ p, p ∈ mjoin repos → interpretable (rq_mods rq) p) → (∀ j, j ∈ jobs → has_candidate (mjoin repos) j) →
  acyclic (mjoin repos) (rq_mods rq) →
  ∃ n, ∀ fuel, (n ≤ fuel)%nat →
    (∃ t, solve e ds fuel rq = Ok (Normal t)) ∨ (∃ c k s, solve e ds fuel rq = Ok (Unsat c k s)).
Proof.
  intros e repos ds rq jobs He Hset Hask Hpr Hst H1 Hone H2 Hint Hcand Hac.
  destruct (C30_otherwise e repos ds rq jobs He Hset Hask Hpr Hst H1 Hone H2 Hint Hcand) as [n Hn].
  exists n. intros fuel Hf. destruct (Hn fuel Hf) as [?|[?|[_ ?]]]; [by left|by right|done].
Qed.

(** So under these conditions solve decides whether there is a valid installation. *)
Theorem C30_decides : ∀ e repos ds rq jobs, env_ok e → setting repos ds → asks ds rq jobs →
  ds_pruning ds = true → ds_strict ds = false →
  single_names (mjoin repos) → one_version (λ p, p ∈ ds_installed ds) → removes_known (mjoin repos) (ds_installed ds) jobs →
  (∀ p, p ∈ mjoin repos → interpretable (rq_mods rq) p) → (∀ j, j ∈ jobs → has_candidate (mjoin repos) j) →
  acyclic (mjoin repos) (rq_mods rq) →
  ∃ n, ∀ fuel, (n ≤ fuel)%nat →
    ((∃ S, valid (mjoin repos) (ds_installed ds) (rq_mods rq) jobs S) ↔ ∃ t, solve e ds fuel rq = Ok (Normal t)) ∧
    ((¬ ∃ S, valid (mjoin repos) (ds_installed ds) (rq_mods rq) jobs S) ↔ ∃ c k s, solve e ds fuel rq = Ok (Unsat c k s)).
Proof.
  intros e repos ds rq jobs He Hset Hask Hpr Hst H1 Hone H2 Hint Hcand Hac.
  destruct (C30_total e repos ds rq jobs He Hset Hask Hpr Hst H1 Hone H2 Hint Hcand Hac) as [n Hn].
  exists n. intros fuel Hf. destruct (Hn fuel Hf) as [(t & Ht)|(c & k & s & Ht)].
  - assert (V := C15_sat _ _ _ _ _ _ _ He Hset Hask Ht). split; split; [eauto|done|done|].
    intros (c & k & s & E'). congruence.
  - assert (V := C15_unsat _ _ _ _ _ _ _ _ _ He Hset Hask Ht). split; split; [done| |eauto|done].
    intros (t & E'). congruence.
Qed.
