(** * Property C95: solve always ends, whatever the pool and the request. *)
From Verif Require Import PoolProofs PropPool PropConstraints ScenarioProofs SpecSat ConstraintProofs PropRules SatLearn RepositoryProofs SatMain PropSat FinalProofs PropLimits PropFlags.
From Verif Require Export SolveTotal.

(** Not stopped by the bound on loops *)
Definition may_raise (strict : bool) (x : exn) : Prop :=
  match x with
  | KeyError | AssertionError | ValueError | NotImplementedError
  | InvalidConstraint | InvalidDependencyString | NoPackageFound | TypeError => True
  | MissingInstallRequires | MissingConflicts => strict = true
  | _ => False
  end.
Definition raises (P : exn → Prop) {A} (r : res A) : Prop := match r with Ok _ => True | Raise x => P x end.
Notation ends := (raises (may_raise false)).
Lemma ends_bind P {A B} (r : res A) (f : A → res B) : raises P r → (∀ a, r = Ok a → raises P (f a)) → raises P (r ≫= f).
Proof. destruct r as [a|x]; cbn; [|done]. intros _ H. by apply H. Qed.
Lemma ends_foldM P {A B} (f : B → A → res B) xs b : (∀ x b, x ∈ xs → raises P (f b x)) → raises P (foldM f xs b).
Proof.
  revert b. induction xs as [|x xs IH]; intros b H; cbn [foldM]; [done|].
  apply ends_bind; [apply H; left|]. intros b' _. apply IH. intros y c Hy. apply H. by right.
Qed.
Lemma ends_mapM P {A B} (f : A → res B) xs : (∀ x, x ∈ xs → raises P (f x)) → raises P (mapM_res f xs).
Proof.
  induction xs as [|x xs IH]; intros H; cbn [mapM_res]; [done|].
  apply ends_bind; [apply H; left|]. intros b' _. apply ends_bind; [apply IH; intros y Hy; apply H; by right|done].
Qed.
Lemma ends_option (P : exn → Prop) {A} x (o : option A) : P x → raises P (of_option x o).
Proof. by destruct o. Qed.
Ltac ends1 := first [done | apply ends_bind; [|intros ? _] | apply ends_foldM; intros | apply ends_mapM; intros | apply ends_option; done].
Ltac ends_tac := repeat (intros; first [ends1 | match goal with |- context [match ?x with _ => _ end] => destruct x end]).

Lemma ends_what_provides po r b : ends (what_provides po r b).
Proof. unfold what_provides, pool_modify, modify_requirement. ends_tac. Qed.
Lemma ends_package_id po p : ends (package_id po p).
Proof. by apply ends_option. Qed.
Lemma ends_id_to_package po i : ends (id_to_package po i).
Proof. by apply ends_option. Qed.
Lemma ends_from_constraints c d : ends (from_constraints c d).
Proof. unfold from_constraints. ends_tac. Qed.
Lemma ends_name_requirement c n : ends (name_requirement c n).
Proof. unfold name_requirement, req_from_string, named_from_string, parse_requirements, requirement_block, operator_factory, tokenize. ends_tac. Qed.
Lemma ends_convert rq remote inst : ends (convert_upgrade rq remote inst).
Proof. unfold convert_upgrade, add_job, mk_job. ends_tac. Qed.
Lemma ends_job_ids po inst acc j : ends (job_ids po inst acc j).
Proof.
  unfold job_ids. destruct (j_kind j), (j_req j); try done;
    (apply ends_bind; [apply ends_what_provides|intros [|q qs] _; [done|]]); (apply ends_bind; [apply ends_mapM; intros; apply ends_package_id|done]).
Qed.
Lemma ends_lit_graph po lits closed : ends (lit_graph po lits closed).
Proof.
  unfold lit_graph. apply ends_bind; [apply ends_mapM; intros; apply ends_bind; [apply ends_id_to_package|done]|intros ps _].
  apply ends_foldM. intros lp g _. apply ends_bind; [|done]. unfold lit_edges. apply ends_foldM. intros c acc _.
  apply ends_bind; [apply ends_from_constraints|intros r _]. apply ends_bind; [apply ends_what_provides|intros ds _].
  apply ends_bind; [apply ends_mapM; intros; apply ends_package_id|intros]. ends_tac.
Qed.
Lemma ends_install_loop po loc installs : ∀ removals ops, ends (install_loop po loc installs removals ops).
Proof.
  induction installs as [|i installs IH]; intros removals ops; cbn [install_loop]; [done|].
  apply ends_bind; [unfold package_key; apply ends_bind; [apply ends_id_to_package|done]|intros k _]. case_decide; [|apply IH].
  apply ends_bind; [apply ends_id_to_package|intros p _; apply IH].
Qed.
Lemma ends_safe_operations po ds inst : ends (safe_operations po ds inst).
Proof.
  unfold safe_operations, local_packages. apply ends_bind; [apply ends_mapM; intros; apply ends_bind; [unfold package_key; apply ends_bind; [apply ends_id_to_package|done]|done]|intros loc _].
  apply ends_bind; [apply ends_lit_graph|intros g _]. apply ends_bind; [unfold toposort; destruct (toposort_raw g); case_decide; done|intros gs _].
  apply ends_bind; [case_decide; done|intros _ _]. destruct (split_lits inst (ordered_lits gs)) as [rs is].
  apply ends_bind; [apply ends_install_loop|intros [rs' iops] _]. apply ends_bind; [apply ends_mapM; intros; apply ends_bind; [apply ends_id_to_package|done]|done].
Qed.
Lemma ends_merge ops : ends (merge_operations ops).
Proof.
  unfold merge_operations. destruct ops as [|o [|o' ops]]; [|done|]; (apply ends_bind; [apply ends_mapM; intros []; done|intros _ _]); repeat case_match; done.
Qed.
Lemma ends_pretty po ops : ends (pretty_operations po ops).
Proof.
  unfold pretty_operations. apply ends_bind; [|intros; apply ends_mapM; intros; apply ends_merge]. apply ends_foldM. intros p d _.
  destruct (od_get d p); [|done]. apply ends_bind.
  { unfold find_other_providers. apply ends_bind; [apply ends_name_requirement|intros r _]. apply ends_bind; [apply ends_what_provides|done]. }
  intros others _. apply ends_foldM. intros q d' _. apply ends_bind; [by apply ends_option|done].
Qed.
Lemma ends_transaction po ds inst : ends (mk_transaction po ds inst).
Proof. unfold mk_transaction. apply ends_bind; [apply ends_safe_operations|intros ops _]. apply ends_bind; [apply ends_pretty|done]. Qed.

(** ** Pruning *)
Lemma ends_connected_loop (ord : nat → gset Z → list Z) (Hord : ∀ n X, ord n X ≡ₚ elements X) (nb : Z → res (gset Z)) (F : gset Z) :
  (∀ x, ends (nb x)) → (∀ x ns, nb x = Ok ns → ns ⊆ F) →
  ∀ fuel queue visited, (size (F ∖ visited) < fuel)%nat → queue ⊆ F ∖ visited → ends (connected_loop ord nb fuel queue visited).
Proof.
  intros Hnb HF. induction fuel as [|fuel IH]; intros queue visited Hf Hq; [lia|]. cbn [connected_loop].
  destruct (ord (S fuel) queue) as [|n q] eqn:Eo; [done|].
  assert (Hnq : n ∈ queue) by (apply elem_of_elements; rewrite <-(Hord (S fuel)), Eo; left).
  assert (HnF := Hq n Hnq). apply elem_of_difference in HnF as [HnF Hnv].
  apply ends_bind; [apply Hnb|]. intros ns Hns. apply HF in Hns. apply IH.
  - assert (size (F ∖ ({[n]} ∪ visited)) < size (F ∖ visited))%nat; [|lia]. apply subset_size.
    clear -HnF Hnv. split; [set_solver|]. intros Hs.
    assert (Hc : n ∈ F ∖ ({[n]} ∪ visited)) by (apply Hs; set_solver). set_solver.
  - clear -Hq Hns. intros x Hx. set_solver.
Qed.
(** The first step expands the start node even if it was visited before. *)
Lemma ends_connected_nodes (ord : nat → gset Z → list Z) (Hord : ∀ n X, ord n X ≡ₚ elements X) (nb : Z → res (gset Z)) (F : gset Z) :
  (∀ x, ends (nb x)) → (∀ x ns, nb x = Ok ns → ns ⊆ F) →
  ∀ fuel start visited, (S (size F) < fuel)%nat → ends (connected_nodes ord nb fuel start visited).
Proof.
  intros Hnb HF [|fuel] start visited Hf; [lia|]. unfold connected_nodes. cbn [connected_loop].
  destruct (ord (S fuel) {[start]}) as [|n q] eqn:Eo; [done|]. 
  assert (n = start) as -> by (apply (elem_of_singleton (C := gset Z)), elem_of_elements; rewrite <-(Hord (S fuel)), Eo; left).
  apply ends_bind; [apply Hnb|]. intros ns Hns. apply HF in Hns. apply (ends_connected_loop ord Hord nb F Hnb HF).
  - apply Nat.le_lt_trans with (size F); [apply subseteq_size; set_solver|lia].
  - set_solver.
Qed.
Lemma ends_connected e po l fuel sol roots : env_ok e → pool_rep po l → well_formed l →
  (∀ i, i ∈ sol → ∃ p, p ∈ l ∧ (i = pid po p ∨ i = - pid po p)) → (S (length l) < fuel)%nat →
  ends (connected_packages e po fuel sol roots).
Proof.
  intros He R Hinj Hsol Hf. unfold connected_packages.
  assert (Hgn : ∀ i, ends (get_names po i)) by (intros i; unfold get_names; apply ends_bind; [apply ends_id_to_package|done]).
  apply ends_bind; [unfold root_names; apply ends_foldM; intros; apply ends_bind; [apply Hgn|done]|intros rn _].
  destruct (name_to_id_spec po l R Hinj sol Hsol) as (n2i & -> & Hn & _). cbn [mbind res_bind].
  apply ends_bind; [|intros X _; case_decide; done]. apply ends_foldM. intros i V _.
  set (F := list_to_set (pid po <$> l) : gset Z).
  apply (ends_connected_nodes (e_ord e) (proj1 He) _ F).
  - intros x. unfold neighborfunc. apply ends_bind; [apply ends_id_to_package|intros p _]. apply ends_bind; [apply ends_mapM; intros; by apply ends_option|done].
  - intros x ns (p & _ & (ids & Hids & [= <-])%mbind_ok)%mbind_ok. intros y Hy%elem_of_list_to_set. apply mapM_res_iff in Hids.
    apply elem_of_list_lookup in Hy as [k Hk]. eapply Forall2_lookup_r in Hids as (d & _ & Hd); [|exact Hk].
    destruct (n2i !! d.1) as [j|] eqn:Ej; cbn in Hd; [|done]. injection Hd as ->.
    apply Hn in Ej as (q & Hq & -> & _). apply elem_of_list_to_set, elem_of_list_fmap. eauto.
  - eapply Nat.le_lt_trans; [|exact Hf]. apply le_n_S. unfold F. rewrite <-(fmap_length (pid po) l). clear. induction (pid po <$> l) as [|x xs IH]; [done|].
    cbn. rewrite size_union_alt, size_singleton. etrans; [|apply le_n_S, IH]. cbn. apply le_n_S, subseteq_size. set_solver.
Qed.

(** ** The SAT solver *)
Lemma rounds_any {P} (pol : policy P) PInv R Extra Dec p s : good_policy R.*1 Extra Dec pol PInv → wf_cnf R.*1 → PInv p → from_clauses R = Ok (Normal s) →
  ∀ pf n, (size (SatAnalyze.uset R.*1 Extra) ≤ pf)%nat → (2 ^ S (size (SatAnalyze.uset R.*1 Extra)) - 1 ≤ n)%nat →
  ∃ o, search_loop pol pf n (decision_level s) p s = Ok o.
Proof.
  intros Hpol Hwf Hp E pf n Hpf Hn.
  destruct (from_clauses_spec PInv R Extra Dec Hwf p Hp) as [(s0 & E0 & L & El)|(c & l & s0 & E0 & _)]; rewrite E in E0; [|done]. injection E0 as <-.
  assert (decision_level s = 0) as -> by (unfold decision_level; by rewrite El).
  destruct (search_loop_spec pol PInv R Extra Dec Hpol pf n Hpf p s L) as [(p' & s' & -> & _)|(c & l & s' & -> & _)]; [|eauto|eauto].
  unfold SatMain.bound, SatSearch.nvars. pose proof (pow2_pos (size (SatAnalyze.uset R.*1 Extra))). rewrite Nat.pow_succ_r' in Hn |- *. lia.
Qed.

Section ends.
  Context (e : env) (He : env_ok e).
  Context (po : pool) (l : list package) (R : pool_rep po l) (Hinj : well_formed l).
  Context (inst : list package) (Hinst : ∀ p, p ∈ inst → p ∈ l).
  Context (strict : bool) (fuel : nat).
  Context (jobs : list job) (ids : list Z) (rules : list rule) (uenv : uc_env) (ust : uc_state) (iids : list (Z * package)) (st : gst).
  Context (PB : problem e po l inst strict fuel jobs ids rules uenv ust iids st).

  Lemma vars_pool : (size (SatAnalyze.uset (rule_clauses rules).*1 (extra ids uenv)) ≤ length l)%nat.
  Proof.
    rewrite <-(fmap_length (pid po) l).
    etrans; [apply (subseteq_size _ (list_to_set (pid po <$> l) : gset Z))|].
    - intros v Hv. apply (SatAnalyze.univ_uset (rule_clauses rules).*1 (extra ids uenv)) in Hv.
      rewrite (clauses_fst e po l inst strict fuel jobs ids rules uenv ust iids st PB) in Hv. apply elem_of_list_to_set, elem_of_list_fmap. destruct Hv as [Hv|Hv].
      + destruct PB as [P1 P2 P3 P4 P5 P6 P7 P8 P9 P10 P11]. destruct (rules_var po l R Hinj inst Hinst iids P1 strict fuel jobs st P3 v Hv) as (q & Hq & ->). eauto.
      + destruct (elem_of_extra e po l inst Hinst strict fuel jobs ids rules uenv ust iids st PB v Hv) as (q & Hq & ->). eauto.
    - clear. induction (pid po <$> l) as [|x xs IH]; [done|].
      cbn. rewrite size_union_alt, size_singleton. cbn. apply le_n_S. etrans; [|exact IH]. apply subseteq_size. set_solver.
  Qed.
  Lemma rounds_pool s pf n : (length l ≤ pf)%nat → (2 ^ S (length l) - 1 ≤ n)%nat → from_clauses (rule_clauses rules) = Ok (Normal s) →
    ∃ o, search_loop (logged_policy (uc_policy uenv)) pf n (decision_level s) (ust, [], []) s = Ok o.
  Proof.
    intros Hpf Hn E. pose proof vars_pool as V.
    destruct (pol_good e He po l R Hinj inst Hinst strict fuel jobs ids rules uenv ust iids st PB) as [W G].
    eapply rounds_any; [exact G|exact W| |exact E|lia|].
    - exact (ust_good e He po l R Hinj inst Hinst strict fuel jobs ids rules uenv ust iids st PB).
    - etrans; [|exact Hn]. apply Nat.sub_le_mono_r, Nat.pow_le_mono_r; lia.
  Qed.
  Lemma ends_clauses n : (2 ^ S (length l) ≤ n)%nat → ends (solve_clauses (logged_policy (uc_policy uenv)) n (ust, [], []) (rule_clauses rules)).
  Proof.
    intros Hn. assert (length l < 2 ^ S (length l))%nat by (clear; induction (length l) as [|k IH]; [cbn; lia|rewrite Nat.pow_succ_r'; lia]).
    unfold solve_clauses. destruct (pol_good e He po l R Hinj inst Hinst strict fuel jobs ids rules uenv ust iids st PB) as [W _].
    destruct (from_clauses_spec (λ _ : unit, True) (rule_clauses rules) ∅ (λ _ _, True) W tt I) as [(s & E & _)|(c & k & s & -> & _)]; [|done].
    rewrite E. cbn [mbind res_bind]. unfold search. destruct (rounds_pool s n n) as [o ->]; [lia|lia|done|]. cbn [mbind res_bind]. by destruct o as [[]|].
  Qed.
End ends.

(** ** The rules *)
Lemma raises_mono (P Q : exn → Prop) {A} (r : res A) : (∀ x, P x → Q x) → raises P r → raises Q r.
Proof. destruct r; cbn; auto. Qed.
Section rules.
  Context (po : pool) (installed : list (Z * package)) (strict : bool) (fuel : nat).
  Local Notation Q := (λ x, x = OutOfFuel ∨ may_raise strict x).
  Local Notation sends := (raises Q).
  Lemma sends_ends {A} (r : res A) : ends r → sends r.
  Proof. apply raises_mono. intros []; cbn; intros; try done; by right. Qed.
  Lemma sends_pid p : sends (package_id po p).
  Proof. apply sends_ends, ends_package_id. Qed.
  Lemma sends_wp r b : sends (what_provides po r b).
  Proof. apply sends_ends, ends_what_provides. Qed.
  Lemma sends_from c d : sends (from_constraints c d).
  Proof. apply sends_ends, ends_from_constraints. Qed.
  Lemma sends_strict x reqs : may_raise true x → sends (strict_check strict x reqs).
  Proof. unfold strict_check. intros Hx. destruct strict; [|done]. destruct reqs; [|by right]. case_match; [by right|done]. Qed.
  Lemma sends_conflict p q t reqs : sends (conflicts_rule po p q t reqs).
  Proof. unfold conflicts_rule. case_match; [done|]. apply ends_bind; [apply sends_pid|intros i _]. apply ends_bind; [apply sends_pid|done]. Qed.
  Lemma sends_requires p reqs deps : ∀ more st, sends (requires_rules po strict p reqs deps more st).
  Proof.
    induction deps as [|d deps IH]; intros more st; [done|]. cbn [requires_rules].
    apply ends_bind; [apply sends_from|intros r _]. apply ends_bind; [apply sends_wp|intros [|q qs] _].
    - apply ends_bind; [by apply sends_strict|intros _ _]. apply ends_bind; [|done]. unfold remove_rule. apply ends_bind; [apply sends_pid|done].
    - apply ends_bind; [|intros; apply IH]. unfold dependency_rule. apply ends_bind; [apply sends_pid|intros]. apply ends_bind; [apply ends_mapM; intros; apply sends_pid|done].
  Qed.
  Lemma sends_add p t comb qs st : sends (add_conflicts po p t comb qs st).
  Proof. unfold add_conflicts. apply ends_foldM. intros. apply ends_bind; [apply sends_conflict|done]. Qed.
  Lemma sends_conflicts p reqs st : sends (conflicts_rules po strict p reqs st).
  Proof.
    unfold conflicts_rules. apply ends_bind; [|intros s _].
    - unfold same_name_rules. apply ends_bind; [apply sends_ends, ends_name_requirement|intros]. apply ends_bind; [apply sends_wp|intros; apply sends_add].
    - unfold declared_conflicts. apply ends_foldM. intros c s' _. apply ends_bind; [apply sends_from|intros]. apply ends_bind; [apply sends_wp|intros].
      apply ends_bind; [|intros; apply sends_add]. case_match; [by apply sends_strict|done].
  Qed.
  Lemma sends_loop : ∀ fuel queue st, sends (package_rules_loop po strict fuel queue st).
  Proof.
    intros f. induction f as [|f IH]; intros [|[p reqs] queue] st; cbn [package_rules_loop]; [done|by left|done|].
    apply ends_bind; [apply sends_pid|intros i _]. case_decide; [apply IH|].
    apply ends_bind; [apply sends_requires|intros [st' more] _]. apply ends_bind; [apply sends_conflicts|intros st'' _]. apply IH.
  Qed.
  Lemma sends_package p reqs st : sends (package_rules po strict fuel p reqs st).
  Proof. apply sends_loop. Qed.
  Lemma sends_job j st : sends (job_rules po installed strict fuel j st).
  Proof.
    assert (Hi : ∀ r, sends (install_job_rules po installed strict fuel r st)).
    { intros r. unfold install_job_rules. apply ends_bind; [apply sends_wp|intros [|p ps] _; [by right|]].
      apply ends_bind; [apply ends_foldM; intros; apply ends_bind; [apply sends_pid|intros i _; case_decide; [done|apply sends_package]]|intros s _].
      apply ends_bind; [|done]. apply ends_bind; [apply ends_mapM; intros; apply sends_pid|done]. }
    unfold job_rules. destruct (j_kind j), (j_req j) as [r|]; try (by right); try apply Hi.
    - unfold remove_job_rules. apply ends_bind; [apply sends_wp|intros ps _]. apply ends_foldM. intros p s _.
      apply ends_bind; [|done]. apply ends_bind; [apply sends_pid|done].
    - unfold update_job_rules. apply ends_bind; [apply sends_wp|intros [|p ps] _; [done|]].
      apply ends_bind; [apply sends_package|intros s _]. apply ends_bind; [apply sends_pid|done].
  Qed.
  Lemma sends_rules jobs : sends (iter_rules po installed strict fuel jobs).
  Proof.
    unfold iter_rules. apply ends_bind; [apply ends_foldM; intros; apply sends_job|intros st _].
    apply ends_foldM. intros ip s _. apply ends_bind; [|intros; apply sends_package].
    unfold installed_package_rules. apply ends_foldM. intros. apply sends_package.
  Qed.
End rules.

Lemma ends_create e po inst strict fuel rq : (∀ iids, installed_ids po inst = Ok iids → iter_rules po iids strict fuel (rq_jobs rq) ≠ Raise OutOfFuel) →
  raises (may_raise strict) (create_rules e po inst strict fuel rq).
Proof.
  intros H. assert (Hw : ∀ A (r : res A), ends r → raises (may_raise strict) r) by (intros A r; apply raises_mono; intros []; cbn; intros; done).
  unfold create_rules. apply ends_bind; [apply Hw, ends_foldM; intros j acc _; apply ends_job_ids|intros [ids sf] _].
  apply ends_bind; [apply Hw; unfold installed_ids; apply ends_foldM; intros; apply ends_bind; [apply ends_package_id|done]|intros iids Hi].
  apply ends_bind; [apply Hw; unfold preferred_ids; apply ends_bind; [apply ends_mapM; intros; apply ends_package_id|done]|intros pref _].
  apply ends_bind; [|done]. pose proof (sends_rules po iids strict fuel (rq_jobs rq)) as Hs. specialize (H iids Hi).
  destruct (iter_rules po iids strict fuel (rq_jobs rq)) as [|x]; [done|]. cbn in Hs |- *. destruct Hs as [->|Hs]; [done|exact Hs].
Qed.

(** ** C95 *)
(** The search of a solve answers within 2^(n+1) - 1 rounds, n being the packages of the pool, each
    propagating at most n literals. *)
Theorem C95_rounds : ∀ e repos ds rq, env_ok e → setting repos ds →
  ∀ fuel ids rules uenv ust s, create_rules e (solve_pool (ds_pool ds) rq) (ds_installed ds) (ds_strict ds) fuel rq = Ok (ids, rules, uenv, ust) →
  from_clauses (rule_clauses rules) = Ok (Normal s) →
  ∃ o, search_loop (logged_policy (uc_policy uenv)) (length (mjoin repos)) (2 ^ S (length (mjoin repos)) - 1) (decision_level s) (ust, [], []) s = Ok o.
Proof.
  intros e repos ds rq He Hset fuel ids rules uenv ust s Hcr Hs. destruct Hset as [[m0 Hpool] Hinst Hinj].
  set (po := solve_pool (ds_pool ds) rq) in *.
  assert (Hpo : pool_of repos (po_mods po) = Ok po) by (eapply pool_of_mods; exact Hpool).
  destruct (pool_of_rep _ _ _ Hpo) as [R _].
  destruct (create_rules_spec e He po _ R Hinj _ Hinst _ _ _ _ _ _ _ Hcr) as (iids & st & PB).
  by eapply (rounds_pool e He po _ R Hinj _ Hinst _ _ _ _ _ _ _ _ _ PB).
Qed.

(** Every solve ends: beyond some bound on the loops, which depends on the pool and the request and not
    on the orders of sets, none of them is stopped by it.  It returns a transaction, raises
    SatisfiabilityError (with what its report needs), or one of the exceptions listed in [may_raise]
    that come from metadata and requests: the SAT solver itself never fails. *)
Theorem C95_ends : ∀ repos ds rq, setting repos ds →
  ∃ N, ∀ e fuel, env_ok e → (N ≤ fuel)%nat →
    (∃ t, solve e ds fuel rq = Ok (Normal t)) ∨ (∃ c k s, solve e ds fuel rq = Ok (Unsat c k s)) ∨
    (∃ x, solve e ds fuel rq = Raise x ∧ may_raise (ds_strict ds) x).
Proof.
  intros repos ds rq Hset. destruct Hset as [[m0 Hpool] Hinst Hinj].
  destruct (convert_upgrade rq (ds_remote ds) (ds_installed ds)) as [rq'|x] eqn:Erq.
  all: cut (∃ N, ∀ e fuel, env_ok e → (N ≤ fuel)%nat → raises (may_raise (ds_strict ds)) (solve e ds fuel rq)).
  1,3: intros [N HN]; exists N; intros e fuel He Hf; specialize (HN e fuel He Hf); destruct (solve e ds fuel rq) as [[]|]; cbn in HN; eauto 10.
  all: assert (Hw : ∀ A (r : res A), ends r → raises (may_raise (ds_strict ds)) r) by (intros A r; apply raises_mono; intros []; cbn; intros; done).
  2:{ exists 0%nat. intros e fuel _ _. unfold solve. pose proof (ends_convert rq (ds_remote ds) (ds_installed ds)) as H. rewrite Erq in H |- *. cbn. revert H. clear. destruct x; cbn; intros; done. }
  set (po := solve_pool (ds_pool ds) rq').
  assert (Hpo : pool_of repos (po_mods po) = Ok po) by (eapply pool_of_mods; exact Hpool).
  destruct (pool_of_rep _ _ _ Hpo) as [R _].
  destruct (installed_ids_spec po _ R Hinj _ Hinst) as (iids & Hii & _).
  destruct (C20_terminates repos _ po (ds_installed ds) iids (ds_strict ds) Hpo Hinj Hinst Hii) as [n0 Hn0].
  exists (n0 + 2 ^ S (length (mjoin repos)) + S (S (length (mjoin repos))))%nat. intros e fuel He Hf.
  unfold solve. rewrite Erq. cbn [mbind res_bind]. fold po.
  apply ends_bind.
  { apply ends_create. intros iids' Hi'. rewrite Hii in Hi'. injection Hi' as <-. apply Hn0. lia. }
  intros [[[ids rules] uenv] ust] Hcr. cbn beta iota.
  destruct (create_rules_spec e He po _ R Hinj _ Hinst _ _ _ _ _ _ _ Hcr) as (iids1 & st & PB).
  apply Hw, ends_bind.
  { apply (ends_clauses e He po _ R Hinj _ Hinst _ _ _ _ _ _ _ _ _ PB). lia. }
  intros [a|c k s] Ha; [|done].
  apply ends_bind; [apply ends_mapM; intros; apply ends_package_id|intros ii _].
  apply ends_bind; [|intros; apply ends_bind; [apply ends_transaction|done]].
  destruct (ds_pruning ds); [|done]. apply ends_bind; [|done].
  apply (ends_connected e po (mjoin repos) fuel); [done|done|done| |lia].
  exact (sol_lit po _ _ _ _ (run_solved e He po _ R Hinj _ Hinst _ _ _ _ _ _ _ _ _ PB _ _ Ha)).
Qed.

(** A pool with dependencies in a circle: solve ends too, with an exception. *)
Theorem C95_example : ∃ repos ds rq, setting repos ds ∧ solve env0 ds 40 rq = Raise ValueError ∧ may_raise (ds_strict ds) ValueError.
Proof.
  destruct C30_refuted as (repos & ds & rq & jobs & k & Hs & _ & _ & _ & _ & _ & _ & _ & E). by exists repos, ds, rq.
Qed.
(** The two exceptions of strict mode. *)
Theorem C95_strict : ∃ repos ds rq, setting repos ds ∧ ds_strict ds = true ∧ solve env0 ds 40 rq = Raise MissingInstallRequires.
Proof.
  set (r := [Pkg "A" (V 1 0) [("B", [])] [] [] (Some "r")]). exists [r], (ds0 [r] [r] [] true true), (ask [want "A"]).
  split; [run|]. split; [reflexivity|]. run.
Qed.
(** When metadata can be interpreted and every job has a candidate (the conditions of C30, without the
    one about cycles, and in strict mode as well): ValueError because of a cycle, and the errors of strict mode, are all that is left. *)
Theorem C95_conditions : ∀ e repos ds rq jobs, env_ok e → setting repos ds → asks ds rq jobs → ds_pruning ds = true →
  single_names (mjoin repos) → one_version (λ p, p ∈ ds_installed ds) → removes_known (mjoin repos) (ds_installed ds) jobs →
  (∀ p, p ∈ mjoin repos → interpretable (rq_mods rq) p) → (∀ j, j ∈ jobs → has_candidate (mjoin repos) j) →
  ∃ n, ∀ fuel, (n ≤ fuel)%nat →
    (∃ t, solve e ds fuel rq = Ok (Normal t)) ∨ (∃ c k s, solve e ds fuel rq = Ok (Unsat c k s)) ∨
    (solve e ds fuel rq = Raise ValueError ∧ ¬ acyclic (mjoin repos) (rq_mods rq)) ∨
    (ds_strict ds = true ∧ ∃ x, solve e ds fuel rq = Raise x ∧ (x = MissingInstallRequires ∨ x = MissingConflicts ∨ x = TypeError)).
Proof.
  intros e repos ds rq jobs He Hset Hask Hpr H1 Hone H2 Hint Hcand.
  destruct (C30_otherwise e repos (with_strict ds false) rq jobs) as [n Hn]; [done|by destruct Hset|done|done|done|done|done|done|done|done|].
  exists n. intros fuel Hf. specialize (Hn fuel Hf).
  destruct (ds_strict ds) eqn:Es.
  - assert (ds = with_strict ds true) as Hds by (destruct ds; cbn in *; by subst). rewrite Hds.
    destruct (C72_strict e ds fuel rq) as [->|Hx]; [|eauto 10]. destruct Hn as [?|[?|?]]; eauto 10.
  - assert (ds = with_strict ds false) as Hds by (destruct ds; cbn in *; by subst). rewrite <-Hds in Hn. destruct Hn as [?|[?|?]]; eauto 10.
Qed.
Print Assumptions C95_rounds. Print Assumptions C95_ends. Print Assumptions C95_strict. Print Assumptions C95_conditions.
