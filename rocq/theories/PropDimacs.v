(** * Property C64: the exported SAT problem. *)
From Coq Require Import Ascii String.
From Verif Require Import PropSat PropLimits SpecSat PoolProofs PropPool PropConstraints ConstraintProofs PropRules SolveProofs RulesMain.
From Verif Require Export DimacsProofs SpecSolve.
Local Open Scope string_scope.
Local Open Scope list_scope.

(** ** The clauses of the solver *)
Lemma add_clauses_lits rules : ∀ s s', (∀ i, i ∈ s_clauses s → (i < List.length (s_heap s))%nat) →
  add_clauses rules s = Ok (Normal s') →
  (∀ i, i ∈ s_clauses s' → (i < List.length (s_heap s'))%nat) ∧
  clause_lits s' = clause_lits s ++ filter (λ c, c ≠ []) ((λ r, fromkeys r.1) <$> rules).
Proof.
  induction rules as [|[lits r] rules IH]; intros s s' Hi H; [injection H as <-; split; [done|by rewrite app_nil_r]|].
  cbn [add_clauses] in H. unfold add_clause in H. cbn [alloc] in H.
  set (s1 := (alloc (mk_clause lits false r) s).2).
  assert (Hn : lits_of s1 (List.length (s_heap s)) = fromkeys lits).
  { unfold lits_of, s1. cbn. rewrite lookup_app_r by done. by rewrite Nat.sub_diag. }
  assert (Hold : lits_of s1 <$> s_clauses s = clause_lits s).
  { unfold clause_lits. apply list_fmap_ext. intros k i Hk%elem_of_list_lookup_2. unfold lits_of, s1. cbn.
    by rewrite lookup_app_l by (by apply Hi). }
  change (((add_clause_ref (List.length (s_heap s)) s1 : res (out solver)) ≫= λ o, match o with Normal s' => add_clauses rules s' | Unsat c l s' => Ok (Unsat c l s') end) = Ok (Normal s')) in H.
  assert (∃ s2, add_clauses rules s2 = Ok (Normal s') ∧ s_heap s2 = s_heap s1 ∧
    s_clauses s2 = if decide (fromkeys lits = []) then s_clauses s else s_clauses s ++ [List.length (s_heap s)]) as (s2 & H2 & Eh & Ec).
  { unfold add_clause_ref in H. rewrite Hn in H. destruct (fromkeys lits) as [|p [|q rest]].
    - cbn in H. eexists. split; [exact H|]. done.
    - unfold enqueue in H. destruct (aset_value (s_asg s1) p) as [b|].
      + cbn [mbind res_bind] in H. destruct b; [|done]. cbn [mbind res_bind] in H. eexists. split; [exact H|]. done.
      + destruct (aset_set _ _ _) as [a|]; [|done]. cbn [mbind res_bind] in H. eexists. split; [exact H|]. done.
    - cbn [mbind res_bind] in H. eexists. split; [exact H|]. done. }
  destruct (IH s2 s') as [G1 G2]; [|done|].
  - intros i. rewrite Ec, Eh. unfold s1. cbn. rewrite app_length. cbn. intros Hi'.
    assert (i ∈ s_clauses s ∨ i = List.length (s_heap s)) as [H'| ->]; [|apply Hi in H'; lia|lia].
    destruct (decide _); [by left|]. apply elem_of_app in Hi' as [?|?%elem_of_list_singleton]; auto.
  - split; [done|]. rewrite G2. rewrite fmap_cons. cbn [fst].
    assert (clause_lits s2 = clause_lits s ++ filter (λ c, c ≠ []) [fromkeys lits]) as ->.
    { unfold clause_lits at 1. assert (∀ i, lits_of s2 i = lits_of s1 i) as E by (intros i; unfold lits_of; by rewrite Eh).
      rewrite (list_fmap_ext (lits_of s2) (lits_of s1) (s_clauses s2)) by (intros; apply E). rewrite Ec. destruct (decide _) as [E0|E0].
      - rewrite filter_cons_False by (by rewrite E0; intros []). by rewrite Hold, app_nil_r.
      - rewrite filter_cons_True by done. rewrite fmap_app, Hold. cbn [fmap list_fmap]. by rewrite Hn. }
    rewrite <-app_assoc. f_equal. by rewrite <-filter_app.
Qed.

Lemma from_rules_lits rules s : from_rules rules = Ok (Normal s) →
  clause_lits s = filter (λ c, c ≠ []) (fromkeys <$> (ru_lits <$> rules)).
Proof.
  unfold from_rules, from_clauses. destruct (add_clauses _ _) as [[s0|]|] eqn:E; [|done|done]. cbn [mbind res_bind].
  unfold setup_assignments. destruct (foldM _ _ _) as [a|]; [|done]. cbn [mbind res_bind]. intros [= <-].
  apply add_clauses_lits in E as [_ E]; [|by intros i Hi%elem_of_nil]. cbn in E.
  change (clause_lits (set_asg a s0)) with (clause_lits s0). rewrite E. rewrite <-!list_fmap_compose. done.
Qed.

Lemma elem_clauses rules s : from_rules rules = Ok (Normal s) → [] ∉ (ru_lits <$> rules) →
  (∀ c, c ∈ clause_lits s → ∃ r, r ∈ ru_lits <$> rules ∧ c = fromkeys r) ∧
  ∀ r, r ∈ ru_lits <$> rules → fromkeys r ∈ clause_lits s.
Proof.
  intros ->%from_rules_lits Hne. split.
  - intros c [_ Hc]%elem_of_list_filter. apply elem_of_list_fmap in Hc as (r & -> & Hr). eauto.
  - intros r Hr. apply elem_of_list_filter. split; [|apply elem_of_list_fmap; eauto].
    destruct r as [|x r]; [done|]. intros E. assert (x ∈ fromkeys (x :: r)) as Hx by (rewrite fromkeys_elem; left).
    rewrite E in Hx. by apply elem_of_nil in Hx.
Qed.
Lemma clause_true_fromkeys f c : clause_true f (fromkeys c) ↔ clause_true f c.
Proof. unfold clause_true. split; intros (l & Hl & ?); exists l; (split; [|done]); [by rewrite fromkeys_elem in Hl|by rewrite fromkeys_elem]. Qed.
Lemma same_models rules s f : from_rules rules = Ok (Normal s) → [] ∉ (ru_lits <$> rules) →
  model f (clause_lits s) ↔ model f (ru_lits <$> rules).
Proof.
  intros H Hne. destruct (elem_clauses _ _ H Hne) as [H1 H2]. split.
  - intros Hm r Hr. apply clause_true_fromkeys. by apply Hm, H2.
  - intros Hm c (r & Hr & ->)%H1. apply clause_true_fromkeys. by apply Hm.
Qed.

(** The number in the header. *)
Lemma all_vars_spec cls : ∃ vs, NoDup vs ∧ (∀ v, v ∈ vs ↔ is_var cls v) ∧ size (all_vars cls) = List.length vs.
Proof.
  exists (elements (all_vars cls)). split; [apply NoDup_elements|]. split; [|done]. intros v.
  rewrite elem_of_elements. unfold all_vars. rewrite elem_of_list_to_set, elem_of_list_fmap. split.
  - intros (l & -> & Hl). apply elem_of_list_join in Hl as (c & Hl & Hc). by exists c, l.
  - intros (c & l & Hc & Hl & ->). exists l. split; [done|]. apply elem_of_list_join. eauto.
Qed.

(** ** C64 *)
(** The text is in the DIMACS format: reading it gives the clauses, in order, literal by literal, and the header
    has the number of different variables and of clauses. *)
Theorem C64_text : ∀ vstr po cls, wf_cnf cls →
  ∃ v, read_dimacs (str_join nl_str (to_dimacs vstr po cls)) = Some (v, Z.of_nat (List.length cls), cls) ∧
    ∃ vs, NoDup vs ∧ (∀ x, x ∈ vs ↔ is_var cls x) ∧ v = Z.of_nat (List.length vs).
Proof.
  intros vstr po cls H. eexists. split; [apply to_dimacs_read; by apply H|].
  destruct (all_vars_spec cls) as (vs & ? & ? & E). exists vs. by rewrite E.
Qed.

(** ** The whole export (see [export] in Dimacs.v; the script as it is fails, see C64_script_refuted) *)
Lemma export_open vstr e remotes inst fuel rq o : export vstr e remotes inst fuel rq = Ok o →
  ∃ po ids rules uenv ust so, pool_of (remotes ++ [inst]) None = Ok po ∧
    create_rules e po inst false fuel rq = Ok (ids, rules, uenv, ust) ∧ from_rules rules = Ok so ∧
    match so with
    | Unsat c k s => o = Unsat c k s
    | Normal s => o = Normal (str_join nl_str (to_dimacs vstr po (clause_lits s)))
    end.
Proof.
  unfold export. destruct (pool_of _ _) as [po|] eqn:E1; [|done]. cbn [mbind res_bind].
  destruct (create_rules _ _ _ _ _ _) as [[[[ids rules] uenv] ust]|] eqn:E2; [|done]. cbn [mbind res_bind].
  destruct (from_rules rules) as [so|] eqn:E3; [|done]. cbn [mbind res_bind]. intros H.
  exists po, ids, rules, uenv, ust, so. split; [done|]. split; [done|]. split; [done|]. destruct so; congruence.
Qed.
Lemma create_generates e repos po inst strict fuel rq ids rules uenv ust :
  pool_of repos None = Ok po → (∀ p, p ∈ inst → p ∈ mjoin repos) →
  create_rules e po inst strict fuel rq = Ok (ids, rules, uenv, ust) →
  ∃ st, generates repos None inst strict fuel (rq_jobs rq) po st ∧ rules = g_rules st.
Proof.
  intros Hpo Hi. unfold create_rules. destruct (foldM _ _ _) as [[ids' soft']|]; [|done]. cbn [mbind res_bind].
  destruct (installed_ids po inst) as [iids|] eqn:Ei; [|done]. cbn [mbind res_bind].
  destruct (preferred_ids _ _ _ _) as [pr|]; [|done]. cbn [mbind res_bind].
  destruct (iter_rules po iids strict fuel (rq_jobs rq)) as [st|] eqn:E; [|done]. cbn [mbind res_bind].
  intros [= _ <- _ _]. exists st. split; [|done]. split; [done|]. split; [done|]. eauto.
Qed.

Lemma mjoin_repos (remotes : list (list package)) inst : mjoin (remotes ++ [inst]) = mjoin remotes ++ inst.
Proof.
  induction remotes as [|r rs IH]; [cbn; by rewrite app_nil_r|].
  change (r ++ mjoin (rs ++ [inst]) = (r ++ mjoin rs) ++ inst). by rewrite <-app_assoc, <-IH.
Qed.

(** The clauses of the exported text are about the packages; the packages selected by a model of them contain a
    valid installation for the jobs of the request, and each valid installation is a model. *)
Theorem C64_export : ∀ vstr e remotes inst fuel rq text,
  well_formed (mjoin remotes ++ inst) → export vstr e remotes inst fuel rq = Ok (Normal text) →
  ∃ po v n cls, pool_of (remotes ++ [inst]) None = Ok po ∧ read_dimacs text = Some (v, n, cls) ∧
    n = Z.of_nat (List.length cls) ∧
    (∀ x, is_var cls x → ∃ p, p ∈ mjoin remotes ++ inst ∧ package_id po p = Ok x) ∧
    (∀ f, model f cls → ∃ S, valid (mjoin remotes ++ inst) inst no_mods (rq_jobs rq) S ∧
                             ∀ p, S p → selected po f p) ∧
    (∀ f S, valid (mjoin remotes ++ inst) inst no_mods (rq_jobs rq) S →
            (∀ p, p ∈ mjoin remotes ++ inst → selected po f p ↔ S p) → model f cls).
Proof.
  intros vstr e remotes inst fuel rq text Hwf H.
  destruct (export_open _ _ _ _ _ _ _ H) as (po & ids & rules & uenv & ust & so & Hpo & Hc & Hs & Ho).
  destruct so as [s|]; [|done]. injection Ho as ->.
  assert (El := mjoin_repos remotes inst).
  destruct (create_generates e (remotes ++ [inst]) po inst false fuel rq ids rules uenv ust) as (st & Hg & ->); [done| |done|].
  { intros p Hp. rewrite El. apply elem_of_app. by right. }
  rewrite <-El in Hwf |- *.
  destruct (gen_open _ _ _ _ _ _ _ _ Hg Hwf) as (iids & R & Hm & Hinst & Hii & Hit).
  assert (Hne : [] ∉ (ru_lits <$> g_rules st)) by (by eapply rules_nonempty).
  assert (W : wf_cnf (rules_of st)) by (by eapply rules_wf).
  destruct (elem_clauses _ _ Hs Hne) as [Hc1 Hc2].
  assert (W' : wf_cnf (clause_lits s)).
  { intros c x (r & Hr & ->)%Hc1 Hx. rewrite fromkeys_elem in Hx. by eapply W. }
  destruct (C64_text vstr po (clause_lits s) W') as (v & Hr & _).
  exists po, v, (Z.of_nat (List.length (clause_lits s))), (clause_lits s).
  split; [done|]. split; [done|]. split; [done|]. split; [|split].
  - intros x (c & l & (r & Hr' & ->)%Hc1 & Hl & ->). rewrite fromkeys_elem in Hl.
    assert (is_var (rules_of st) (Z.abs l)) as Hv by (by exists r, l).
    eapply rules_var in Hv as (q & Hq & ->); [|done..]. exists q. split; [done|]. by eapply pid_ok.
  - intros f Hf. apply (same_models _ _ _ Hs Hne) in Hf.
    destruct (C19_consistent _ _ _ _ _ _ _ _ f Hg Hwf Hf) as (_ & _ & V). cbn [default] in V.
    eexists. split; [exact V|]. by intros p (_ & ? & _).
  - intros f S V Hsel. apply (same_models _ _ _ Hs Hne).
    eapply (valid_model po _ R Hwf inst Hinst iids Hii false fuel (rq_jobs rq) st Hit S); [by rewrite Hm|].
    intros p Hp. rewrite <-Hsel by done. unfold selected. rewrite (pid_ok _ _ R p Hp). split; [eauto|]. intros (i & [= <-] & ?). done.
Qed.

(** If the export raises SatisfiabilityError there is nothing to find. *)
Theorem C64_unsat : ∀ vstr e remotes inst fuel rq c k s,
  well_formed (mjoin remotes ++ inst) → export vstr e remotes inst fuel rq = Ok (Unsat c k s) →
  ¬ ∃ S, valid (mjoin remotes ++ inst) inst no_mods (rq_jobs rq) S.
Proof.
  intros vstr e remotes inst fuel rq c k s Hwf H (S & V).
  destruct (export_open _ _ _ _ _ _ _ H) as (po & ids & rules & uenv & ust & so & Hpo & Hc & Hs & Ho).
  destruct so as [s'|c' k' s']; [done|].
  rewrite <-mjoin_repos in Hwf, V.
  destruct (create_generates e (remotes ++ [inst]) po inst false fuel rq ids rules uenv ust) as (st & Hg & ->); [done| |done|].
  { intros p Hp. rewrite mjoin_repos. apply elem_of_app. by right. }
  destruct (gen_open _ _ _ _ _ _ _ _ Hg Hwf) as (iids & R & Hm & Hinst & Hii & Hit).
  assert (W : wf_cnf (rules_of st)) by (by eapply rules_wf).
  assert (E : (rule_clauses (g_rules st)).*1 = rules_of st).
  { unfold rule_clauses, rules_of. by rewrite <-list_fmap_compose. }
  rewrite <-E in W.
  apply (C15_rules _ _ _ _ _ _ _ _ Hg Hwf); [|by exists S].
  rewrite <-E. eapply (C02_unsat_is_sound default_policy _ _ _ _ 0 () c' k' s' W (C12_default_policy _ ∅ W) I).
  unfold solve_clauses. change (from_rules (g_rules st)) with (from_clauses (rule_clauses (g_rules st))) in Hs.
  rewrite Hs. done.
Qed.
(** So the exported problem is satisfiable exactly if there is a valid installation for the jobs of the request. *)
Theorem C64_satisfiable : ∀ vstr e remotes inst fuel rq text v n cls,
  well_formed (mjoin remotes ++ inst) → export vstr e remotes inst fuel rq = Ok (Normal text) →
  read_dimacs text = Some (v, n, cls) →
  (satisfiable cls → ∃ S, valid (mjoin remotes ++ inst) inst no_mods (rq_jobs rq) S) ∧
  (¬ satisfiable cls → ¬ ∃ S, valid (mjoin remotes ++ inst) inst no_mods (rq_jobs rq) S).
Proof.
  intros vstr e remotes inst fuel rq text v n cls Hwf H Hr.
  destruct (C64_export _ _ _ _ _ _ _ Hwf H) as (po & v' & n' & cls' & Hpo & Hr' & _ & _ & H1 & H2).
  assert (cls' = cls) as -> by congruence. split.
  - intros (f & Hf). destruct (H1 f Hf) as (S & V & _). by exists S.
  - intros Hu (S & V). rewrite <-mjoin_repos in *. apply pool_of_rep in Hpo as [R _].
    apply (decide_on (mjoin (remotes ++ [inst])) S). intros (k & Hk). apply Hu.
    exists (val_of po (filter (λ p, p ∈ mjoin (remotes ++ [inst])) k)). eapply H2; [exact V|].
    intros p Hp. unfold selected. rewrite (pid_ok _ _ R p Hp).
    assert (Hv := val_of_spec po _ R Hwf (filter (λ p, p ∈ mjoin (remotes ++ [inst])) k) p).
    rewrite elem_of_list_filter in Hv.
    assert (val_of po (filter (λ p, p ∈ mjoin (remotes ++ [inst])) k) (pid po p) = true ↔ S p) as <-.
    { rewrite Hv; [rewrite <-(Hk p Hp); tauto|by intros q [? _]%elem_of_list_filter|done]. }
    split; [intros (i & [= <-] & ?); done|eauto].
Qed.

(** ** The header *)
(** The format wants all variables to be at most the first number.  That holds exactly if the variables that
    occur have no gaps. *)
Theorem C64_header : ∀ vstr po cls, wf_cnf cls →
  ∃ d, read_dimacs (str_join nl_str (to_dimacs vstr po cls)) = Some d ∧
    (header_ok d ↔ ∀ x, is_var cls x → ∀ y, 1 ≤ y ≤ x → is_var cls y).
Proof.
  intros vstr po cls W. destruct (C64_text vstr po cls W) as (v & Hr & vs & Hn & Hvs & Hv).
  eexists. split; [exact Hr|]. unfold header_ok.
  assert (Hlen : List.length (seqZ 1 v) = List.length vs) by (rewrite seqZ_length; lia). split.
  - intros [_ Hb] x Hx y Hy. apply Hvs. apply Hvs in Hx.
    assert (vs ≡ₚ seqZ 1 v) as Hp.
    { apply submseteq_Permutation_length_eq; [done|]. apply NoDup_submseteq; [done|]. intros z (c & l & Hc & Hl & ->)%Hvs.
      apply elem_of_seqZ. specialize (Hb c l Hc Hl). lia. }
    rewrite Hp in Hx |- *. rewrite elem_of_seqZ in Hx |- *. lia.
  - intros Hg. split; [done|]. intros c l Hc Hl. specialize (W c l Hc Hl). split; [lia|].
    assert (seqZ 1 (Z.abs l) ⊆+ vs) as Hsub%submseteq_length.
    { apply NoDup_submseteq; [apply NoDup_seqZ|]. intros y Hy%elem_of_seqZ. apply Hvs. apply (Hg (Z.abs l)); [by exists c, l|lia]. }
    rewrite seqZ_length in Hsub. lia.
Qed.

(** The numbers of the tools' version always fit. *)
Theorem C64_tools : ∀ repos m inst strict fuel jobs po st, generates repos m inst strict fuel jobs po st →
  well_formed (mjoin repos) →
  ∃ d, read_dimacs (rules_set_to_dimacs po (rules_of st)) = Some d ∧ d.2 = rules_of st ∧ header_ok d.
Proof.
  intros repos m inst strict fuel jobs po st Hg Hwf.
  destruct (gen_open _ _ _ _ _ _ _ _ Hg Hwf) as (iids & R & Hm & Hinst & Hii & Hit).
  assert (W : wf_cnf (rules_of st)) by (by eapply rules_wf).
  eexists. split; [apply tools_read; exact W|]. split; [done|]. split; [done|]. intros c l Hc Hl.
  assert (is_var (rules_of st) (Z.abs l)) as Hv by (by exists c, l).
  eapply rules_var in Hv as (q & Hq & ->); [|done..]. pose proof (pid_pos po _ R q Hq) as Hpos.
  rewrite (pr_next _ _ R). unfold pid in Hpos |- *.
  destruct (rep_package_id_total _ _ R q Hq) as (i & -> & Hi1 & q' & Hl' & _).
  apply (rep_id_to_package _ _ R) in Hl' as [_ Hl'%lookup_lt_Some]. lia.
Qed.

(** The script itself never prints anything: its call of DependencySolver raises TypeError. *)
Theorem C64_script_refuted : ∀ vstr e remotes inst text, script_main vstr e remotes inst ≠ Ok text.
Proof.
  intros vstr e remotes inst text. unfold script_main, script_initialize.
  destruct (pool_of _ _); [|done]. cbn [mbind res_bind]. by destruct (preferred_ids _ _ _ _).
Qed.

(** ** Examples *)
Local Notation inst_pkg n v rq cf pv := (Pkg n (V v 0) rq cf pv (Some "i")).
Local Notation rem_pkg n v rq cf pv := (Pkg n (V v 0) rq cf pv (Some "r")).
Definition ex_vstr (v : version) : string := str_of_Z (upstream v) +:+ "-" +:+ str_of_Z (build v).
(** A request about the third package of the pool: the header promises one variable. *)
Theorem C64_header_refuted : ∃ remotes rq text d, well_formed (mjoin remotes ++ []) ∧
  export ex_vstr env0 remotes [] 60 rq = Ok (Normal text) ∧ read_dimacs text = Some d ∧ ¬ header_ok d ∧
  d = (1, 1, [[3]]).
Proof.
  exists [[rem_pkg "a" 1 [] [] []; rem_pkg "b" 1 [] [] []; rem_pkg "c" 1 [] [] []]], (ask [want "c"]).
  eexists. exists (1, 1, [[3]]). split; [by apply well_formed_check|]. split; [vm_compute; reflexivity|]. split; [vm_compute; reflexivity|].
  split; [|done]. intros [_ H]. specialize (H [3] 3 ltac:(left) ltac:(left)). lia.
Qed.
(** The export knows nothing of the modifiers of the request: here solve installs a although it wants another b. *)
Definition c64_remote : list package := [rem_pkg "a" 1 [("b", [[[CEqual (V 2 0)]]])] [] []; rem_pkg "b" 1 [] [] []].
Definition c64_ds : dep_solver := ds0 [c64_remote; []] [c64_remote] [] true false.
Definition is_unsat {A} (r : res (out A)) : bool := match r with Ok (Unsat _ _ _) => true | _ => false end.
Lemma is_unsat_spec {A} (r : res (out A)) : is_unsat r = true → ∃ c k s, r = Ok (Unsat c k s).
Proof. destruct r as [[|]|]; eauto; done. Qed.
Theorem C64_modifiers_refuted : ∃ rq t, setting [c64_remote; []] c64_ds ∧ asks c64_ds rq (rq_jobs rq) ∧
  solve env0 c64_ds 60 rq = Ok (Normal t) ∧
  ∃ c k s, export ex_vstr env0 (ds_remote c64_ds) (ds_installed c64_ds) 60 rq = Ok (Unsat c k s).
Proof.
  set (rq := Request (Mods ∅ {["b"]} ∅) [want "a"]).
  assert (∃ t, solve env0 c64_ds 60 rq = Ok (Normal t) ∧
    t_ops t = [InstallOp (rem_pkg "b" 1 [] [] []); InstallOp (rem_pkg "a" 1 [("b", [[[CEqual (V 2 0)]]])] [] [])]) as (t & Ht & _) by run.
  exists rq, t. split; [run|]. split; [run|]. split; [done|]. apply is_unsat_spec. vm_compute. reflexivity.
Qed.
(** An upgrade request cannot be exported. *)
Theorem C64_upgrade : ∀ vstr e remotes inst fuel rq o, upgrade_request rq → export vstr e remotes inst fuel rq ≠ Ok o.
Proof.
  intros vstr e remotes inst fuel rq o (j & Hj & Hk) H.
  destruct (export_open _ _ _ _ _ _ _ H) as (po & ids & rules & uenv & ust & so & _ & Hc & _).
  unfold create_rules in Hc. rewrite Hj in Hc. cbn [foldM] in Hc. unfold job_ids in Hc. by rewrite Hk in Hc.
Qed.
(** The text for a small problem. *)
Theorem C64_example : well_formed (mjoin [[rem_pkg "a" 1 [("b", [])] [] []; rem_pkg "b" 1 [] [] []; rem_pkg "b" 2 [] [] []]] ++ [inst_pkg "b" 1 [] [] []]) ∧
  export ex_vstr env0 [[rem_pkg "a" 1 [("b", [])] [] []; rem_pkg "b" 1 [] [] []; rem_pkg "b" 2 [] [] []]] [inst_pkg "b" 1 [] [] []] 60 (ask [want "a"]) =
  Ok (Normal (str_join nl_str
    ["c KEY"; "c {""1"": ""a 1-0"", ""2"": ""b 1-0"", ""3"": ""b 2-0"", ""4"": ""b 1-0""}"; "p cnf 4 5";
     "-1 2 3 4 0"; "-3 -2 0"; "-4 -2 0"; "-4 -3 0"; "1 0"])).
Proof. split; [by apply well_formed_check|]. vm_compute. reflexivity. Qed.
Print Assumptions C64_text. Print Assumptions C64_export. Print Assumptions C64_unsat. Print Assumptions C64_satisfiable.
Print Assumptions C64_header. Print Assumptions C64_tools. Print Assumptions C64_header_refuted.
Print Assumptions C64_modifiers_refuted. Print Assumptions C64_upgrade. Print Assumptions C64_script_refuted. Print Assumptions C64_example.
