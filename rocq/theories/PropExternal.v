(** * Property C87: solving the exported problem with another SAT solver. *)
From Coq Require Import Ascii String.
From Verif Require SatLearn.
From Verif Require Import PropSat PropLimits PoolProofs PropPool PropConstraints ConstraintProofs PropRules SolveProofs RulesMain SolveTotal PropSolve.
From Verif Require Export PropDimacs ExternalProofs.
Local Open Scope string_scope.
Local Open Scope list_scope.

(** ** The assignment of a solution *)
Definition ext_map (lits : list Z) : gmap Z bool := list_to_map ((λ x, (Z.abs x, bool_decide (0 < x))) <$> lits).
Definition ext_aset (lits : list Z) : aset := ASet (ext_map lits) ∅ ∅ None ∅ ∅.
Lemma ext_value lits v b : (∀ x, x ∈ lits → x ≠ 0) → (∀ x, x ∈ lits → - x ∉ lits) → 0 < v →
  aset_value (ext_aset lits) v = Some b ↔ (if b then v else - v) ∈ lits.
Proof.
  intros Hz Hc Hv. unfold aset_value, ext_aset, ext_map. cbn [a_data].
  assert (He : ∀ b' : bool, (v, b') ∈ (λ x, (Z.abs x, bool_decide (0 < x))) <$> lits ↔ (if b' then v else - v) ∈ lits).
  { intros b'. rewrite elem_of_list_fmap. split.
    - intros (x & [= Ev Eb] & Hx). specialize (Hz x Hx). destruct (decide (0 < x)).
      + rewrite bool_decide_eq_true_2 in Eb by done. subst b'. by replace v with x by lia.
      + rewrite bool_decide_eq_false_2 in Eb by done. subst b'. by replace (- v) with x by lia.
    - intros Hx. exists (if b' then v else - v). split; [|done]. destruct b'.
      + rewrite bool_decide_eq_true_2 by lia. f_equal. lia.
      + rewrite bool_decide_eq_false_2 by lia. f_equal. lia. }
  split.
  - intros H%elem_of_list_to_map_2. by apply He.
  - intros H. apply elem_of_list_to_map_1'; [|by apply He]. intros b' Hb'%He. destruct b, b'; try done; exfalso.
    + by apply (Hc v).
    + apply (Hc v); done.
Qed.

Section ext.
  Context (e : env) (He : env_ok e).
  Context (po : pool) (l : list package) (R : pool_rep po l) (Hinj : well_formed l).
  Context (inst : list package) (Hinst : ∀ p, p ∈ inst → p ∈ l).
  Context (strict : bool) (fuel : nat) (jobs : list job) (ids : list Z) (rules : list rule) (uenv : uc_env) (ust : uc_state).
  Context (iids : list (Z * package)) (st : gst).
  Context (PB : problem e po l inst strict fuel jobs ids rules uenv ust iids st).
  Context (s : solver) (Hs : from_rules rules = Ok (Normal s)).
  Context (lits : list Z) (SN : solution (clause_lits s) lits).
  Context (Hnd : NoDup l).
  Local Notation pid := (pid po).
  Lemma ext_nonempty : [] ∉ rule_lits st.
  Proof. destruct PB as [P1 P2 P3 P4 P5 P6 P7 P8 P9 P10 P11]. by eapply rules_nonempty. Qed.
  Lemma ext_rules : ru_lits <$> rules = rule_lits st.
  Proof. by rewrite (pb_rules _ _ _ _ _ _ _ _ _ _ _ _ _ PB). Qed.
  Lemma ext_vars v : is_var (clause_lits s) v ↔ is_var (rule_lits st) v.
  Proof.
    destruct (elem_clauses rules s Hs) as [H1 H2]; [rewrite ext_rules; exact ext_nonempty|]. rewrite ext_rules in H1, H2. split.
    - intros (c & x & (r & Hr & ->)%H1 & Hx & ->). rewrite fromkeys_elem in Hx. by exists r, x.
    - intros (r & x & Hr & Hx & ->). exists (fromkeys r), x. split; [by apply H2|]. by rewrite fromkeys_elem.
  Qed.
  Lemma ext_var_pkg v : is_var (rule_lits st) v → ∃ q, q ∈ l ∧ v = pid q.
  Proof. destruct PB as [P1 P2 P3 P4 P5 P6 P7 P8 P9 P10 P11]. by eapply rules_var. Qed.
  Lemma ext_pkg x : x ∈ lits → ∃ p, p ∈ l ∧ Z.abs x = pid p.
  Proof.
    intros Hx. destruct (sn_range _ _ SN x Hx) as (v & Hv%ext_vars & Hr). apply ext_var_pkg in Hv as (q & Hq & ->).
    assert (Hq' := pid_package po l R Hinj q Hq). apply (rep_id_to_package _ _ R) in Hq' as [_ Hq'].
    apply lookup_lt_Some in Hq'. destruct (lookup_lt_is_Some_2 l (Z.to_nat (Z.abs x - 1))) as [p Hp]; [lia|].
    exists p. assert (Hpl : p ∈ l) by (by eapply elem_of_list_lookup_2). split; [done|].
    assert (Hi : id_to_package po (Z.abs x) = Ok p) by (apply (rep_id_to_package _ _ R); split; [lia|done]).
    assert (Hp' := pid_package po l R Hinj p Hpl).
    apply (rep_id_to_package _ _ R) in Hp' as [Hp1 Hp2]. apply (rep_id_to_package _ _ R) in Hi as [Hi1 Hi2].
    assert (Z.to_nat (pid p - 1) = Z.to_nat (Z.abs x - 1)) by (eapply NoDup_lookup; eauto). lia.
  Qed.
  Lemma ext_nonzero x : x ∈ lits → x ≠ 0.
  Proof. intros Hx. destruct (sn_range _ _ SN x Hx) as (v & _ & Hr). lia. Qed.
  Local Notation evalue := (λ v b, ext_value lits v b ext_nonzero (sn_consistent _ _ SN)).
  Lemma ext_solved sol : (∀ i, i ∈ sol ↔ i ∈ lits) → solved po l st (ext_aset lits) sol.
  Proof.
    intros Hsol. split.
    - assert (Hm : model (asg (ext_aset lits)) (clause_lits s)).
      { intros c Hc. destruct (sn_sat _ _ SN c Hc) as (x & Hx & Hl). exists x. split; [done|]. assert (Hz := ext_nonzero x Hl).
        unfold lit_true, asg. destruct (decide (0 < x)).
        - apply bool_decide_eq_true. by apply (evalue x true).
        - apply bool_decide_eq_false. intros E. assert (E' : aset_value (ext_aset lits) (- x) = Some false).
          { apply (evalue (- x) false); [lia|]. by rewrite Z.opp_involutive. }
          congruence. }
      rewrite <-ext_rules. apply (same_models rules s); [done|rewrite ext_rules; exact ext_nonempty|done].
    - intros v Hv. assert (Hv' := Hv). apply ext_var_pkg in Hv' as (q & Hq & ->). pose proof (pid_pos po l R q Hq).
      apply ext_vars in Hv. destruct (sn_total _ _ SN _ Hv) as [Hi|Hi]; eexists; [apply (evalue _ true)|apply (evalue _ false)]; done || lia.
    - intros i. rewrite Hsol. unfold SolveProofs.val. split.
      + intros Hi. destruct (ext_pkg i Hi) as (p & Hp & Ep). exists p. split; [done|]. pose proof (pid_pos po l R p Hp).
        destruct (decide (0 < i)); [left|right]; (split; [lia|]).
        * apply (evalue _ true); [lia|]. by replace (pid p) with i by lia.
        * apply (evalue _ false); [lia|]. by replace (- pid p) with i by lia.
      + intros (p & Hp & [[-> Hv]|[-> Hv]]); pose proof (pid_pos po l R p Hp);
          [by apply (evalue _ true) in Hv; [|lia]|by apply (evalue _ false) in Hv; [|lia]].
  Qed.
End ext.

(** ** The whole way *)
Lemma external_open vstr e remotes inst fuel rq ms text : export vstr e remotes inst fuel rq = Ok (Normal text) →
  ∃ po ids rules uenv ust s, pool_of (remotes ++ [inst]) None = Ok po ∧
    create_rules e po inst false fuel rq = Ok (ids, rules, uenv, ust) ∧ from_rules rules = Ok (Normal s) ∧
    text = str_join nl_str (to_dimacs vstr po (clause_lits s)) ∧
    external_solve vstr e remotes inst fuel rq ms =
      (sol ← read_solution (ms text);
       match sol with
       | None => Ok (Normal None)
       | Some k => t ← from_dimacs_solution e po fuel inst ids k; Ok (Normal (Some t))
       end).
Proof.
  intros H. destruct (export_open _ _ _ _ _ _ _ H) as (po & ids & rules & uenv & ust & so & Hpo & Hc & Hs & Ho).
  destruct so as [s|]; [|done]. injection Ho as ->. exists po, ids, rules, uenv, ust, s. do 4 (split; [done|]).
  unfold external_solve. rewrite Hpo. cbn [mbind res_bind]. rewrite Hc. cbn [mbind res_bind]. rewrite Hs. done.
Qed.

(** The literals of any solution of the exported problem become a transaction; what it leaves installed is a valid installation for the
    jobs of the request.  ([NoDup]: no package occurs twice in the repositories.) *)
Theorem C87_valid : ∀ vstr e remotes inst fuel rq ms text v n cls lits t, env_ok e →
  well_formed (mjoin remotes ++ inst) → NoDup (mjoin remotes ++ inst) → single_names (mjoin remotes ++ inst) →
  same_metadata (mjoin remotes ++ inst) inst → removes_known (mjoin remotes ++ inst) inst (rq_jobs rq) →
  export vstr e remotes inst fuel rq = Ok (Normal text) → read_dimacs text = Some (v, n, cls) →
  solution cls lits → ms text = answer_text lits →
  external_solve vstr e remotes inst fuel rq ms = Ok (Normal (Some t)) →
  valid (mjoin remotes ++ inst) inst no_mods (rq_jobs rq) (after inst (t_ops t)).
Proof.
  intros vstr e remotes inst fuel rq ms text v n cls lits t He Hwf Hnd H1 H3 H2 Hex Hrd SN Hms H.
  destruct (external_open vstr e remotes inst fuel rq ms text Hex) as (po & ids & rules & uenv & ust & s & Hpo & Hc & Hs & -> & Eq).
  rewrite Eq in H. clear Eq. rewrite <-(mjoin_repos remotes inst) in *.
  assert (Hne : lits ≠ []).
  { intros ->. rewrite Hms in H. discriminate H. }
  rewrite Hms, read_answer in H by done. cbn [mbind res_bind] in H.
  destruct (from_dimacs_solution e po fuel inst ids lits) as [t'|] eqn:Et; [|done]. cbn [mbind res_bind] in H. injection H as ->.
  destruct (pool_of_rep _ _ _ Hpo) as [R Hm].
  assert (Hinst : ∀ p, p ∈ inst → p ∈ mjoin (remotes ++ [inst])) by (intros p Hp; rewrite mjoin_repos; apply elem_of_app; by right).
  destruct (create_rules_spec e He po _ R Hwf _ Hinst _ _ _ _ _ _ _ Hc) as (iids & st & PB).
  assert (cls = clause_lits s) as ->.
  { assert (W : wf_cnf (clause_lits s)).
    { intros c x Hc' Hx. assert (Hv : is_var (clause_lits s) (Z.abs x)) by (by exists c, x).
      apply (ext_vars e po _ R Hwf _ Hinst _ _ _ _ _ _ _ _ _ PB s Hs) in Hv.
      eapply ext_var_pkg in Hv as (q & Hq & E); eauto. pose proof (pid_pos po _ R q Hq). lia. }
    destruct (C64_text vstr po _ W) as (v' & Hr & _). congruence. }
  assert (SO := ext_solved e po _ R Hwf inst Hinst _ _ _ _ _ _ _ _ _ PB s Hs lits SN Hnd (e_ord e 4 (list_to_set lits))
    ltac:(intros i; rewrite (e_ord_elem e He); apply elem_of_list_to_set)).
  unfold from_dimacs_solution in Et. apply mbind_ok in Et as (iids' & Hii & Et). rewrite (pids_ok po _ R) in Hii by done.
  injection Hii as <-. apply mbind_ok in Et as (X & HX & Et).
  change (list_to_set (pid po <$> inst)) with (inst_set po inst) in HX, Et. change (e_ord e 3 (inst_set po inst)) with (ilist e po inst) in Et.
  assert (D := decided_pruned e He po _ R Hwf inst Hinst _ _ _ _ _ _ _ _ _ PB _ _ SO X HX).
  unfold mk_transaction in Et. apply mbind_ok in Et as (ops & Hops & Et). apply mbind_ok in Et as (pr & Hpr & [= <-]). cbn [t_ops].
  assert (Hcons : ∀ x, x ∈ e_ord e 2 X → - x ∉ e_ord e 2 X).
  { intros x Hx Hnx. destruct (dc_lits _ _ _ _ _ _ D x Hx) as (p & Hp & [-> | ->]).
    - assert (A1 := dc_pos _ _ _ _ _ _ D p Hp Hx). assert (A2 := dc_neg _ _ _ _ _ _ D p Hp Hnx). congruence.
    - rewrite Z.opp_involutive in Hnx. assert (A1 := dc_pos _ _ _ _ _ _ D p Hp Hnx). assert (A2 := dc_neg _ _ _ _ _ _ D p Hp Hx). congruence. }
  destruct (safe_ops_spec po _ R Hwf _ (dc_lits _ _ _ _ _ _ D) Hcons (ilist e po inst)
    (ilist_ok e He po _ inst Hinst) ops Hops) as (rem & ins & OK).
  assert (Hcn := connected_spec e He po _ R Hwf _ (sol_lit po _ _ _ _ SO) _
    (roots_ok e po _ R Hwf _ Hinst _ _ _ _ _ _ _ _ _ PB) fuel X HX).
  destruct Hcn as (n2i & N & _ & HN & Hn1 & Hn2 & _ & HX').
  assert (V : valid (mjoin (remotes ++ [inst])) inst (sem_mods po) (rq_jobs rq) (after inst ops)).
  { apply (after_valid e He po _ R Hwf _ Hinst _ _ _ _ _ _ _ _ _ PB _ _ SO _ D _ _ _ OK H1) with (n2i := n2i) (N := N); [done|done|done|done| |].
    - intros i. by rewrite (e_ord_elem e He).
    - intros p q Hp Hq [? ?]. by apply H3. }
  eapply valid_mods; [|exact V]. intros nm c w. unfold sem_mods. rewrite Hm. done.
Qed.

(** With acyclic dependencies there is such a transaction for every solution with a literal (the script wants a blank before the final 0). *)
Theorem C87_answers : ∀ vstr e remotes inst fuel rq ms text v n cls lits, env_ok e →
  well_formed (mjoin remotes ++ inst) → NoDup (mjoin remotes ++ inst) → single_names (mjoin remotes ++ inst) →
  one_version (λ p, p ∈ inst) → removes_known (mjoin remotes ++ inst) inst (rq_jobs rq) →
  (∀ p, p ∈ mjoin remotes ++ inst → interpretable no_mods p) → acyclic (mjoin remotes ++ inst) no_mods →
  (List.length (mjoin remotes ++ inst) < fuel)%nat →
  export vstr e remotes inst fuel rq = Ok (Normal text) → read_dimacs text = Some (v, n, cls) →
  solution cls lits → lits ≠ [] → ms text = answer_text lits →
  ∃ t, external_solve vstr e remotes inst fuel rq ms = Ok (Normal (Some t)).
Proof.
  intros vstr e remotes inst fuel rq ms text v n cls lits He Hwf Hnd H1 Hone H2 Hint Hac Hfuel Hex Hrd SN Hne Hms.
  destruct (external_open vstr e remotes inst fuel rq ms text Hex) as (po & ids & rules & uenv & ust & s & Hpo & Hc & Hs & -> & Eq).
  rewrite Eq. clear Eq. rewrite <-(mjoin_repos remotes inst) in *.
  rewrite Hms, read_answer by done. cbn [mbind res_bind].
  destruct (pool_of_rep _ _ _ Hpo) as [R Hm].
  assert (Hinst : ∀ p, p ∈ inst → p ∈ mjoin (remotes ++ [inst])) by (intros p Hp; rewrite mjoin_repos; apply elem_of_app; by right).
  destruct (create_rules_spec e He po _ R Hwf _ Hinst _ _ _ _ _ _ _ Hc) as (iids & st & PB).
  assert (cls = clause_lits s) as ->.
  { assert (W : wf_cnf (clause_lits s)).
    { intros c x Hc' Hx. assert (Hv : is_var (clause_lits s) (Z.abs x)) by (by exists c, x).
      apply (ext_vars e po _ R Hwf _ Hinst _ _ _ _ _ _ _ _ _ PB s Hs) in Hv.
      eapply ext_var_pkg in Hv as (q & Hq & E); eauto. pose proof (pid_pos po _ R q Hq). lia. }
    destruct (C64_text vstr po _ W) as (v' & Hr & _). congruence. }
  assert (SO := ext_solved e po _ R Hwf inst Hinst _ _ _ _ _ _ _ _ _ PB s Hs lits SN Hnd (e_ord e 4 (list_to_set lits))
    ltac:(intros i; rewrite (e_ord_elem e He); apply elem_of_list_to_set)).
  destruct (transaction_total e He po _ R Hwf _ Hinst _ _ _ _ _ _ _ _ _ PB _ _ SO H1) as (X & t & HX & Ht).
  - done.
  - done.
  - intros p d Hp Hd. exact (proj1 (Hint p Hp) d Hd).
  - done.
  - unfold sem_mods. by rewrite Hm.
  - exists t. unfold from_dimacs_solution. rewrite (pids_ok po _ R) by done. cbn [mbind res_bind].
    change (list_to_set (pid po <$> inst)) with (inst_set po inst). rewrite HX. cbn [mbind res_bind].
    change (e_ord e 3 (inst_set po inst)) with (ilist e po inst). rewrite Ht. done.
Qed.

(** A solution exists exactly if there is a valid installation. *)
Lemma solution_sat cls lits : solution cls lits → satisfiable cls.
Proof.
  intros SN. exists (λ v, bool_decide (v ∈ lits)). intros c Hc. destruct (sn_sat _ _ SN c Hc) as (x & Hx & Hl). exists x. split; [done|].
  unfold lit_true. destruct (decide (0 < x)); [by apply bool_decide_eq_true|]. apply bool_decide_eq_false. by apply (sn_consistent _ _ SN).
Qed.
(** A correct solver says SAT exactly if there is a valid installation.  If it says UNSAT the script fails with ValueError: it wants a
    second line. *)
Theorem C87_unsat : ∀ vstr e remotes inst fuel rq ms text, correct_solver ms →
  well_formed (mjoin remotes ++ inst) → export vstr e remotes inst fuel rq = Ok (Normal text) →
  ((ms text).1 = 10 ↔ ∃ S, valid (mjoin remotes ++ inst) inst no_mods (rq_jobs rq) S) ∧
  ((¬ ∃ S, valid (mjoin remotes ++ inst) inst no_mods (rq_jobs rq) S) →
     external_solve vstr e remotes inst fuel rq (λ x, (ms x).2) = Raise ValueError).
Proof.
  intros vstr e remotes inst fuel rq ms text Hms Hwf H.
  destruct (C64_export _ _ _ _ _ _ _ Hwf H) as (po & v & n & cls & _ & Hr & _).
  destruct (C64_satisfiable _ _ _ _ _ _ _ _ _ _ Hwf H Hr) as [S1 S2].
  destruct (external_open vstr e remotes inst fuel rq (λ x, (ms x).2) text H) as (po' & ids & rules & uenv & ust & s & _ & _ & _ & _ & Eq).
  rewrite Eq. clear Eq. destruct (Hms _ _ _ _ Hr) as [(lits & SN & E)|[Hu E]]; rewrite E; cbn [fst snd].
  - assert (HS := S1 (solution_sat _ _ SN)). split; [done|]. intros []. exact HS.
  - split; [|by rewrite read_unsat]. split; [done|]. intros HS. destruct (S2 Hu HS).
Qed.

(** The helpers in tools: the literals of a solution are read back, and the answer is whether there is a valid installation. *)
Theorem C87_tools : ∀ repos m inst strict fuel jobs po st ms, generates repos m inst strict fuel jobs po st →
  well_formed (mjoin repos) → correct_solver ms →
  is_satisfable po (rules_of st) ms = Ok true ∧
    (∃ S, valid (mjoin repos) inst (default no_mods m) jobs S) ∧
    (∃ lits, solve_sat po (rules_of st) ms = Ok lits ∧ solution (rules_of st) lits) ∨
  is_satisfable po (rules_of st) ms = Ok false ∧
    (¬ ∃ S, valid (mjoin repos) inst (default no_mods m) jobs S) ∧
    solve_sat po (rules_of st) ms = Raise AssertionError.
Proof.
  intros repos m inst strict fuel jobs po st ms Hg Hwf Hms.
  destruct (C64_tools _ _ _ _ _ _ _ _ Hg Hwf) as ([[v n] cls] & Hr & Hcls & _). cbn in Hcls. subst cls.
  unfold is_satisfable, solve_sat. destruct (Hms _ _ _ _ Hr) as [(lits & SN & E)|[Hu E]]; rewrite E; [left|right].
  - split; [done|]. split.
    + destruct (solution_sat _ _ SN) as (f & Hf). destruct (C19_consistent _ _ _ _ _ _ _ _ f Hg Hwf Hf) as (_ & _ & V). eauto.
    + exists lits. split; [|done]. rewrite decide_True by done. apply tools_answer.
  - split; [done|]. split; [|done]. by eapply C15_rules.
Qed.

(** The helpers believe nothing else: not another exit code (whatever was written), and not a file that does not begin with the line SAT. *)
Lemma readline_end s : ∀ h r, readline s = (h, r) → s = h +:+ r.
Proof.
  induction s as [|c s IH]; intros h r E; cbn in E; [by injection E as <- <-|].
  case_decide as Hc; [injection E as <- <-; by rewrite Hc|].
  destruct (readline s) as [l k]. injection E as <- <-. cbn. change (String c s = String c (l +:+ k)); f_equal; by apply IH.
Qed.
Theorem C87_refused : ∀ po rules ms, let answer := ms (rules_set_to_dimacs po rules) in
  (answer.1 ≠ 10 → solve_sat po rules ms = Raise AssertionError) ∧
  (answer.1 ≠ 10 → answer.1 ≠ 20 → is_satisfable po rules ms = Raise AssertionError) ∧
  ((¬ ∃ r, answer.2 = "SAT" +:+ newline +:+ r) → solve_sat po rules ms = Raise AssertionError) ∧
  (∀ lits, solve_sat po rules ms = Ok lits → answer.1 = 10 ∧ ∃ r, answer.2 = "SAT" +:+ newline +:+ r).
Proof.
  intros po rules ms. cbn zeta. unfold solve_sat, is_satisfable. destruct (ms _) as [code fp]. cbn [fst snd].
  assert (Hh : (¬ ∃ r, fp = "SAT" +:+ newline +:+ r) → solution_to_package_strings fp = Raise AssertionError).
  { intros Hn. unfold solution_to_package_strings. destruct (readline fp) as [h r] eqn:E. apply decide_False. intros ->.
    apply Hn. exists r. by apply readline_end in E. }
  split; [|split; [|split]].
  - intros Hc. by rewrite decide_False.
  - intros H1 H2. rewrite decide_False; [done|]. by intros [?|?].
  - intros Hn. destruct (decide (code = 10)); [by apply Hh|done].
  - intros lits. destruct (decide (code = 10)) as [->|]; [|done]. intros E. split; [done|].
    unfold solution_to_package_strings in E. destruct (readline fp) as [h r] eqn:Er. case_decide as Hc; [|done].
    exists r. rewrite Hc in Er. by apply readline_end in Er.
Qed.

(** There are correct solvers: try all signs. *)
Fixpoint signs (vs : list Z) : list (list Z) :=
  match vs with [] => [[]] | v :: r => k ← signs r; [v :: k; - v :: k] end.
Definition brute_vars (cls : list (list Z)) : list Z := fromkeys (Z.abs <$> mjoin cls).
Definition brute (cls : list (list Z)) : option (list Z) :=
  head (filter (λ k, Forall (λ c, Exists (λ x, x ∈ k) c) cls) (signs (brute_vars cls))).
Definition brute_solver (text : string) : Z * string :=
  match read_dimacs text with
  | Some (_, _, cls) => match brute cls with Some k => (10, answer_text k) | None => (20, "UNSAT" +:+ newline) end
  | None => (1, "")
  end.
Lemma signs_spec vs k : k ∈ signs vs → NoDup vs → (∀ v, v ∈ vs → 0 < v) →
  (∀ x, x ∈ k → Z.abs x ∈ vs) ∧ (∀ x, x ∈ k → - x ∉ k) ∧ (∀ v, v ∈ vs → v ∈ k ∨ - v ∈ k).
Proof.
  revert k. induction vs as [|v vs IH]; intros k Hk Hnd Hpos.
  - apply elem_of_list_singleton in Hk as ->. split; [|split]; intros x Hx; by apply elem_of_nil in Hx.
  - apply elem_of_list_bind in Hk as (k' & Hk & Hk'). apply NoDup_cons in Hnd as [Hv Hnd].
    destruct (IH k' Hk' Hnd) as (I1 & I2 & I3); [intros; apply Hpos; by right|]. assert (0 < v) by (apply Hpos; left).
    assert (Hn : ∀ x, x ∈ k' → Z.abs x ≠ v) by (intros x Hx <-; by apply Hv, I1).
    assert (∃ y, k = y :: k' ∧ Z.abs y = v) as (y & -> & Hy).
    { apply elem_of_cons in Hk as [->|Hk]; [exists v; split; [done|lia]|]. apply elem_of_list_singleton in Hk as ->. exists (- v). split; [done|lia]. }
    split; [|split].
    + intros x [->|Hx]%elem_of_cons; [rewrite Hy; left|right; by apply I1].
    + intros x [->|Hx]%elem_of_cons [E|Hm]%elem_of_cons; [lia|by apply Hn in Hm; lia|apply Hn in Hx; lia|by apply (I2 x)].
    + intros w [->|Hw]%elem_of_cons.
      * destruct (decide (0 < y)); [left|right]; apply elem_of_cons; left; lia.
      * destruct (I3 w Hw); [left|right]; by right.
Qed.
Lemma signs_all vs f : ∃ k, k ∈ signs vs ∧ k = (λ v, if f v : bool then v else - v) <$> vs.
Proof.
  induction vs as [|v vs (k & Hk & ->)]; [exists []; split; [left|done]|]. eexists. split; [|done].
  apply elem_of_list_bind. eexists. split; [|exact Hk]. cbn [fmap list_fmap]. destruct (f v); [left|right; left].
Qed.
Lemma cut_nonzero ns : ∀ acc cls, (∀ x, x ∈ acc → x ≠ 0) → cut_zeros acc ns = Some cls → wf_cnf cls.
Proof.
  induction ns as [|z ns IH]; intros acc cls Ha; cbn [cut_zeros].
  - case_decide; [|done]. intros [= <-]. intros c x Hc. by apply elem_of_nil in Hc.
  - case_decide as Hz.
    + destruct (cut_zeros [] ns) as [cs|] eqn:E; [|done]. cbn. intros [= <-]. apply IH in E; [|by intros x Hx%elem_of_nil].
      intros c x [->|Hc]%elem_of_cons Hx; [rewrite elem_of_reverse in Hx; by apply Ha|by apply (E c)].
    + apply IH. intros x [->|Hx]%elem_of_cons; auto.
Qed.
Lemma read_nonzero text v n cls : read_dimacs text = Some (v, n, cls) → wf_cnf cls.
Proof.
  unfold read_dimacs. destruct (filter _ _) as [|h body]; [done|]. destruct (read_header h) as [[v' n']|]; [|done].
  destruct (mapM read_int _) as [ns|]; [|done]. destruct (cut_zeros [] ns) as [cs|] eqn:E; [|done]. cbn. intros [= _ _ <-].
  by eapply cut_nonzero; [|exact E]; intros x Hx%elem_of_nil.
Qed.
Theorem C87_solver_exists : correct_solver brute_solver.
Proof.
  intros text v n cls Hr. assert (W := read_nonzero _ _ _ _ Hr). unfold brute_solver. rewrite Hr.
  assert (Hvs : ∀ x, x ∈ brute_vars cls ↔ is_var cls x).
  { intros x. unfold brute_vars. rewrite fromkeys_elem, elem_of_list_fmap. split.
    - intros (y & -> & (c & Hy & Hc)%elem_of_list_join). by exists c, y.
    - intros (c & y & Hc & Hy & ->). exists y. split; [done|]. apply elem_of_list_join. eauto. }
  assert (Hpos : ∀ x, x ∈ brute_vars cls → 0 < x) by (intros x (c & y & Hc & Hy & ->)%Hvs; specialize (W c y Hc Hy); lia).
  unfold brute. destruct (filter _ _) as [|k ks] eqn:Ef; cbn [head].
  - right. split; [|done]. intros (f & Hf). destruct (signs_all (brute_vars cls) f) as (k & Hk & Ek).
    assert (k ∈ []) as Hn; [|by apply elem_of_nil in Hn]. rewrite <-Ef. apply elem_of_list_filter. split; [|done].
    apply Forall_forall. intros c Hc. destruct (Hf c Hc) as (x & Hx & Ht). apply Exists_exists. exists x. split; [done|].
    rewrite Ek. apply elem_of_list_fmap. exists (Z.abs x). split; [|apply Hvs; by exists c, x].
    specialize (W c x Hc Hx). unfold lit_true in Ht. destruct (decide (0 < x)).
    + by rewrite Z.abs_eq, Ht by lia.
    + rewrite Z.abs_neq, Ht by lia. lia.
  - left. exists k. split; [|done]. assert (k ∈ k :: ks) as Hk by left. rewrite <-Ef in Hk. apply elem_of_list_filter in Hk as [Hs Hk].
    destruct (signs_spec _ k Hk (SatLearn.NoDup_fromkeys _) Hpos) as (S1 & S2 & S3). split.
    + intros x Hx. exists (Z.abs x). split; [by apply Hvs, S1|]. specialize (Hpos _ (S1 x Hx)). lia.
    + done.
    + intros x Hx%Hvs. by apply S3.
    + intros c Hc. rewrite Forall_forall in Hs. specialize (Hs c Hc). by apply Exists_exists in Hs.
Qed.

(** ** A run that meets all hypotheses, with the solver above *)
Theorem C87_example : well_formed (mjoin [ex_remote] ++ ex_installed) ∧ NoDup (mjoin [ex_remote] ++ ex_installed) ∧
  single_names (mjoin [ex_remote] ++ ex_installed) ∧ same_metadata (mjoin [ex_remote] ++ ex_installed) ex_installed ∧
  one_version (λ p, p ∈ ex_installed) ∧ removes_known (mjoin [ex_remote] ++ ex_installed) ex_installed (rq_jobs ex_request) ∧
  (∀ p, p ∈ mjoin [ex_remote] ++ ex_installed → interpretable no_mods p) ∧ acyclic (mjoin [ex_remote] ++ ex_installed) no_mods ∧
  (List.length (mjoin [ex_remote] ++ ex_installed) < 60)%nat ∧
  (∃ text, export ex_vstr env0 [ex_remote] ex_installed 60 ex_request = Ok (Normal text) ∧
    ∃ lits, brute_solver text = (10, answer_text lits) ∧ lits ≠ []) ∧
  ∃ t, external_solve ex_vstr env0 [ex_remote] ex_installed 60 ex_request (λ x, (brute_solver x).2) = Ok (Normal (Some t)) ∧ t_ops t = ex_ops.
Proof.
  split; [by apply well_formed_check|]. split; [apply (bool_decide_unpack _); vm_compute; exact I|]. split; [run|]. split; [run|]. split; [run|]. split; [run|].
  split; [apply interp_b_spec; vm_compute; reflexivity|]. split; [apply (ranked_b_spec ex_rank); vm_compute; reflexivity|].
  split; [apply (bool_decide_unpack _); vm_compute; exact I|]. split.
  - eexists. split; [vm_compute; reflexivity|]. exists [-1; -3; 4; -5; -8; 2; -7; -9; 6; 10]. split; [|done]. vm_compute. reflexivity.
  - eexists. split; [vm_compute; reflexivity|reflexivity].
Qed.

(** ** Limits *)
Local Notation inst_pkg n v rq cf pv := (Pkg n (V v 0) rq cf pv (Some "i")).
Local Notation rem_pkg n v rq cf pv := (Pkg n (V v 0) rq cf pv (Some "r")).
Definition c87_remote : list package := [rem_pkg "a" 1 [("b", [])] [] []].
Definition c87_inst : list package := [inst_pkg "z" 1 [] [] []; inst_pkg "b" 1 [] [] []].
Definition c87_ds : dep_solver := ds0 [c87_remote; c87_inst] [c87_remote] c87_inst true false.
Definition c87_text : string := str_join nl_str
  ["c KEY"; "c {""1"": ""a 1-0"", ""2"": ""z 1-0"", ""3"": ""b 1-0""}"; "p cnf 2 2"; "-1 3 0"; "1 0"].
(** No rule is about z, so a SAT solver may give 2 any value, and a program like minisat prints one: the script then removes z, which
    nobody asked for and solve would not do. *)
Theorem C87_keeps_refuted : 
  well_formed (mjoin [c87_remote] ++ c87_inst) ∧ NoDup (mjoin [c87_remote] ++ c87_inst) ∧ single_names (mjoin [c87_remote] ++ c87_inst) ∧
  same_metadata (mjoin [c87_remote] ++ c87_inst) c87_inst ∧ removes_known (mjoin [c87_remote] ++ c87_inst) c87_inst [want "a"] ∧
  export ex_vstr env0 [c87_remote] c87_inst 60 (ask [want "a"]) = Ok (Normal c87_text) ∧
  read_dimacs c87_text = Some (2, 2, [[-1; 3]; [1]]) ∧ solution [[-1; 3]; [1]] [1; -2; 3] ∧
  (∃ t, external_solve ex_vstr env0 [c87_remote] c87_inst 60 (ask [want "a"]) (λ _, answer_text [1; -2; 3]) = Ok (Normal (Some t)) ∧
        t_ops t = [RemoveOp (inst_pkg "z" 1 [] [] []); InstallOp (rem_pkg "a" 1 [("b", [])] [] [])]) ∧
  (∃ t, solve env0 c87_ds 60 (ask [want "a"]) = Ok (Normal t) ∧ t_ops t = [InstallOp (rem_pkg "a" 1 [("b", [])] [] [])]).
Proof.
  split; [by apply well_formed_check|]. split; [by apply (bool_decide_unpack _)|]. split; [run|]. split; [run|]. split; [run|].
  split; [vm_compute; reflexivity|]. split; [vm_compute; reflexivity|]. split; [|split; [|run]].
  - split.
    + intros x Hx. exists 3. split; [exists [-1; 3], 3; split; [left|]; split; [right; left|done]|].
      repeat (apply elem_of_cons in Hx as [->|Hx]; [lia|]). by apply elem_of_nil in Hx.
    + intros x Hx. repeat (apply elem_of_cons in Hx as [->|Hx]; [by apply (bool_decide_unpack _)|]). by apply elem_of_nil in Hx.
    + intros v (c & x & Hc & Hx & ->).
      repeat (apply elem_of_cons in Hc as [->|Hc]; [repeat (apply elem_of_cons in Hx as [->|Hx]; [left; by apply (bool_decide_unpack _)|]); by apply elem_of_nil in Hx|]).
      by apply elem_of_nil in Hc.
    + intros c Hc. repeat (apply elem_of_cons in Hc as [->|Hc]; [|]); [exists 3|exists 1|by apply elem_of_nil in Hc]; split; by apply (bool_decide_unpack _).
  - eexists. split; [vm_compute; reflexivity|reflexivity].
Qed.
Print Assumptions C87_valid. Print Assumptions C87_answers. Print Assumptions C87_unsat. Print Assumptions C87_tools. Print Assumptions C87_refused. Print Assumptions C87_solver_exists. Print Assumptions C87_keeps_refuted. Print Assumptions C87_example.
