(** * Properties C13-C16, C23, C43-C45: what solve promises. *)
From Verif Require Import PoolProofs PropPool PropConstraints SpecSat ConstraintProofs PropRules SatLearn RepositoryProofs.
From Verif Require Export SolveMain.

Section use.
  Context (e : env) (He : env_ok e) (repos : list (list package)) (ds : dep_solver) (Hset : setting repos ds).
  Local Notation l := (mjoin repos).
  Local Notation inst := (ds_installed ds).
  Context (fuel : nat) (rq : request) (jobs : list job) (Hask : asks ds rq jobs).
  Context (t : transaction) (Hsolve : solve e ds fuel rq = Ok (Normal t)).
  Local Notation m := (rq_mods rq).
  Let Hinst := sv_installed repos ds Hset.
  Let Hinj := sv_keys repos ds Hset.

  (** What the lemmas of FinalProofs.v need. *)
  Record found (po : pool) (jobs' : list job) (ids : list Z) (rules : list rule) (uenv : uc_env) (ust : uc_state)
      (iids : list (Z * package)) (st : gst) (a : aset) (dec : list Z) (rem ins : list package) : Prop := {
    fd_rep : pool_rep po l;
    fd_mods : ∀ n c v, relaxed (sem_mods po) n c v ↔ relaxed m n c v;
    fd_jobs : ∀ j, j ∈ jobs' ↔ j ∈ jobs;
    fd_pb : problem e po l inst (ds_strict ds) fuel jobs' ids rules uenv ust iids st;
    fd_run : solve_clauses (logged_policy (uc_policy uenv)) fuel (ust, [], []) (rule_clauses rules) = Ok (Normal a);
    fd_dec : decided po l inst jobs' a dec;
    fd_conn : ds_pruning ds = true → ∃ X,
      connected_packages e po fuel (solution_to_ids a) (inst_set po inst ∪ list_to_set ids) = Ok X ∧ dec = e_ord e 2 X;
    fd_full : ds_pruning ds = false → dec = solution_to_ids a;
    fd_ops : ops_ok po l dec (ilist e po inst) (t_ops t) rem ins;
    fd_pretty : pretty_operations po (t_ops t) = Ok (t_pretty t) }.
  Lemma solve_found : ∃ po jobs' ids rules uenv ust iids st a dec rem ins,
    found po jobs' ids rules uenv ust iids st a dec rem ins.
  Proof.
    destruct (solve_open _ _ _ _ _ _ _ He Hset Hask Hsolve) as (po & jobs' & ids & rules & uenv & ust & iids & st & [R Hm Hj PB (a & dec & Hrun & Hd & Ht)]).
    assert (D : decided po l inst jobs' a dec).
    { destruct (ds_pruning ds).
      - destruct Hd as (X & HX & ->). eapply decided_pruned; eauto.
      - subst dec. eapply decided_all; eauto. }
    unfold mk_transaction in Ht. apply mbind_ok in Ht as (ops & Hops & Ht). apply mbind_ok in Ht as (pr & Hpr & [= Et]).
    assert (Hcons : ∀ x, x ∈ dec → - x ∉ dec).
    { intros x Hx Hnx. destruct (dc_lits _ _ _ _ _ _ D x Hx) as (p & Hp & [-> | ->]).
      - assert (H1 := dc_pos _ _ _ _ _ _ D p Hp Hx). assert (H2 := dc_neg _ _ _ _ _ _ D p Hp Hnx). congruence.
      - rewrite Z.opp_involutive in Hnx. assert (H1 := dc_pos _ _ _ _ _ _ D p Hp Hnx). assert (H2 := dc_neg _ _ _ _ _ _ D p Hp Hx). congruence. }
    destruct (safe_ops_spec po l R Hinj dec (dc_lits _ _ _ _ _ _ D) Hcons (ilist e po inst)
      (ilist_ok e He po l inst Hinst) ops Hops) as (rem & ins & OK).
    exists po, jobs', ids, rules, uenv, ust, iids, st, a, dec, rem, ins. split; try done.
    - intros Hp. by rewrite Hp in Hd.
    - intros Hp. by rewrite Hp in Hd.
    - by rewrite <-Et.
    - by rewrite <-Et.
  Qed.
  Lemma to_mods po jobs' S : (∀ n c v, relaxed (sem_mods po) n c v ↔ relaxed m n c v) → (∀ j, j ∈ jobs' ↔ j ∈ jobs) →
    valid l inst m jobs S ↔ valid l inst (sem_mods po) jobs' S.
  Proof.
    intros Hm Hj. split; intros V.
    - eapply valid_mods; [|eapply valid_jobs; [|exact V]]; [intros; symmetry; apply Hm|intros; by apply Hj].
    - eapply valid_mods; [|eapply valid_jobs; [|exact V]]; [apply Hm|intros; by apply Hj].
  Qed.
End use.

Ltac open_found H :=
  let po := fresh "po" in let jobs' := fresh "jobs'" in let F := fresh "F" in
  let ids := fresh "ids" in let rules := fresh "rules" in let uenv := fresh "uenv" in let ust := fresh "ust" in let iids := fresh "iids" in
  let st := fresh "st" in let a := fresh "a" in let dec := fresh "dec" in let rem := fresh "rem" in let ins := fresh "ins" in
  destruct H as (po & jobs' & ids & rules & uenv & ust & iids & st & a & dec & rem & ins & F);
  destruct F as [R Hm Hj PB Hrun D Hconn Hfull OK Hpretty].

(** ** C15: SatisfiabilityError means that there is no valid installation. *)
Theorem C15_unsat : ∀ e repos ds fuel rq jobs c k s, env_ok e → setting repos ds → asks ds rq jobs →
  solve e ds fuel rq = Ok (Unsat c k s) →
  ¬ ∃ S, valid (mjoin repos) (ds_installed ds) (rq_mods rq) jobs S.
Proof.
  intros e repos ds fuel rq jobs c k s He Hset Hask H (S & V).
  destruct (solve_open _ _ _ _ _ _ _ He Hset Hask H) as (po & jobs' & ids & rules & uenv & ust & iids & st & [R Hm Hj PB Hout]).
  eapply (run_unsat_valid e He po _ R (sv_keys _ _ Hset) _ (sv_installed _ _ Hset)); [exact PB|exact Hout|].
  exists S. by apply (to_mods repos ds rq jobs po jobs').
Qed.

(** Conversely a transaction is only returned if there is one. *)
Theorem C15_sat : ∀ e repos ds fuel rq jobs t, env_ok e → setting repos ds → asks ds rq jobs →
  solve e ds fuel rq = Ok (Normal t) →
  ∃ S, valid (mjoin repos) (ds_installed ds) (rq_mods rq) jobs S.
Proof.
  intros e repos ds fuel rq jobs t He Hset Hask H. assert (Hf := solve_found _ He _ _ Hset _ _ _ Hask _ H). open_found Hf.
  exists (E po (mjoin repos) (ds_installed ds) st a). apply (to_mods repos ds rq jobs po jobs'); [done|done|].
  eapply E_valid; eauto using sv_keys, sv_installed.
Qed.

(** ** C13: installed packages are kept whenever that is possible. *)
(** Whatever valid installation [S] keeps at least the installed packages the solver keeps (not counting
    those a soft update allows to change) keeps no other installed one. *)
Theorem C13_maximal : ∀ e repos ds fuel rq jobs t S p, env_ok e → setting repos ds → asks ds rq jobs →
  solve e ds fuel rq = Ok (Normal t) →
  valid (mjoin repos) (ds_installed ds) (rq_mods rq) jobs S →
  (∀ q, q ∈ ds_installed ds → ¬ soft jobs q → RemoveOp q ∉ t_ops t → S q) →
  p ∈ ds_installed ds → ¬ soft jobs p → S p → RemoveOp p ∉ t_ops t.
Proof.
  intros e repos ds fuel rq jobs t S p He Hset Hask H V HS Hp Hs HSp. assert (Hf := solve_found _ He _ _ Hset _ _ _ Hask _ H). open_found Hf.
  assert (Hsoft : ∀ q, soft jobs' q ↔ soft jobs q) by (intros q; split; apply soft_jobs; intros; by apply Hj).
  apply (keeps e He po _ R (sv_keys _ _ Hset) _ (sv_installed _ _ Hset) _ _ _ _ _ _ _ _ _ PB _ _ D _ _ _ OK _ Hrun S p); [by apply (to_mods repos ds rq jobs po jobs')| |done|by rewrite Hsoft|done].
  intros q Hq Hns [[_ ?]|Hi]; [apply HS; [done|by rewrite <-Hsoft|done]|].
  exfalso. apply (install_val e He po _ R (sv_keys _ _ Hset) _ (sv_installed _ _ Hset) _ _ _ D _ _ _ OK) in Hi as (_ & ? & _). done.
Qed.
(** If everything installed can be kept, nothing is removed. *)
Theorem C13_all_kept : ∀ e repos ds fuel rq jobs t S, env_ok e → setting repos ds → asks ds rq jobs →
  solve e ds fuel rq = Ok (Normal t) →
  valid (mjoin repos) (ds_installed ds) (rq_mods rq) jobs S →
  (∀ q, q ∈ ds_installed ds → ¬ soft jobs q → S q) →
  ∀ p, p ∈ ds_installed ds → ¬ soft jobs p → RemoveOp p ∉ t_ops t.
Proof. intros e repos ds fuel rq jobs t S He Hset Hask H V HS p Hp Hs. eapply C13_maximal; eauto. Qed.

(** ** C14: the newest acceptable version is chosen. *)
(** A candidate of the request is present if there is a valid installation with it that has everything
    the solver kept of what is installed and every other candidate, not older than it, the solver took. *)
Theorem C14_newest : ∀ e repos ds fuel rq jobs t S p, env_ok e → setting repos ds → asks ds rq jobs →
  solve e ds fuel rq = Ok (Normal t) →
  valid (mjoin repos) (ds_installed ds) (rq_mods rq) jobs S →
  (∃ j, j ∈ jobs ∧ job_about (mjoin repos) (ds_installed ds) j p) → S p →
  (∀ q, q ∈ ds_installed ds → ¬ soft jobs q → RemoveOp q ∉ t_ops t → S q) →
  (∀ j q, j ∈ jobs → job_about (mjoin repos) (ds_installed ds) j q → ¬ vlt (p_version q) (p_version p) →
          present (ds_installed ds) (t_ops t) q → S q) →
  present (ds_installed ds) (t_ops t) p.
Proof.
  intros e repos ds fuel rq jobs t S p He Hset Hask H V (j & Hjin & Hab) HSp HS1 HS2.
  assert (Hf := solve_found _ He _ _ Hset _ _ _ Hask _ H). open_found Hf.
  assert (Hsoft : ∀ q, soft jobs' q ↔ soft jobs q) by (intros q; split; apply soft_jobs; intros; by apply Hj).
  apply (newest e He po _ R (sv_keys _ _ Hset) _ (sv_installed _ _ Hset) _ _ _ _ _ _ _ _ _ PB _ _ (run_solved e He po _ R (sv_keys _ _ Hset) _ (sv_installed _ _ Hset) _ _ _ _ _ _ _ _ _ PB _ _ Hrun) _ D _ _ _ OK _ Hrun S p); [..|].
  - by apply (to_mods repos ds rq jobs po jobs').
  - exists j. split; [by apply Hj|done].
  - done.
  - intros q Hq Hns [[_ ?]|Hi]; [apply HS1; [done|by rewrite <-Hsoft|done]|].
    exfalso. apply (install_val e He po _ R (sv_keys _ _ Hset) _ (sv_installed _ _ Hset) _ _ _ D _ _ _ OK) in Hi as (_ & ? & _). done.
  - intros q (j' & Hj' & Hab') Hv Hpr. apply (HS2 j'); [by apply Hj|done..].
Qed.
(** In particular a candidate newer than all others that fits together with all that is installed. *)
Theorem C14_newest_of_all : ∀ e repos ds fuel rq jobs t S p, env_ok e → setting repos ds → asks ds rq jobs →
  solve e ds fuel rq = Ok (Normal t) →
  valid (mjoin repos) (ds_installed ds) (rq_mods rq) jobs S →
  (∃ j, j ∈ jobs ∧ job_about (mjoin repos) (ds_installed ds) j p) → S p →
  (∀ q, q ∈ ds_installed ds → ¬ soft jobs q → S q) →
  (∀ j q, j ∈ jobs → job_about (mjoin repos) (ds_installed ds) j q → q = p ∨ vlt (p_version q) (p_version p)) →
  present (ds_installed ds) (t_ops t) p.
Proof.
  intros e repos ds fuel rq jobs t S p He Hset Hask H V Hab HSp HS1 HS2. eapply C14_newest; eauto.
  intros j q Hj Hq Hv _. destruct (HS2 j q Hj Hq) as [-> |?]; done.
Qed.

(** ** C45: each job is carried out. *)
Theorem C45_install : ∀ e repos ds fuel rq jobs t j r, env_ok e → setting repos ds → asks ds rq jobs →
  solve e ds fuel rq = Ok (Normal t) →
  j ∈ jobs → j_kind j = JInstall ∨ j_kind j = JSoftUpdate → j_req j = Some r →
  ∃ q, q ∈ mjoin repos ∧ req_meets r q ∧ present (ds_installed ds) (t_ops t) q.
Proof.
  intros e repos ds fuel rq jobs t j r He Hset Hask H Hjin Hk Hr. assert (Hf := solve_found _ He _ _ Hset _ _ _ Hask _ H). open_found Hf.
  apply Hj in Hjin. exact (job_install e He po _ R (sv_keys _ _ Hset) _ (sv_installed _ _ Hset) _ _ _ _ _ _ _ _ _ PB _ _ (run_solved e He po _ R (sv_keys _ _ Hset) _ (sv_installed _ _ Hset) _ _ _ _ _ _ _ _ _ PB _ _ Hrun) _ D _ _ _ OK j r Hjin Hk Hr).
Qed.
Theorem C45_hard_update : ∀ e repos ds fuel rq jobs t j r q, env_ok e → setting repos ds → asks ds rq jobs →
  solve e ds fuel rq = Ok (Normal t) →
  j ∈ jobs → j_kind j = JHardUpdate → j_req j = Some r → hard_choice (mjoin repos) (ds_installed ds) r q →
  present (ds_installed ds) (t_ops t) q.
Proof.
  intros e repos ds fuel rq jobs t j r q He Hset Hask H Hjin Hk Hr Hq. assert (Hf := solve_found _ He _ _ Hset _ _ _ Hask _ H). open_found Hf.
  apply Hj in Hjin. exact (job_hard e He po _ R (sv_keys _ _ Hset) _ (sv_installed _ _ Hset) _ _ _ _ _ _ _ _ _ PB _ _ (run_solved e He po _ R (sv_keys _ _ Hset) _ (sv_installed _ _ Hset) _ _ _ _ _ _ _ _ _ PB _ _ Hrun) _ D _ _ _ OK j r q Hjin Hk Hr Hq).
Qed.
(** No candidate of a remove job is present (if a repository's release of an installed package provides
    the same names as the installed one). *)
Theorem C45_remove : ∀ e repos ds fuel rq jobs t j r, env_ok e → setting repos ds → asks ds rq jobs →
  solve e ds fuel rq = Ok (Normal t) →
  (∀ p q, p ∈ ds_installed ds → q ∈ mjoin repos → p_name p = p_name q → p_version p = p_version q →
     p_provides p = p_provides q) →
  j ∈ jobs → j_kind j = JRemove → j_req j = Some r →
  ∀ q, after (ds_installed ds) (t_ops t) q → ¬ req_meets r q.
Proof.
  intros e repos ds fuel rq jobs t j r He Hset Hask H Htw Hjin Hk Hr. assert (Hf := solve_found _ He _ _ Hset _ _ _ Hask _ H). open_found Hf.
  apply Hj in Hjin. apply (job_remove_after e He po _ R (sv_keys _ _ Hset) _ (sv_installed _ _ Hset) _ _ _ _ _ _ _ _ _ PB _ _ (run_solved e He po _ R (sv_keys _ _ Hset) _ (sv_installed _ _ Hset) _ _ _ _ _ _ _ _ _ PB _ _ Hrun) _ D _ _ _ OK j r); [|done..].
  intros p q Hp Hq [? ?]. auto.
Qed.

(** ** C16: the result of solve is a valid installation. *)
Theorem C16_valid : ∀ e repos ds fuel rq jobs t, env_ok e → setting repos ds → asks ds rq jobs →
  ds_pruning ds = true → single_names (mjoin repos) → same_metadata (mjoin repos) (ds_installed ds) →
  removes_known (mjoin repos) (ds_installed ds) jobs →
  solve e ds fuel rq = Ok (Normal t) →
  valid (mjoin repos) (ds_installed ds) (rq_mods rq) jobs (after (ds_installed ds) (t_ops t)).
Proof.
  intros e repos ds fuel rq jobs t He Hset Hask Hpr H1 H3 H2 H. assert (Hf := solve_found _ He _ _ Hset _ _ _ Hask _ H). open_found Hf.
  apply (to_mods repos ds rq jobs po jobs'); [done|done|]. destruct (Hconn Hpr) as (X & HX & ->).
  assert (Hc := connected_spec e He po _ R (sv_keys _ _ Hset) (solution_to_ids a)
    (sol_lit po _ _ _ _ (run_solved e He po _ R (sv_keys _ _ Hset) _ (sv_installed _ _ Hset) _ _ _ _ _ _ _ _ _ PB _ _ Hrun)) _
    (roots_ok e po _ R (sv_keys _ _ Hset) _ (sv_installed _ _ Hset) _ _ _ _ _ _ _ _ _ PB) fuel X HX).
  destruct Hc as (n2i & N & _ & HN & Hn1 & Hn2 & _ & HX').
  apply (after_valid e He po _ R (sv_keys _ _ Hset) _ (sv_installed _ _ Hset) _ _ _ _ _ _ _ _ _ PB _ _ (run_solved e He po _ R (sv_keys _ _ Hset) _ (sv_installed _ _ Hset) _ _ _ _ _ _ _ _ _ PB _ _ Hrun) _ D _ _ _ OK H1) with (n2i := n2i) (N := N); [|done|done|done| |].
  - intros j r Hjin. apply (H2 j r). by apply Hj.
  - intros i. by rewrite (e_ord_elem e He).
  - intros p q Hp Hq [? ?]. by apply H3.
Qed.

(** ** C23: nothing is done if the installed packages are a valid installation for the request. *)
Theorem C23_nothing_to_do : ∀ e repos ds fuel rq jobs t, env_ok e → setting repos ds → asks ds rq jobs →
  ds_pruning ds = true → single_names (mjoin repos) →
  removes_known (mjoin repos) (ds_installed ds) jobs →
  solve e ds fuel rq = Ok (Normal t) →
  valid (mjoin repos) (ds_installed ds) (rq_mods rq) jobs (λ p, p ∈ ds_installed ds) →
  (∀ p, p ∈ ds_installed ds → ¬ soft jobs p) →
  t_ops t = [] ∧ t_pretty t = [].
Proof.
  intros e repos ds fuel rq jobs t He Hset Hask Hpr H1 H2 H V Hso. assert (Hf := solve_found _ He _ _ Hset _ _ _ Hask _ H). open_found Hf.
  destruct (Hconn Hpr) as (X & HX & ->).
  assert (Hc := connected_spec e He po _ R (sv_keys _ _ Hset) (solution_to_ids a)
    (sol_lit po _ _ _ _ (run_solved e He po _ R (sv_keys _ _ Hset) _ (sv_installed _ _ Hset) _ _ _ _ _ _ _ _ _ PB _ _ Hrun)) _
    (roots_ok e po _ R (sv_keys _ _ Hset) _ (sv_installed _ _ Hset) _ _ _ _ _ _ _ _ _ PB) fuel X HX).
  destruct Hc as (n2i & N & _ & HN & Hn1 & Hn2 & _ & HX').
  assert (Hops : t_ops t = []).
  { apply (idle_ops e He po _ R (sv_keys _ _ Hset) _ (sv_installed _ _ Hset) _ _ _ _ _ _ _ _ _ PB _ _ (run_solved e He po _ R (sv_keys _ _ Hset) _ (sv_installed _ _ Hset) _ _ _ _ _ _ _ _ _ PB _ _ Hrun) _ D _ _ _ OK H1) with (n2i := n2i) (N := N); [|done|done|done| | |].
    - intros j r Hjin. apply (H2 j r). by apply Hj.
    - intros i. by rewrite (e_ord_elem e He).
    - by apply (to_mods repos ds rq jobs po jobs').
    - eapply idle_val; [exact He|exact R|exact (sv_keys _ _ Hset)|exact (sv_installed _ _ Hset)|exact PB|by apply (to_mods repos ds rq jobs po jobs')|exact Hrun|].
      intros p Hp Hs. apply (Hso p Hp). eapply soft_jobs; [|exact Hs]. intros; by apply Hj. }
  split; [done|]. rewrite Hops in Hpretty. cbn in Hpretty. by injection Hpretty as <-.
Qed.

(** ** C43: upgrade requests. *)
Definition upgrade_request (rq : request) : Prop := ∃ j, rq_jobs rq = [j] ∧ j_kind j = JUpgrade.
(** Solving an upgrade request is solving the request it stands for. *)
Theorem C43_same_as : ∀ ds rq, upgrade_request rq → ∃ jobs, asks ds rq jobs ∧
  (∀ j, j ∈ jobs → ∃ p v, p ∈ ds_installed ds ∧ newest_remote (ds_remote ds) (p_name p) v ∧
                           j = Job (Some (exactly (p_name p) v)) JInstall) ∧
  (∀ p v, p ∈ ds_installed ds → newest_remote (ds_remote ds) (p_name p) v →
                           Job (Some (exactly (p_name p) v)) JInstall ∈ jobs) ∧
  ∀ e fuel, solve e ds fuel rq = solve e ds fuel (Request (rq_mods rq) jobs).
Proof.
  intros ds rq Hup. destruct (asks_exists ds rq (or_intror Hup)) as (jobs0 & Hask). assert (Ha := Hask).
  destruct Hask as [[Hno _]|[_ Hjobs0]]; [destruct Hup as (j & Ej & Hk); exfalso; apply (Hno j); [rewrite Ej; left|done]|].
  destruct (convert_spec ds rq jobs0 Ha) as (rq' & Erq & Em & Hj').
  assert (Hjobs : ∀ j, j ∈ rq_jobs rq' ↔ ∃ p v, p ∈ ds_installed ds ∧ newest_remote (ds_remote ds) (p_name p) v ∧
                          j = Job (Some (exactly (p_name p) v)) JInstall) by (intros j; by rewrite Hj', Hjobs0).
  exists (rq_jobs rq'). split; [by right|]. split; [intros j; apply Hjobs|]. split; [intros p v Hp Hv; apply Hjobs; eauto|].
  intros e fuel. unfold solve. rewrite Erq.
  assert (E2 : convert_upgrade (Request (rq_mods rq) (rq_jobs rq')) (ds_remote ds) (ds_installed ds) = Ok rq').
  { unfold convert_upgrade. cbn [rq_jobs]. rewrite <-Em. destruct rq' as [m' js]. cbn [rq_jobs rq_mods] in *.
    destruct js as [|j [|? ?]]; [done| |done]. rewrite decide_False; [done|].
    destruct (proj1 (Hjobs j)) as (p & v & _ & _ & ->); [left|done]. }
  rewrite E2. done.
Qed.
(** Afterwards each installed package with remote packages of its name is present in the newest remote
    version (the packages that provide its name being of its name). *)
Theorem C43_upgraded : ∀ e repos ds fuel rq t p v, env_ok e → setting repos ds → upgrade_request rq →
  solve e ds fuel rq = Ok (Normal t) →
  p ∈ ds_installed ds → newest_remote (ds_remote ds) (p_name p) v →
  (∀ q, q ∈ mjoin repos → provides q (p_name p) → p_name q = p_name p) →
  ∃ q, after (ds_installed ds) (t_ops t) q ∧ p_name q = p_name p ∧ p_version q = v.
Proof.
  intros e repos ds fuel rq t p v He Hset Hup H Hp Hv Hpr.
  destruct (C43_same_as ds rq Hup) as (jobs & Hask & _ & Hin & _).
  destruct (C45_install e repos ds fuel rq jobs t _ (exactly (p_name p) v) He Hset Hask H (Hin p v Hp Hv)) as (q & Hq & [Hq1 Hq2] & q' & Hq' & Ha);
    [by left|done|].
  exists q'. split; [done|]. cbn in Hq1. assert (Hn := Hpr q Hq Hq1).
  assert (Hve : p_version q = v) by (specialize (Hq2 (CEqual v)); cbn in Hq2; apply Hq2; left).
  destruct Hq' as [-> |(_ & En & Ev)]; [done|]. by rewrite En, Ev.
Qed.

(** ** C44: upgrade and downgrading. *)
(** If no installed package is newer than the newest remote one of its name, no package is replaced by
    an older version. *)
Theorem C44_no_downgrade : ∀ e repos ds fuel rq t p q, env_ok e → setting repos ds → upgrade_request rq →
  ds_pruning ds = true → single_names (mjoin repos) → same_metadata (mjoin repos) (ds_installed ds) →
  (∀ x, x ∈ mjoin repos → x ∈ ds_installed ds ∨ x ∈ mjoin (ds_remote ds)) →
  solve e ds fuel rq = Ok (Normal t) →
  p ∈ ds_installed ds → (∀ v, newest_remote (ds_remote ds) (p_name p) v → ¬ vlt v (p_version p)) →
  InstallOp q ∈ t_ops t → p_name q = p_name p → ¬ vlt (p_version q) (p_version p).
Proof.
  intros e repos ds fuel rq t p q He Hset Hup Hpr H1 H3 Hrem H Hp Hnew Hq Hn.
  destruct (C43_same_as ds rq Hup) as (jobs & Hask & Honly & _ & _).
  assert (V : valid (mjoin repos) (ds_installed ds) (rq_mods rq) jobs (after (ds_installed ds) (t_ops t))).
  { eapply C16_valid; eauto. intros j r Hj Hk. destruct (Honly j Hj) as (? & ? & _ & _ & ->). done. }
  assert (Hql : q ∈ mjoin (ds_remote ds)).
  { assert (Hf := solve_found _ He _ _ Hset _ _ _ Hask _ H). open_found Hf.
    destruct (install_val e He po _ R (sv_keys _ _ Hset) _ (sv_installed _ _ Hset) _ _ _ D _ _ _ OK q Hq) as (Hl & Hni & _).
    by destruct (Hrem q Hl). }
  assert (∃ v, newest_remote (ds_remote ds) (p_name p) v) as [v Hv].
  { assert (S := latest_spec (ds_remote ds) (p_name p)). destruct (last _) as [z|]; [exists (p_version z); apply S|].
    by destruct (S q Hql). }
  destruct (C43_upgraded e repos ds fuel rq t p v He Hset Hup H Hp Hv) as (z & Hz & Hzn & Hzv).
  { intros x Hx Hpx. apply (H1 x p (p_name p)); [done|by apply (sv_installed _ _ Hset)|done|by left]. }
  assert (q = z) as ->; [|rewrite Hzv; by apply Hnew].
  apply (va_names _ _ _ _ _ V); [by right|done|congruence].
Qed.

(** ** C18: without pruning *)
(** Every package that is needed for the request (C20) or provides an installed name is consistent with
    all that is present. *)
Theorem C18_needed : ∀ e repos ds fuel rq jobs t p, env_ok e → setting repos ds → asks ds rq jobs →
  ds_pruning ds = false → same_metadata (mjoin repos) (ds_installed ds) →
  solve e ds fuel rq = Ok (Normal t) →
  after (ds_installed ds) (t_ops t) p → needed (mjoin repos) (ds_installed ds) (rq_mods rq) jobs p →
  (∀ d, d ∈ p_requires p → ∃ q, after (ds_installed ds) (t_ops t) q ∧ q ≠ p ∧ dep_meets (rq_mods rq) d q) ∧
  (∀ q, after (ds_installed ds) (t_ops t) q → p_name q = p_name p → q = p) ∧
  (∀ d q, d ∈ p_conflicts p → after (ds_installed ds) (t_ops t) q → q ≠ p → ¬ conflict_meets d q).
Proof.
  intros e repos ds fuel rq jobs t p He Hset Hask Hpr H3 H Hp Hneed. assert (Hf := solve_found _ He _ _ Hset _ _ _ Hask _ H). open_found Hf.
  specialize (Hfull Hpr) as ->.
  assert (Hneed' : explored po (mjoin repos) st p).
  { apply (explored_iff e po _ R (sv_keys _ _ Hset) _ (sv_installed _ _ Hset) _ _ _ _ _ _ _ _ _ PB).
    eapply needed_ext; [| |exact Hneed]; [intros n c v; symmetry; apply Hm|intros j ?; by apply Hj]. }
  destruct (full_needed e He po _ R (sv_keys _ _ Hset) _ (sv_installed _ _ Hset) _ _ _ _ _ _ _ _ _ PB _ _ (run_solved e He po _ R (sv_keys _ _ Hset) _ (sv_installed _ _ Hset) _ _ _ _ _ _ _ _ _ PB _ _ Hrun) _ D _ _ _ OK) with (p' := p) as (F1 & F2 & F3).
  - intros q Hq. apply (sol_pos po _ R (sv_keys _ _ Hset) _ _ _ (run_solved e He po _ R (sv_keys _ _ Hset) _ (sv_installed _ _ Hset) _ _ _ _ _ _ _ _ _ PB _ _ Hrun) q Hq).
  - intros x q Hx Hq [? ?]. by apply H3.
  - done.
  - done.
  - split; [|done]. intros d Hd. destruct (F1 d Hd) as (q & Hq & Hne & Hmt). exists q. split; [done|]. split; [done|].
    by apply (dep_meets_mods _ _ Hm).
Qed.
