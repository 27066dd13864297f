(** * Property C72: what the options strict and use_pruning change. *)
From Verif Require Import PoolProofs PropPool PropConstraints SpecSat ConstraintProofs PropRules SatLearn RepositoryProofs.
From Verif Require Export PropSolve.
From Verif Require Import PropLimits SpecCheck.

(** The same solver with another option. *)
Definition with_strict (ds : dep_solver) (b : bool) : dep_solver :=
  DepSolver (ds_pool ds) (ds_remote ds) (ds_installed ds) (ds_pruning ds) b.
Definition with_pruning (ds : dep_solver) (b : bool) : dep_solver :=
  DepSolver (ds_pool ds) (ds_remote ds) (ds_installed ds) b (ds_strict ds).

(** ** strict *)
(** The same outcome, or an exception of strict mode. *)
Definition strict_exn (x : exn) : Prop := x = MissingInstallRequires ∨ x = MissingConflicts ∨ x = TypeError.
Definition stricter {A} (x y : res A) : Prop := x = y ∨ ∃ ex, x = Raise ex ∧ strict_exn ex.
Lemma stricter_refl {A} (x : res A) : stricter x x.
Proof. by left. Qed.
Lemma stricter_bind {A B} (x y : res A) (f g : A → res B) : stricter x y → (∀ v, y = Ok v → stricter (f v) (g v)) → stricter (x ≫= f) (y ≫= g).
Proof. intros [->|(ex & -> & H)] Hf; [|right; by exists ex]. destruct y; [by apply Hf|by left]. Qed.
Lemma stricter_fold {A B} (f g : B → A → res B) xs : (∀ b x, stricter (f b x) (g b x)) → ∀ b, stricter (foldM f xs b) (foldM g xs b).
Proof. intros H. induction xs as [|x xs IH]; intros b; [by left|]. cbn [foldM]. apply stricter_bind; [apply H|]. intros; apply IH. Qed.

Section strict.
  Context (po : pool) (iids : list (Z * package)).
  Lemma strict_check_exn ex reqs : strict_exn ex → stricter (strict_check true ex reqs) (strict_check false ex reqs).
  Proof.
    intros H. cbn. destruct reqs as [rs|]; [|right; exists TypeError; split; [done|right; by right]].
    destruct (length rs =? 1)%nat; [right; by exists ex|by left].
  Qed.
  Lemma requires_strict p reqs ds : ∀ acc st, stricter (requires_rules po true p reqs ds acc st) (requires_rules po false p reqs ds acc st).
  Proof.
    induction ds as [|d ds IH]; intros acc st; [by left|]. cbn [requires_rules].
    apply stricter_bind; [by left|]. intros preq _. apply stricter_bind; [by left|]. intros [|q qs] _.
    - apply stricter_bind; [apply strict_check_exn; by left|]. intros; by left.
    - apply stricter_bind; [by left|]. intros; apply IH.
  Qed.
  Lemma conflicts_strict p reqs st : stricter (conflicts_rules po true p reqs st) (conflicts_rules po false p reqs st).
  Proof.
    apply stricter_bind; [by left|]. intros st1 _. apply stricter_fold. intros st2 d.
    apply stricter_bind; [by left|]. intros preq _. apply stricter_bind; [by left|]. intros qs _.
    apply stricter_bind; [|by left]. destruct qs; [apply strict_check_exn; right; by left|by left].
  Qed.
  Lemma loop_strict fuel : ∀ queue st, stricter (package_rules_loop po true fuel queue st) (package_rules_loop po false fuel queue st).
  Proof.
    induction fuel as [|fuel IH]; intros [|[p reqs] queue] st; try by left. cbn [package_rules_loop].
    apply stricter_bind; [by left|]. intros i _. destruct (decide _); [apply IH|].
    apply stricter_bind; [apply requires_strict|]. intros [st1 more] _. apply stricter_bind; [apply conflicts_strict|]. intros; apply IH.
  Qed.
  Lemma job_strict fuel j st : stricter (job_rules po iids true fuel j st) (job_rules po iids false fuel j st).
  Proof.
    unfold job_rules. destruct (j_kind j), (j_req j) as [r|]; try by left.
    - apply stricter_bind; [by left|]. intros [|p ps] _; [by left|]. apply stricter_bind; [|by left]. apply stricter_fold. intros st1 q.
      apply stricter_bind; [by left|]. intros i _. destruct (decide _); [by left|apply loop_strict].
    - apply stricter_bind; [by left|]. intros [|p ps] _; [by left|]. apply stricter_bind; [|by left]. apply stricter_fold. intros st1 q.
      apply stricter_bind; [by left|]. intros i _. destruct (decide _); [by left|apply loop_strict].
    - apply stricter_bind; [by left|]. intros [|p ps] _; [by left|]. apply stricter_bind; [apply loop_strict|]. by left.
  Qed.
  Lemma iter_strict fuel jobs : stricter (iter_rules po iids true fuel jobs) (iter_rules po iids false fuel jobs).
  Proof.
    apply stricter_bind; [apply stricter_fold; intros; apply job_strict|]. intros st _. apply stricter_fold. intros st1 ip.
    apply stricter_bind; [|intros; apply loop_strict]. apply stricter_fold. intros; apply loop_strict.
  Qed.
End strict.

(** strict=True answers as strict=False does, unless it raises MissingInstallRequires, MissingConflicts or (with installed packages
    with missing dependencies, C21) TypeError. *)
Theorem C72_strict : ∀ e ds fuel rq,
  solve e (with_strict ds true) fuel rq = solve e (with_strict ds false) fuel rq ∨
  ∃ x, solve e (with_strict ds true) fuel rq = Raise x ∧ (x = MissingInstallRequires ∨ x = MissingConflicts ∨ x = TypeError).
Proof.
  intros e ds fuel rq. change (stricter (solve e (with_strict ds true) fuel rq) (solve e (with_strict ds false) fuel rq)).
  apply stricter_bind; [by left|]. intros rq' _. apply stricter_bind.
  - apply stricter_bind; [by left|]. intros [ids so] _. apply stricter_bind; [by left|]. intros iids _. apply stricter_bind; [by left|].
    intros pref _. apply stricter_bind; [apply iter_strict|]. by left.
  - by left.
Qed.
Theorem C72_strict_hint : ∀ e ds fuel rq,
  solve_with_hint e (with_strict ds true) fuel rq = solve_with_hint e (with_strict ds false) fuel rq ∨
  ∃ x, solve_with_hint e (with_strict ds true) fuel rq = Raise x ∧ (x = MissingInstallRequires ∨ x = MissingConflicts ∨ x = TypeError).
Proof.
  intros e ds fuel rq. change (stricter (solve_with_hint e (with_strict ds true) fuel rq) (solve_with_hint e (with_strict ds false) fuel rq)).
  apply stricter_bind; [apply C72_strict|]. intros [t|c k s] _; [by left|]. apply stricter_bind; [by left|]. intros rq' _.
  apply stricter_bind; [|by left].
  assert (C : ∀ jobs, stricter (hint_callback e (with_strict ds true) fuel (rq_mods rq') jobs) (hint_callback e (with_strict ds false) fuel (rq_mods rq') jobs)).
  { intros jobs. apply stricter_bind; [apply C72_strict|]. by left. }
  apply stricter_bind; [apply C|]. intros [] _; [by left|]. generalize (@nil job). generalize (rq_jobs rq').
  generalize fuel at 2 4. intros n. induction n as [|n IH]; intros cl inc; [by left|]. cbn [minimal_unsat].
  destruct (_ =? _)%nat; [by left|]. destruct (DepSolver.split cl) as [a b]. apply stricter_bind; [apply C|]. intros [] _; cbn [negb]; [|apply IH].
  apply stricter_bind; [apply C|]. intros [] _; cbn [negb]; [|apply IH].
  apply stricter_bind; [apply IH|]. intros x _. apply stricter_bind; [apply IH|]. by left.
Qed.

(** ** use_pruning *)
(** Whether there is an answer at all, and the report, are the same. *)
Theorem C72_pruning_unsat : ∀ e ds fuel rq c k s,
  solve e (with_pruning ds true) fuel rq = Ok (Unsat c k s) ↔ solve e (with_pruning ds false) fuel rq = Ok (Unsat c k s).
Proof.
  intros e ds fuel rq c k s. unfold solve. cbn [ds_pool ds_remote ds_installed ds_pruning ds_strict with_pruning].
  destruct (convert_upgrade _ _ _) as [rq'|]; cbn [mbind res_bind]; [|done].
  destruct (create_rules _ _ _ _ _ _) as [[[[ids rules] uenv] ust]|]; cbn [mbind res_bind]; [|done].
  destruct (solve_clauses _ _ _ _) as [[a|c' k' s']|]; cbn [mbind res_bind]; [|done|done].
  split; intros H; exfalso.
  - apply mbind_ok in H as (? & _ & H). apply mbind_ok in H as (? & _ & H). apply mbind_ok in H as (? & _ & H). discriminate H.
  - apply mbind_ok in H as (? & _ & H). apply mbind_ok in H as (? & _ & H). discriminate H.
Qed.
(** Pruning drops installations only. *)
Theorem C72_pruning : ∀ e repos ds fuel rq jobs t t', env_ok e → setting repos ds → asks ds rq jobs →
  single_names (mjoin repos) →
  solve e (with_pruning ds true) fuel rq = Ok (Normal t) → solve e (with_pruning ds false) fuel rq = Ok (Normal t') →
  (∀ p, RemoveOp p ∈ t_ops t ↔ RemoveOp p ∈ t_ops t') ∧ ∀ p, InstallOp p ∈ t_ops t → InstallOp p ∈ t_ops t'.
Proof.
  intros e repos ds fuel rq jobs t t' He [[m0 Hpool] Hinst Hinj] Hask H1 H H'.
  destruct (convert_spec _ _ _ Hask) as (rq' & Erq & Em & Hj).
  unfold solve in H, H'. cbn [ds_pool ds_remote ds_installed ds_pruning ds_strict with_pruning] in H, H'.
  rewrite Erq in H, H'. cbn [mbind res_bind] in H, H'.
  set (po := solve_pool (ds_pool ds) rq') in *.
  assert (Hpo : pool_of repos (po_mods po) = Ok po) by (eapply pool_of_mods; exact Hpool).
  destruct (pool_of_rep _ _ _ Hpo) as [R _].
  destruct (create_rules _ _ _ _ _ _) as [[[[ids rules] uenv] ust]|] eqn:Hcr; [|discriminate H]. cbn [mbind res_bind] in H, H'.
  destruct (create_rules_spec e He po _ R Hinj _ Hinst _ _ _ _ _ _ _ Hcr) as (iids & st & PB).
  destruct (solve_clauses _ _ _ _) as [[a|]|] eqn:Hrun; [|discriminate H|discriminate H]. cbn [mbind res_bind] in H, H'.
  rewrite (pids_ok po _ R) in H, H' by done. cbn [mbind res_bind] in H, H'.
  apply mbind_ok in H as (dec & Hdec & H). apply mbind_ok in Hdec as (X & HX & [= <-]).
  apply mbind_ok in H as (t0 & Ht & H). injection H as ->. apply mbind_ok in H' as (t0 & Ht' & H'). injection H' as ->.
  assert (Dp : decided po (mjoin repos) (ds_installed ds) (rq_jobs rq') a (e_ord e 2 X)) by (eapply decided_pruned; eauto).
  assert (Df : decided po (mjoin repos) (ds_installed ds) (rq_jobs rq') a (solution_to_ids a)) by (eapply decided_all; eauto).
  assert (Hcons : ∀ dec, decided po (mjoin repos) (ds_installed ds) (rq_jobs rq') a dec → ∀ x, x ∈ dec → - x ∉ dec).
  { intros dec D x Hx Hnx. destruct (dc_lits _ _ _ _ _ _ D x Hx) as (p & Hp & [-> | ->]).
    - assert (A1 := dc_pos _ _ _ _ _ _ D p Hp Hx). assert (A2 := dc_neg _ _ _ _ _ _ D p Hp Hnx). congruence.
    - rewrite Z.opp_involutive in Hnx. assert (A1 := dc_pos _ _ _ _ _ _ D p Hp Hnx). assert (A2 := dc_neg _ _ _ _ _ _ D p Hp Hx). congruence. }
  assert (Hops : ∀ dec t, decided po (mjoin repos) (ds_installed ds) (rq_jobs rq') a dec →
    mk_transaction po dec (ilist e po (ds_installed ds)) = Ok t → ∃ rem ins, ops_ok po (mjoin repos) dec (ilist e po (ds_installed ds)) (t_ops t) rem ins).
  { intros dec t0 D Hm. unfold mk_transaction in Hm. apply mbind_ok in Hm as (ops & Hops & Hm). apply mbind_ok in Hm as (pr & _ & [= <-]).
    exact (safe_ops_spec po _ R Hinj dec (dc_lits _ _ _ _ _ _ D) (Hcons dec D) _ (ilist_ok e He po _ _ Hinst) ops Hops). }
  destruct (Hops _ _ Dp Ht) as (rem & ins & OK). destruct (Hops _ _ Df Ht') as (rem' & ins' & OK').
  assert (Hpos := sol_pos po _ R Hinj _ _ _ (run_solved e He po _ R Hinj _ Hinst _ _ _ _ _ _ _ _ _ PB _ _ Hrun)).
  assert (Hneg := sol_neg po _ R Hinj _ _ _ (run_solved e He po _ R Hinj _ Hinst _ _ _ _ _ _ _ _ _ PB _ _ Hrun)).
  assert (Sub : ∀ q, q ∈ mjoin repos → pid po q ∈ e_ord e 2 X → pid po q ∈ solution_to_ids a).
  { intros q Hq Hd. apply Hpos; [done|]. exact (dc_pos _ _ _ _ _ _ Dp q Hq Hd). }
  assert (Hc := connected_spec e He po _ R Hinj (solution_to_ids a)
    (sol_lit po _ _ _ _ (run_solved e He po _ R Hinj _ Hinst _ _ _ _ _ _ _ _ _ PB _ _ Hrun)) _
    (roots_ok e po _ R Hinj _ Hinst _ _ _ _ _ _ _ _ _ PB) fuel X HX).
  destruct Hc as (n2i & N & _ & HN & Hn1 & Hn2 & _ & HX').
  (* a package of the name of an installed one is not pruned *)
  assert (Keep : ∀ q p, q ∈ mjoin repos → p ∈ ds_installed ds → p_name q = p_name p → pid po q ∈ solution_to_ids a → pid po q ∈ e_ord e 2 X).
  { intros q p Hq Hp Hn Hs. apply (e_ord_elem e He), HX'. left.
    assert (HnN : p_name p ∈ N).
    { apply HN. exists p. split; [by apply Hinst|]. split; [|by left].
      apply (roots_pid e po _ R Hinj _ Hinst _ _ _ _ _ _ _ _ _ PB p (Hinst p Hp)). by left. }
    assert (Hqn : provides q (p_name p)) by (left; done).
    destruct (Hn2 _ q Hq Hs Hqn) as [i Hi]. destruct (Hn1 _ _ Hi) as (z & Hz & -> & Hzs & Hzn).
    enough (z = q) as <- by (by eapply pulled_root).
    assert (Cz : chosen po (mjoin repos) (gg po (ds_installed ds) a) z) by (apply gg_true; auto; left; by apply Hpos).
    assert (Cq : chosen po (mjoin repos) (gg po (ds_installed ds) a) q) by (apply gg_true; auto; left; by apply Hpos).
    apply (E_unique e po _ R Hinj _ Hinst _ _ _ _ _ _ _ _ _ PB _ _ (run_solved e He po _ R Hinj _ Hinst _ _ _ _ _ _ _ _ _ PB _ _ Hrun) q z); [|done|].
    2:{ by apply (H1 z q (p_name p)). }
    split; [done|]. apply (explored_iff e po _ R Hinj _ Hinst _ _ _ _ _ _ _ _ _ PB). eapply nd_installed; [exact Hp|done|]. by left. }
  assert (II := installed_iff e He po _ R Hinj _ Hinst).
  split.
  - intros p. rewrite (rem_iff _ _ _ _ _ _ _ _ OK), (rem_iff _ _ _ _ _ _ _ _ OK'), (ok_rem _ _ _ _ _ _ _ OK), (ok_rem _ _ _ _ _ _ _ OK').
    unfold to_remove, decided_against, decided_for. split; intros (Hi & [Hp Hd] & Hno); (split; [done|]); (split; [split; [done|]|]).
    + apply Hneg; [done|]. by apply (dc_neg _ _ _ _ _ _ Dp).
    + intros (q & [Hq Hqd] & Hqi & Hs). apply Hno. exists q. split; [|done]. split; [done|]. apply II in Hi. apply (Keep q p); [done|done| |done].
      symmetry. apply Hs.
    + apply II in Hi. apply (dc_roots _ _ _ _ _ _ Dp p); [done|by left|]. by apply Hneg.
    + intros (q & [Hq Hqd] & Hqi & Hs). apply Hno. exists q. split; [|done]. split; [done|]. by apply Sub.
  - intros p. rewrite (ins_iff _ _ _ _ _ _ _ _ OK), (ins_iff _ _ _ _ _ _ _ _ OK'), (ok_ins _ _ _ _ _ _ _ OK), (ok_ins _ _ _ _ _ _ _ OK').
    intros ([Hp Hd] & Hi & Hf). split; [|done]. split; [done|]. by apply Sub.
Qed.

(** ** Examples *)
Local Notation inst_pkg n v rq cf pv := (Pkg n (V v 0) rq cf pv (Some "i")).
Local Notation rem_pkg n v rq cf pv := (Pkg n (V v 0) rq cf pv (Some "r")).
(** The hypotheses of [C72_pruning] are met, pruning drops an installation and the removal stays. *)
Definition flag_inst : list package := [inst_pkg "A" 1 [] [] []; inst_pkg "old" 1 [] [] []].
Definition flag_rem : list package := [rem_pkg "A" 2 [] [("Y", [])] []; rem_pkg "Y" 1 [] [] []; rem_pkg "B" 1 [] [] []].
Definition flag_ds : dep_solver := ds0 [flag_rem; flag_inst] [flag_rem] flag_inst true false.
Definition flag_rq : request := ask [want "B"; Job (Some (Req RInstall "old" [CAny])) JRemove].
Theorem C72_pruning_example : setting [flag_rem; flag_inst] flag_ds ∧ asks flag_ds flag_rq (rq_jobs flag_rq) ∧
  single_names (mjoin [flag_rem; flag_inst]) ∧
  (∃ t, solve env0 (with_pruning flag_ds true) 40 flag_rq = Ok (Normal t) ∧
    t_ops t = [RemoveOp (inst_pkg "old" 1 [] [] []); InstallOp (rem_pkg "B" 1 [] [] [])]) ∧
  ∃ t, solve env0 (with_pruning flag_ds false) 40 flag_rq = Ok (Normal t) ∧
    t_ops t = [RemoveOp (inst_pkg "old" 1 [] [] []); InstallOp (rem_pkg "Y" 1 [] [] []); InstallOp (rem_pkg "B" 1 [] [] [])].
Proof. split; [run|]. split; [run|]. split; [run|]. split; run. Qed.
(** strict=True raises where strict=False answers. *)
Definition flag_miss : list package := [rem_pkg "B" 1 [("X", [])] [] []].
Theorem C72_strict_example :
  solve env0 (with_strict (ds0 [flag_miss] [flag_miss] [] true false) true) 40 (ask [want "B"]) = Raise MissingInstallRequires ∧
  match solve env0 (with_strict (ds0 [flag_miss] [flag_miss] [] true false) false) 40 (ask [want "B"]) with Ok (Unsat _ _ _) => True | _ => False end ∧
  ∃ t, solve env0 (with_strict flag_ds true) 40 flag_rq = Ok (Normal t) ∧
    t_ops t = [RemoveOp (inst_pkg "old" 1 [] [] []); InstallOp (rem_pkg "B" 1 [] [] [])].
Proof. split; [vm_compute; reflexivity|]. split; [vm_compute; exact I|]. run. Qed.
Print Assumptions C72_strict.
Print Assumptions C72_strict_hint.
Print Assumptions C72_pruning_unsat.
Print Assumptions C72_pruning.
Print Assumptions C72_pruning_example.
Print Assumptions C72_strict_example.
