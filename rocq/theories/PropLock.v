(** * Property C83: a set of packages that was written down as exact requirements can be restored. *)
From Verif Require Import PoolProofs PropPool PropConstraints SpecSat ConstraintProofs PropRules RepositoryProofs.
From Verif Require Export PropApi PropNeed.
From Verif Require Import PropLimits SpecCheck.

(** The release [n]-[v] is among the packages of [S]. *)
Definition release_in (S : package → Prop) (n : string) (v : version) : Prop := ∃ p, S p ∧ p_name p = n ∧ p_version p = v.
(** The request that asks for exactly these packages. *)
Definition lock (m : modifiers) (L : list package) : request := Request m (installs (requirements_from_packages L)).
(** A set of packages that can be installed together. *)
Record consistent (m : modifiers) (L : list package) : Prop := {
  co_closed : closed_set m (λ p, p ∈ L);
  co_names : one_version (λ p, p ∈ L);
  co_conflicts : no_conflict (λ p, p ∈ L) }.

Lemma lock_job m L j : j ∈ rq_jobs (lock m L) ↔ ∃ p, p ∈ L ∧ j = Job (Some (exactly (p_name p) (p_version p))) JInstall.
Proof.
  cbn. unfold installs, requirements_from_packages. rewrite elem_of_list_fmap. split.
  - intros (r & -> & Hr). apply elem_of_list_fmap in Hr as (p & -> & Hp). by exists p.
  - intros (p & Hp & ->). eexists. split; [done|]. apply elem_of_list_fmap. by exists p.
Qed.
Lemma lock_asks ds m L : asks ds (lock m L) (rq_jobs (lock m L)).
Proof. left. split; [|done]. intros j Hj. apply lock_job in Hj as (p & _ & ->). done. Qed.
Lemma exactly_meets n v q : req_meets (exactly n v) q ↔ provides q n ∧ p_version q = v.
Proof.
  unfold req_meets, exactly. cbn. split; intros [H1 H2]; (split; [done|]).
  - specialize (H2 (CEqual v) ltac:(left)). cbn in H2. done.
  - intros c Hc. apply elem_of_list_singleton in Hc as ->. cbn. done.
Qed.
Lemma lock_valid pkgs inst m L : (∀ p, p ∈ L → p ∈ pkgs) → consistent m L → valid pkgs inst m (rq_jobs (lock m L)) (λ p, p ∈ L).
Proof.
  intros Hsub C. split; [done| |apply C|apply C|apply C]. intros j Hj. apply lock_job in Hj as (p & Hp & ->). cbn.
  exists p. split; [done|]. apply exactly_meets. split; [by left|done].
Qed.

(** ** A consistent set that is for sale is not refused. *)
Theorem C83_not_refused : ∀ e repos ds fuel m L c k s, env_ok e → setting repos ds →
  (∀ p, p ∈ L → p ∈ mjoin repos) → consistent m L →
  solve e ds fuel (lock m L) ≠ Ok (Unsat c k s).
Proof.
  intros e repos ds fuel m L c k s He Hset Hsub C H.
  apply (C15_unsat e repos ds fuel _ _ c k s He Hset (lock_asks ds m L) H). exists (λ p, p ∈ L). by apply lock_valid.
Qed.

Lemma lock_removes pkgs inst m L : removes_known pkgs inst (rq_jobs (lock m L)).
Proof. intros j r Hj Hk. apply lock_job in Hj as (p & _ & ->). done. Qed.

Section restored.
  Context (e : env) (He : env_ok e) (repos : list (list package)) (ds : dep_solver) (Hset : setting repos ds).
  Context (Hpr : ds_pruning ds = true) (H1 : single_names (mjoin repos)) (Hsame : same_metadata (mjoin repos) (mjoin repos)).
  Context (m : modifiers) (L : list package) (Hsub : ∀ p, p ∈ L → p ∈ mjoin repos).
  Context (fuel : nat) (t : transaction) (Hs : solve e ds fuel (lock m L) = Ok (Normal t)).
  Let A := after (ds_installed ds) (t_ops t).
  Lemma lock_same : same_metadata (mjoin repos) (ds_installed ds).
  Proof. intros p q Hp Hq. apply Hsame; [by apply (sv_installed _ _ Hset)|done]. Qed.
  Lemma lock_after : valid (mjoin repos) (ds_installed ds) m (rq_jobs (lock m L)) A.
  Proof. exact (C16_valid e repos ds fuel _ _ t He Hset (lock_asks ds m L) Hpr H1 lock_same (lock_removes _ _ m L) Hs). Qed.
  Lemma lock_copy p : p ∈ L → ∃ q, A q ∧ p_name q = p_name p ∧ p_version q = p_version p.
  Proof.
    assert (V := lock_after). clear Hs. intros Hp. destruct (va_jobs _ _ _ _ _ V (Job (Some (exactly (p_name p) (p_version p))) JInstall)) as (q & Hq & Hm).
    { apply lock_job. by exists p. }
    apply exactly_meets in Hm as [Hn Hv]. exists q. split; [done|]. split; [|done].
    apply (H1 q p (p_name p)); [by apply (va_sub _ _ _ _ _ V)|by apply Hsub|done|by left].
  Qed.
  Lemma lock_restored : consistent m L → (∀ i, i ∈ ds_installed ds → ∃ p, p ∈ L ∧ p_name p = p_name i) →
    ∀ q, A q → ∃ p, p ∈ L ∧ p_name q = p_name p ∧ p_version q = p_version p.
  Proof.
    intros C Hcov. assert (V := lock_after). assert (Cp := lock_copy).
    enough (G : ∀ q, A q → A q ∧ ∃ p, p ∈ L ∧ p_name q = p_name p ∧ p_version q = p_version p) by (intros q Hq; apply (G q Hq)).
    apply (C70_minimal e repos ds fuel (lock m L) (rq_jobs (lock m L)) t (λ q, A q ∧ ∃ p, p ∈ L ∧ p_name q = p_name p ∧ p_version q = p_version p)
      He Hset (lock_asks ds m L) Hpr H1 lock_same (lock_removes _ _ m L) Hs); clear Hs.
    - split.
      + intros p [Hp _]. by apply (va_sub _ _ _ _ _ V).
      + intros j Hj. apply lock_job in Hj as (p & Hp & ->). cbn. destruct (Cp p Hp) as (q & Hq & En & Ev). exists q.
        split; [split; [done|by exists p]|]. apply exactly_meets. split; [by left|done].
      + intros q d [Hq (p & Hp & En & Ev)] Hd.
        destruct (Hsame q p) as (Er & _); [by apply (va_sub _ _ _ _ _ V)|by apply Hsub|done|done|]. rewrite Er in Hd.
        destruct (co_closed _ _ C p d Hp Hd) as (p2 & Hp2 & Hne & Hn & Hm). destruct (Cp p2 Hp2) as (q2 & Hq2 & En2 & Ev2).
        exists q2. split; [split; [done|by exists p2]|]. split.
        * intros ->. apply Hne. apply (co_names _ _ C); [done|done|]. congruence.
        * destruct (Hsame q2 p2) as (_ & _ & Ep); [by apply (va_sub _ _ _ _ _ V)|by apply Hsub|done|done|]. split; [|by rewrite Ev2].
          unfold provides in *. by rewrite En2, Ep.
      + intros x y [Hx _] [Hy _]. by apply (va_names _ _ _ _ _ V).
      + intros x d y [Hx _] Hd [Hy _]. by apply (va_conflicts _ _ _ _ _ V).
    - by intros p [? _].
    - intros q i Hq Hi En. split; [done|]. destruct (Hcov i Hi) as (p & Hp & Ep). destruct (Cp p Hp) as (q2 & Hq2 & En2 & Ev2).
      exists p. split; [done|]. replace q with q2; [done|]. apply (va_names _ _ _ _ _ V); [done|done|]. congruence.
  Qed.
End restored.

(** ** Asked for exactly the packages of a consistent set, the solver restores exactly these releases, whatever versions of these
    packages were installed. *)
Theorem C83_restored : ∀ e repos ds fuel m L t, env_ok e → setting repos ds → ds_pruning ds = true →
  single_names (mjoin repos) → same_metadata (mjoin repos) (mjoin repos) →
  (∀ p, p ∈ L → p ∈ mjoin repos) → consistent m L →
  (∀ i, i ∈ ds_installed ds → ∃ p, p ∈ L ∧ p_name p = p_name i) →
  solve e ds fuel (lock m L) = Ok (Normal t) →
  ∀ n v, release_in (after (ds_installed ds) (t_ops t)) n v ↔ release_in (λ p, p ∈ L) n v.
Proof.
  intros e repos ds fuel m L t He Hset Hpr H1 Hsame Hsub C Hcov Hs n v. split.
  - intros (q & Hq & <- & <-). destruct (lock_restored e He repos ds Hset Hpr H1 Hsame m L Hsub fuel t Hs C Hcov q Hq) as (p & Hp & En & Ev).
    by exists p.
  - intros (p & Hp & <- & <-). destruct (lock_copy e He repos ds Hset Hpr H1 Hsame m L Hsub fuel t Hs p Hp) as (q & Hq & En & Ev). by exists q.
Qed.

(** ** Other installed packages may stay, but not in another version: all releases of the set are there in any case. *)
Theorem C83_included : ∀ e repos ds fuel m L t, env_ok e → setting repos ds → ds_pruning ds = true →
  single_names (mjoin repos) → same_metadata (mjoin repos) (mjoin repos) →
  (∀ p, p ∈ L → p ∈ mjoin repos) →
  solve e ds fuel (lock m L) = Ok (Normal t) →
  ∀ p q, p ∈ L → after (ds_installed ds) (t_ops t) q → p_name q = p_name p → p_version q = p_version p.
Proof.
  intros e repos ds fuel m L t He Hset Hpr H1 Hsame Hsub Hs p q Hp Hq En.
  destruct (lock_copy e He repos ds Hset Hpr H1 Hsame m L Hsub fuel t Hs p Hp) as (q' & Hq' & En' & Ev').
  replace q with q'; [done|]. apply (va_names _ _ _ _ _ (lock_after e He repos ds Hset Hpr H1 Hsame m L fuel t Hs)); [done|done|]. congruence.
Qed.

(** ** What one solve has brought about can be written down and restored elsewhere, from the same repositories. *)
Theorem C83_replay : ∀ e repos ds fuel rq jobs t L e' ds' fuel' t', env_ok e → env_ok e' → setting repos ds → asks ds rq jobs →
  setting repos ds' → ds_pruning ds = true → ds_pruning ds' = true →
  single_names (mjoin repos) → same_metadata (mjoin repos) (mjoin repos) →
  removes_known (mjoin repos) (ds_installed ds) jobs →
  solve e ds fuel rq = Ok (Normal t) →
  (∀ p, p ∈ L ↔ after (ds_installed ds) (t_ops t) p) →
  (∀ i, i ∈ ds_installed ds' → ∃ p, p ∈ L ∧ p_name p = p_name i) →
  solve e' ds' fuel' (lock (rq_mods rq) L) = Ok (Normal t') →
  ∀ n v, release_in (after (ds_installed ds') (t_ops t')) n v ↔ release_in (after (ds_installed ds) (t_ops t)) n v.
Proof.
  intros e repos ds fuel rq jobs t L e' ds' fuel' t' He He' Hset Hask Hset' Hpr Hpr' H1 Hsame Hrem Hs HL Hcov Hs' n v.
  assert (V := C16_valid e repos ds fuel rq jobs t He Hset Hask Hpr H1 (lock_same repos ds Hset Hsame) Hrem Hs). clear Hs.
  destruct V as [V1 _ V3 V4 V5]. rewrite (C83_restored e' repos ds' fuel' (rq_mods rq) L t' He' Hset' Hpr' H1 Hsame).
  - unfold release_in. split; intros (p & Hp & E); exists p; (split; [by apply HL|done]).
  - intros p Hp. by apply V1, HL.
  - split.
    + intros p d Hp Hd. destruct (V3 p d) as (q & Hq & Hq'); [by apply HL|done|]. exists q. split; [by apply HL|done].
    + intros p q Hp Hq. apply V4; by apply HL.
    + intros p d q Hp Hd Hq. apply V5; [by apply HL|done|by apply HL].
  - done.
  - done.
Qed.

(** ** satisfy_requirements (dependency_solver.py, lines 49-78): asked for exactly the packages of a consistent set, it returns
    these and no other. *)
Theorem C83_satisfy : ∀ e fuel ps m L out, env_ok e → well_formed ps → single_names ps → releases_differ ps →
  (∀ p, p ∈ L → p ∈ ps) → consistent m L →
  satisfy_requirements e fuel ps (requirements_from_packages L) (Some m) = Ok (Normal out) →
  NoDup out ∧ ∀ p, p ∈ out ↔ p ∈ L.
Proof.
  intros e fuel ps m L out He Hk H1 Hd Hsub C H.
  split; [by apply (C48_installable e fuel ps (requirements_from_packages L) m out)|].
  destruct (C48_installable _ _ _ _ _ _ He Hk H1 H) as (_ & I & _).
  assert (Lout : ∀ p, p ∈ L → p ∈ out).
  { clear H. intros p Hp. destruct (in_reqs _ _ _ _ I (exactly (p_name p) (p_version p))) as (q & Hq & Hm).
    { unfold requirements_from_packages. apply elem_of_list_fmap. by exists p. }
    apply exactly_meets in Hm as [Hn Hv]. assert (Hqs := in_sub _ _ _ _ I q Hq).
    replace p with q; [done|]. apply Hd; [done|by apply Hsub| |done]. apply (H1 q p (p_name p)); [done|by apply Hsub|done|by left]. }
  apply satisfy_open in H as (po & s & Hpo & Hs & Ho). destruct s as [t|]; [|by destruct Ho as (? & ? & ? & ?)]. injection Ho as ->.
  set (ds := DepSolver po [repo_iter (repo_of ps)] [] true false) in *.
  assert (Hset := api_setting ps Hk _ po Hpo).
  assert (Hops := C27_solve e _ ds fuel _ _ t He Hset (lock_asks ds m L) Hs).
  assert (R := C83_restored e [repo_iter (repo_of ps)] ds fuel m L t He Hset eq_refl (api_single ps H1)).
  destruct Hops as (_ & _ & Hops & _). intros p. split; [|apply Lout]. intros Hp. apply elem_of_list_fmap in Hp as (o & -> & Ho).
  destruct (Hops o Ho) as [(q & -> & Hq)|(q & -> & _)]; [by apply elem_of_nil in Hq|]. cbn.
  assert (Hqs : q ∈ ps) by (apply (in_sub _ _ _ _ I); apply elem_of_list_fmap; by exists (InstallOp q)).
  destruct (R) with (n := p_name q) (v := p_version q) as [R1 _].
  - intros x y Hx Hy En Ev. rewrite (repo_elem ps) in Hx, Hy. assert (x = y) as -> by (apply Hd; [exact Hx|exact Hy|exact En|exact Ev]). split; [reflexivity|split; reflexivity].
  - intros x Hx%Hsub. by rewrite (repo_elem ps).
  - done.
  - intros i Hi. by apply elem_of_nil in Hi.
  - exact Hs.
  - clear Hs. destruct R1 as (x & Hx & En & Ev); [exists q; split; [by right|done]|].
    replace q with x; [done|]. apply Hd; [by apply Hsub|done|done|done].
Qed.

(** ** Examples *)
Local Notation rem_pkg n v rq pr := (Pkg n (V v 0) rq [] pr (Some "r")).
Local Notation inst_pkg n v rq pr := (Pkg n (V v 0) rq [] pr (Some "i")).
(** What the request of C16_example leaves behind is restored on an empty system and on one with older versions; an unlocked
    request for the same packages would take newer ones. *)
Definition lk_remote : list package :=
  [rem_pkg "app" 1 [("lib", [])] []; rem_pkg "app" 2 [("lib", [])] []; rem_pkg "lib" 1 [] []; rem_pkg "lib" 2 [] []; rem_pkg "lib" 3 [] []].
Definition lk_installed : list package := [inst_pkg "lib" 1 [] []].
Definition lk_list : list package := [rem_pkg "app" 1 [("lib", [])] []; rem_pkg "lib" 2 [] []].
Definition lk_ds : dep_solver := ds0 [lk_remote; lk_installed] [lk_remote] lk_installed true false.
Theorem C83_example : setting [lk_remote; lk_installed] lk_ds ∧ ds_pruning lk_ds = true ∧
  single_names (mjoin [lk_remote; lk_installed]) ∧ same_metadata (mjoin [lk_remote; lk_installed]) (mjoin [lk_remote; lk_installed]) ∧
  (∀ p, p ∈ lk_list → p ∈ mjoin [lk_remote; lk_installed]) ∧ consistent no_mods lk_list ∧
  (∀ i, i ∈ ds_installed lk_ds → ∃ p, p ∈ lk_list ∧ p_name p = p_name i) ∧
  (∃ t, solve env0 lk_ds 60 (lock no_mods lk_list) = Ok (Normal t) ∧
    t_ops t = [RemoveOp (inst_pkg "lib" 1 [] []); InstallOp (rem_pkg "lib" 2 [] []); InstallOp (rem_pkg "app" 1 [("lib", [])] [])]) ∧
  (∃ t, solve env0 lk_ds 60 (ask [want "app"]) = Ok (Normal t) ∧ t_ops t = [InstallOp (rem_pkg "app" 2 [("lib", [])] [])]) ∧
  satisfy_requirements env0 60 lk_remote (requirements_from_packages lk_list) (Some no_mods) = Ok (Normal (reverse lk_list)).
Proof.
  split; [run|]. split; [done|]. split; [run|]. split; [run|].
  split; [intros p Hp; apply elem_of_list_In; apply elem_of_list_In in Hp; cbn in Hp |- *; clear -Hp; tauto|].
  split; [split; [apply closed_b_spec|apply names_b_spec|apply conflicts_b_spec]; vm_compute; reflexivity|].
  split. { intros i Hi. apply elem_of_list_singleton in Hi as ->. eexists. split; [right; left|done]. }
  split; [run|]. split; [run|]. vm_compute. reflexivity.
Qed.
(** A package that is also provided by one of another name is not always restored, and installed packages that are not on the list
    stay. *)
Definition lv_mkl : package := Pkg "mkl" (V 1 0) [] [("blas", [])] [("blas", [])] (Some "r").
Definition lv_remote : list package := [lv_mkl; rem_pkg "blas" 1 [] []].
Definition lv_ds : dep_solver := ds0 [lv_remote; []] [lv_remote] [] true false.
Definition lv_list : list package := [rem_pkg "blas" 1 [] []].
Theorem C83_virtual_refuted : ∃ e repos ds fuel m L t, env_ok e ∧ setting repos ds ∧ ds_pruning ds = true ∧
  same_metadata (mjoin repos) (mjoin repos) ∧ (∀ p, p ∈ L → p ∈ mjoin repos) ∧ consistent m L ∧ ds_installed ds = [] ∧
  solve e ds fuel (lock m L) = Ok (Normal t) ∧
  ∃ p, p ∈ L ∧ ¬ release_in (after (ds_installed ds) (t_ops t)) (p_name p) (p_version p).
Proof.
  assert (∃ t, solve env0 lv_ds 60 (lock no_mods lv_list) = Ok (Normal t) ∧ t_ops t = [InstallOp lv_mkl]) as (t & Et & Ho) by run.
  exists env0, [lv_remote; []], lv_ds, 60%nat, no_mods, lv_list, t. split; [apply env0_ok|]. split; [run|]. split; [done|]. split; [run|].
  split; [intros p Hp; apply elem_of_list_In; apply elem_of_list_In in Hp; cbn in Hp |- *; clear -Hp; tauto|].
  split; [split; [apply closed_b_spec|apply names_b_spec|apply conflicts_b_spec]; vm_compute; reflexivity|].
  split; [done|]. split; [exact Et|]. clear Et. eexists. split; [left|]. rewrite Ho. intros (q & [[Hq _]|Hq] & En & _); [by apply elem_of_nil in Hq|].
  apply elem_of_list_singleton in Hq as [= ->]. done.
Qed.
Theorem C83_extra_refuted : ∃ e repos ds fuel m L t, env_ok e ∧ setting repos ds ∧ ds_pruning ds = true ∧
  single_names (mjoin repos) ∧ same_metadata (mjoin repos) (mjoin repos) ∧ (∀ p, p ∈ L → p ∈ mjoin repos) ∧ consistent m L ∧
  solve e ds fuel (lock m L) = Ok (Normal t) ∧
  ∃ p, after (ds_installed ds) (t_ops t) p ∧ ∀ q, q ∈ L → p_name q ≠ p_name p.
Proof.
  set (L := [rem_pkg "lib" 2 [] []]). set (inst := [inst_pkg "tool" 1 [] []]). set (ds := ds0 [lk_remote; inst] [lk_remote] inst true false).
  assert (∃ t, solve env0 ds 60 (lock no_mods L) = Ok (Normal t) ∧ t_ops t = [InstallOp (rem_pkg "lib" 2 [] [])]) as (t & Et & Ho) by run.
  exists env0, [lk_remote; inst], ds, 60%nat, no_mods, L, t. split; [apply env0_ok|]. split; [run|]. split; [reflexivity|]. split; [run|]. split; [run|].
  split; [intros p Hp; apply elem_of_list_In; apply elem_of_list_In in Hp; cbn in Hp |- *; clear -Hp; tauto|].
  split; [split; [apply closed_b_spec|apply names_b_spec|apply conflicts_b_spec]; vm_compute; reflexivity|].
  split; [exact Et|]. clear Et. eexists. split; [left; split; [left|]|].
  - rewrite Ho. intros H. by apply elem_of_list_singleton in H.
  - intros q Hq. by apply elem_of_list_singleton in Hq as ->.
Qed.
Print Assumptions C83_not_refused. Print Assumptions C83_restored. Print Assumptions C83_included. Print Assumptions C83_replay.
Print Assumptions C83_satisfy. Print Assumptions C83_example. Print Assumptions C83_virtual_refuted. Print Assumptions C83_extra_refuted.
