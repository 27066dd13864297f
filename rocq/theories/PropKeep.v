(** * Property C79: which installed packages are kept when not all of them can be. *)
From Verif Require Import PoolProofs PropPool PropConstraints SpecSat ConstraintProofs PropRules SatLearn RepositoryProofs TwinProofs.
From Verif Require Export PropAgain.

Local Notation inst_pkg n v rq cf pv := (Pkg n (V v 0) rq cf pv (Some "i")).
Local Notation rem_pkg n v rq cf pv := (Pkg n (V v 0) rq cf pv (Some "r")).

(** Installed packages are considered in the order of their version numbers, lowest first, whatever their names: an installed
    package [p] is kept if some valid installation [S] has it together with those kept installed packages
    whose version is not higher than that of [p].  Packages of higher version do not count against it.
    (Packages that a soft update job asks for are not considered here.) *)
Theorem C79_lowest_first : ∀ e repos ds fuel rq jobs t S p, env_ok e → setting repos ds → asks ds rq jobs →
  solve e ds fuel rq = Ok (Normal t) →
  valid (mjoin repos) (ds_installed ds) (rq_mods rq) jobs S →
  (∀ q, q ∈ ds_installed ds → ¬ soft jobs q → ¬ vlt (p_version p) (p_version q) → RemoveOp q ∉ t_ops t → S q) →
  p ∈ ds_installed ds → ¬ soft jobs p → S p → RemoveOp p ∉ t_ops t.
Proof.
  intros e repos ds fuel rq jobs t S p He Hset Hask H V HS Hp Hs HSp. assert (Hf := solve_found _ He _ _ Hset _ _ _ Hask _ H). open_found Hf.
  assert (Hsoft : ∀ q, soft jobs' q ↔ soft jobs q) by (intros q; split; apply soft_jobs; intros; by apply Hj).
  apply (keeps_order e He po _ R (sv_keys _ _ Hset) _ (sv_installed _ _ Hset) _ _ _ _ _ _ _ _ _ PB _ _ D _ _ _ OK _ Hrun S p); [by apply (to_mods repos ds rq jobs po jobs')| |done|by rewrite Hsoft|done].
  intros q Hq Hns Hle [[_ ?]|Hi]; [apply HS; [done|by rewrite <-Hsoft|done|done]|].
  exfalso. apply (install_val e He po _ R (sv_keys _ _ Hset) _ (sv_installed _ _ Hset) _ _ _ D _ _ _ OK) in Hi as (_ & ? & _). done.
Qed.
(** In particular the installed package with the lowest version is kept if any valid installation has it. *)
Theorem C79_lowest : ∀ e repos ds fuel rq jobs t S p, env_ok e → setting repos ds → asks ds rq jobs →
  solve e ds fuel rq = Ok (Normal t) →
  valid (mjoin repos) (ds_installed ds) (rq_mods rq) jobs S →
  (∀ q, q ∈ ds_installed ds → ¬ soft jobs q → q = p ∨ vlt (p_version p) (p_version q)) →
  p ∈ ds_installed ds → ¬ soft jobs p → S p → RemoveOp p ∉ t_ops t.
Proof.
  intros e repos ds fuel rq jobs t S p He Hset Hask H V HS Hp Hs HSp. eapply C79_lowest_first; eauto.
  intros q Hq Hqs Hle _. destruct (HS q Hq Hqs) as [->|?]; done.
Qed.
(** The same up to packages of the same name, version and metadata (as in C13_release). *)
Theorem C79_release : ∀ e repos ds fuel rq jobs t S p, env_ok e → setting repos ds → asks ds rq jobs →
  same_metadata (mjoin repos) (mjoin repos) →
  solve e ds fuel rq = Ok (Normal t) →
  valid (mjoin repos) (ds_installed ds) (rq_mods rq) jobs S →
  (∀ q, q ∈ ds_installed ds → ¬ soft jobs q → ¬ vlt (p_version p) (p_version q) → RemoveOp q ∉ t_ops t → has_release S q) →
  p ∈ ds_installed ds → ¬ soft jobs p → has_release S p → has_release (after (ds_installed ds) (t_ops t)) p.
Proof.
  intros e repos ds fuel rq jobs t S p He Hset Hask HM H V HS Hp Hso HSp.
  assert (Hf := solve_found _ He _ _ Hset _ _ _ Hask _ H). open_found Hf.
  eapply (keeps_release_order e He po _ R (sv_keys _ _ Hset) _ (sv_installed _ _ Hset) _ _ _ _ _ _ _ _ _ PB _ _ Hrun _ D _ _ _ OK HM S p).
  - by apply (to_mods repos ds rq jobs po jobs').
  - intros q Hq Hs Hle Hr. apply HS; [done| |done|done]. intros Hs'. apply Hs. eapply soft_jobs; [|exact Hs']. intros; by apply Hj.
  - done.
  - intros Hs. apply Hso. eapply soft_jobs; [|exact Hs]. intros; by apply Hj.
  - done.
Qed.

(** Example, and refutation of the expectation that as few packages as possible are removed: the request needs a package
    that conflicts with [tool 3], or one that conflicts with [util 4] and [year 2016].  Version numbers of
    different packages are compared with each other; [tool] has the lowest and stays, and the two others are removed. *)
Definition kp_app := rem_pkg "app" 1 [("either", [])] [] [].
Definition kp_e1 := rem_pkg "e1" 1 [] [("tool", [])] [("either", [])].
Definition kp_e2 := rem_pkg "e2" 2 [] [("util", []); ("year", [])] [("either", [])].
Definition kp_remote : list package := [kp_app; kp_e1; kp_e2].
Definition kp_tool := inst_pkg "tool" 3 [] [] [].
Definition kp_util := inst_pkg "util" 4 [] [] [].
Definition kp_year := inst_pkg "year" 2016 [] [] [].
Definition kp_installed : list package := [kp_year; kp_util; kp_tool].
Definition kp_ds : dep_solver := ds0 [kp_remote; kp_installed] [kp_remote] kp_installed true false.
Definition kp_ops : list operation := [RemoveOp kp_util; RemoveOp kp_year; InstallOp kp_e2; InstallOp kp_app].
Theorem C79_example : setting [kp_remote; kp_installed] kp_ds ∧
  asks kp_ds (ask [want "app"]) [want "app"] ∧
  valid (mjoin [kp_remote; kp_installed]) kp_installed no_mods [want "app"] (λ p, p ∈ [kp_app; kp_e2; kp_tool]) ∧
  (∀ q, q ∈ kp_installed → ¬ soft [want "app"] q → q = kp_tool ∨ vlt (p_version kp_tool) (p_version q)) ∧
  (∃ t, solve env0 kp_ds 60 (ask [want "app"]) = Ok (Normal t) ∧ t_ops t = kp_ops).
Proof.
  split; [run|]. split; [run|]. split; [apply valid_b_spec; vm_compute; reflexivity|]. split; [|run].
  intros q Hq _. repeat (apply elem_of_cons in Hq as [->|Hq]); [right; left; done|right; left; done|by left|by apply elem_of_nil in Hq].
Qed.
Theorem C79_fewest_refuted :
  ¬ ∀ e repos ds fuel rq jobs t S, env_ok e → setting repos ds → asks ds rq jobs → same_metadata (mjoin repos) (mjoin repos) →
      solve e ds fuel rq = Ok (Normal t) → valid (mjoin repos) (ds_installed ds) (rq_mods rq) jobs S →
      ∀ ks rs : list package, NoDup ks → (∀ p, p ∈ ks → p ∈ ds_installed ds ∧ S p) →
        (∀ p, p ∈ ds_installed ds → p ∈ rs ↔ RemoveOp p ∉ t_ops t) → (length ks ≤ length rs)%nat.
Proof.
  intros H. destruct C79_example as (H1 & H2 & _ & _ & t & H3 & H4).
  assert (L : (length [kp_util; kp_year] ≤ length [kp_tool])%nat); [|cbn in L; lia].
  apply (H env0 _ kp_ds 60%nat _ _ t (λ p, p ∈ [kp_app; kp_e1; kp_util; kp_year]) env0_ok H1 H2); [|done|apply valid_b_spec; vm_compute; reflexivity| | |].
  - run.
  - apply NoDup_cons. split; [|apply NoDup_singleton]. intros E%elem_of_list_singleton. done.
  - clear. intros p Hp. repeat (apply elem_of_cons in Hp as [->|Hp]); [| |by apply elem_of_nil in Hp]; split; apply elem_of_list_In; cbn; tauto.
  - rewrite H4. clear. intros p Hp. repeat (apply elem_of_cons in Hp as [->|Hp]); [| | |by apply elem_of_nil in Hp]; rewrite elem_of_list_singleton.
    + split; [done|]. intros E. exfalso. apply E. apply elem_of_list_In; cbn; tauto.
    + split; [done|]. intros E. exfalso. apply E. apply elem_of_list_In; cbn; tauto.
    + split; [|done]. intros _ E. repeat (apply elem_of_cons in E as [E|E]; [done|]). by apply elem_of_nil in E.
Qed.
