(** * Property C85: transactions that are interrupted. *)
From Verif Require Import PoolProofs PropPool PropConstraints SpecSat ConstraintProofs PropRules RepositoryProofs.
From Verif Require Export PropOps PropMono.
From Verif Require Import PropLimits PropNeed SpecCheck.

Lemma bef_prefix {A} (l done later : list A) x y : NoDup l → l = done ++ later → bef l x y → y ∈ done → x ∈ done.
Proof.
  intros Hn E (l1 & l2 & l3 & E') Hy. apply elem_of_list_split in Hy as (a & b & ->).
  assert (a = l1 ++ x :: l2) as ->; [|set_solver].
  eapply NoDup_mid; [|]; rewrite <-app_assoc in E; cbn in E.
  - rewrite E in Hn. exact Hn.
  - rewrite <-E, E'. rewrite <-app_assoc. done.
Qed.
Lemma split_phases (rem ins : list package) done later : (RemoveOp <$> rem) ++ (InstallOp <$> ins) = done ++ later →
  (∀ p, InstallOp p ∉ done) ∨ (∀ p, RemoveOp p ∉ later).
Proof.
  intros E. apply app_eq_inv in E as [(k & E1 & E2)|(k & E1 & E2)].
  - left. intros p Hp. assert (Hx : InstallOp p ∈ RemoveOp <$> rem) by (rewrite E1; set_solver).
    apply elem_of_list_fmap in Hx as (x & [=] & _).
  - right. intros p Hp. assert (Hx : RemoveOp p ∈ InstallOp <$> ins) by (rewrite E2; set_solver).
    apply elem_of_list_fmap in Hx as (x & [=] & _).
Qed.

(** ** What the system looks like if only the first operations have been carried out ([done]; [later] have not). *)
Theorem C85_states : ∀ e repos ds fuel rq jobs t done later, env_ok e → setting repos ds → asks ds rq jobs →
  ds_pruning ds = true → single_names (mjoin repos) → same_metadata (mjoin repos) (ds_installed ds) →
  removes_known (mjoin repos) (ds_installed ds) jobs →
  closed_set (rq_mods rq) (λ p, p ∈ ds_installed ds) → one_version (λ p, p ∈ ds_installed ds) → no_conflict (λ p, p ∈ ds_installed ds) →
  solve e ds fuel rq = Ok (Normal t) → t_ops t = done ++ later →
  (** never two versions of a package, never a conflict; *)
  one_version (after (ds_installed ds) done) ∧ no_conflict (after (ds_installed ds) done) ∧
  (** every dependency is met, except that a package that stays may have to wait for the replacement of a removed one. *)
  ∀ p d, after (ds_installed ds) done p → d ∈ p_requires p →
    (∃ q, after (ds_installed ds) done q ∧ q ≠ p ∧ dep_meets (rq_mods rq) d q) ∨
    (p ∈ ds_installed ds ∧ RemoveOp p ∉ t_ops t ∧ ∃ q, RemoveOp q ∈ done ∧ dep_meets (rq_mods rq) d q).
Proof.
  intros e repos ds fuel rq jobs t done later He Hset Hask Hpr H1 H3 H2 Ic In If H E.
  assert (V := C16_valid e repos ds fuel rq jobs t He Hset Hask Hpr H1 H3 H2 H).
  assert (B := λ p q d, C28_solve e repos ds fuel rq jobs t p q d He Hset Hask H).
  destruct (C27_solve e repos ds fuel rq jobs t He Hset Hask H) as (Hn & _ & _ & _).
  destruct (solve_ops e He repos ds Hset fuel rq jobs Hask t H) as (rem & ins & Eo & _). clear H.
  rewrite E in Eo. symmetry in Eo. apply split_phases in Eo.
  assert (K : ∀ p, after (ds_installed ds) done p → p ∈ ds_installed ds → RemoveOp p ∉ done → RemoveOp p ∉ later →
    ∀ d, d ∈ p_requires p → (∃ q, after (ds_installed ds) done q ∧ q ≠ p ∧ dep_meets (rq_mods rq) d q) ∨
      (p ∈ ds_installed ds ∧ RemoveOp p ∉ t_ops t ∧ ∃ q, RemoveOp q ∈ done ∧ dep_meets (rq_mods rq) d q)).
  { intros p _ Hp Hd Hl d Hdp. destruct (Ic p d Hp Hdp) as (q & Hq & Hne & Hm). destruct (decide (RemoveOp q ∈ done)) as [Hr|Hr].
    - right. split; [done|]. split; [rewrite E, elem_of_app; tauto|]. by exists q.
    - left. exists q. split; [by left|done]. }
  destruct Eo as [Hno|Hno].
  - assert (Sub : ∀ p, after (ds_installed ds) done p → p ∈ ds_installed ds ∧ RemoveOp p ∉ done).
    { intros p [?|?]; [done|]. by destruct (Hno p). }
    split; [intros p q Hp%Sub Hq%Sub; apply In; tauto|]. split; [intros p d q Hp%Sub Hd Hq%Sub; apply If; tauto|].
    intros p d Hp Hd. destruct (Sub p Hp) as [Hpi Hpr']. destruct (decide (RemoveOp p ∈ later)) as [Hl|Hl]; [|by apply K].
    left. destruct (Ic p d Hpi Hd) as (q & Hq & Hne & Hm). exists q. split; [|done]. left. split; [done|]. intros Hqr.
    apply Hpr'. eapply bef_prefix; [exact Hn|exact E| |exact Hqr]. apply (B p q d Hne Hd Hm); rewrite E; set_solver.
  - assert (Sub : ∀ p, after (ds_installed ds) done p → after (ds_installed ds) (t_ops t) p).
    { intros p [[Hp Hr]|Hp]; [left; split; [done|]; rewrite E, elem_of_app; by intros [?|?%Hno]|right; rewrite E; set_solver]. }
    split; [intros p q Hp%Sub Hq%Sub; by apply (va_names _ _ _ _ _ V)|].
    split; [intros p d q Hp%Sub Hd Hq%Sub; by apply (va_conflicts _ _ _ _ _ V)|].
    intros p d Hp Hd. destruct (decide (InstallOp p ∈ done)) as [Hi|Hi].
    + left. destruct (va_closed _ _ _ _ _ V p d (Sub p Hp) Hd) as (q & Hq & Hne & Hm). exists q. split; [|done].
      destruct Hq as [[Hq Hr]|Hq]; [left; split; [done|]; rewrite E in Hr; set_solver|right].
      eapply bef_prefix; [exact Hn|exact E| |exact Hi]. apply (B p q d Hne Hd Hm); [rewrite E; set_solver|done].
    + destruct Hp as [[Hp Hr]|Hp]; [|done]. apply K; [by left|done|done|apply Hno|done].
Qed.

(** If nothing that stays depends on a package that goes away, every intermediate state is consistent. *)
Theorem C85_consistent : ∀ e repos ds fuel rq jobs t done later, env_ok e → setting repos ds → asks ds rq jobs →
  ds_pruning ds = true → single_names (mjoin repos) → same_metadata (mjoin repos) (ds_installed ds) →
  removes_known (mjoin repos) (ds_installed ds) jobs →
  closed_set (rq_mods rq) (λ p, p ∈ ds_installed ds) → one_version (λ p, p ∈ ds_installed ds) → no_conflict (λ p, p ∈ ds_installed ds) →
  solve e ds fuel rq = Ok (Normal t) → t_ops t = done ++ later →
  (∀ p d q, p ∈ ds_installed ds → RemoveOp p ∉ t_ops t → d ∈ p_requires p → RemoveOp q ∈ t_ops t → ¬ dep_meets (rq_mods rq) d q) →
  closed_set (rq_mods rq) (after (ds_installed ds) done).
Proof.
  intros e repos ds fuel rq jobs t done later He Hset Hask Hpr H1 H3 H2 Ic In If H E Hk p d Hp Hd.
  destruct (C85_states e repos ds fuel rq jobs t done later He Hset Hask Hpr H1 H3 H2 Ic In If H E) as (_ & _ & S). clear H.
  destruct (S p d Hp Hd) as [?|(Hpi & Hpn & q & Hq & Hm)]; [done|]. exfalso. apply (Hk p d q); [done|done|done|rewrite E; set_solver|done].
Qed.

(** ** Trying again after an interruption: the request is not refused, as long as what the first attempt was to leave behind is
    available: what is installed now ([repos'] has it) and the packages that were to be installed. *)
Theorem C85_retry : ∀ e e' repos repos' ds ds' fuel fuel' rq t done later c k s, env_ok e → env_ok e' →
  setting repos ds → setting repos' ds' → Forall plain_job (rq_jobs rq) → (∀ j, j ∈ rq_jobs rq → is_Some (j_req j)) →
  ds_pruning ds = true → single_names (mjoin repos) → same_metadata (mjoin repos) (ds_installed ds) →
  removes_known (mjoin repos) (ds_installed ds) (rq_jobs rq) →
  solve e ds fuel rq = Ok (Normal t) → t_ops t = done ++ later →
  (∀ p, p ∈ ds_installed ds' ↔ after (ds_installed ds) done p) →
  (∀ p, InstallOp p ∈ t_ops t → p ∈ mjoin repos') →
  solve e' ds' fuel' rq ≠ Ok (Unsat c k s).
Proof.
  intros e e' repos repos' ds ds' fuel fuel' rq t done later c k s He He' Hset Hset' Hpl Hreq Hpr H1 H3 H2 H E Hi Hav H'.
  assert (Hask : ∀ d : dep_solver, asks d rq (rq_jobs rq)).
  { intros d. left. split; [|done]. intros j Hj Hk. rewrite Forall_forall in Hpl. destruct (Hpl j Hj) as [X|[X|X]]; congruence. }
  assert (V := C16_valid e repos ds fuel rq (rq_jobs rq) t He Hset (Hask ds) Hpr H1 H3 H2 H). clear H.
  apply (C15_unsat e' repos' ds' fuel' rq (rq_jobs rq) c k s He' Hset' (Hask ds') H'). clear H'.
  exists (after (ds_installed ds) (t_ops t)). destruct V as [V1 V2 V3 V4 V5]. split; [|idtac|done|done|done].
  - intros p [[Hp Hr]|Hp]; [|by apply Hav]. apply (sv_installed _ _ Hset'). apply Hi. left. split; [done|]. rewrite E in Hr. set_solver.
  - intros j Hj. assert (J := V2 j Hj). unfold job_ok in *. rewrite Forall_forall in Hpl.
    destruct (j_req j) as [r|]; [|done]. destruct (Hpl j Hj) as [X|[X|X]]; rewrite X in J |- *; done.
Qed.

(** ** Examples *)
Local Notation inst_pkg n v rq := (Pkg n (V v 0) rq [] [] (Some "i")).
Local Notation rem_pkg n v rq := (Pkg n (V v 0) rq [] [] (Some "r")).
(** The transaction of C16_example (which meets all hypotheses) after its two removals: "misc" has lost "lib" and waits for the new one. *)
Theorem C85_example : closed_set no_mods (λ p, p ∈ ex_installed) ∧ one_version (λ p, p ∈ ex_installed) ∧ no_conflict (λ p, p ∈ ex_installed) ∧
  ∃ t done later, solve env0 (ex_ds true) 60 ex_request = Ok (Normal t) ∧ t_ops t = done ++ later ∧ done ≠ [] ∧ later ≠ [] ∧
    ¬ closed_set no_mods (after ex_installed done).
Proof.
  split; [apply closed_b_spec; vm_compute; reflexivity|]. split; [apply names_b_spec; vm_compute; reflexivity|].
  split; [apply conflicts_b_spec; vm_compute; reflexivity|].
  destruct C16_example as (_ & _ & _ & _ & _ & _ & _ & _ & _ & _ & _ & t & Et & Ho).
  exists t, (take 2 ex_ops), (drop 2 ex_ops). split; [exact Et|]. clear Et. split; [rewrite Ho; reflexivity|]. split; [discriminate|]. split; [discriminate|].
  intros C. destruct (C (Pkg "misc" (V 1 0) [("lib", [])] [] [] (Some "i")) ("lib", [])) as (q & Hq & Hne & Hm); [|left|].
  - left. split; [right; right; left|]. intros Hr. apply elem_of_cons in Hr as [Hr|Hr]; [discriminate Hr|]. apply elem_of_list_singleton in Hr. discriminate Hr.
  - apply Hne. apply after_l_spec in Hq. apply elem_of_list_singleton. exact Hq.
Qed.
(** Trying again need not lead to the same packages: what has been removed may be forgotten.  A request to remove b-1 replaces it by b-2
    (see C70_remove_refuted); interrupted after the removal and solved again, nothing is left to do, and no b is there. *)
Theorem C85_resume_refuted : ∃ repos repos' ds ds' rq t t' done later p, setting repos ds ∧ setting repos' ds' ∧
  Forall plain_job (rq_jobs rq) ∧ ds_pruning ds = true ∧ single_names (mjoin repos) ∧ same_metadata (mjoin repos) (ds_installed ds) ∧
  removes_known (mjoin repos) (ds_installed ds) (rq_jobs rq) ∧
  solve env0 ds 60 rq = Ok (Normal t) ∧ t_ops t = done ++ later ∧
  (∀ q, q ∈ ds_installed ds' ↔ after (ds_installed ds) done q) ∧ ds_remote ds' = ds_remote ds ∧
  solve env0 ds' 60 rq = Ok (Normal t') ∧
  after (ds_installed ds) (t_ops t) p ∧ ∀ q, ¬ after (ds_installed ds') (t_ops t') q.
Proof.
  assert (∃ t, solve env0 need_ds 60 need_request = Ok (Normal t) ∧ t_ops t = [RemoveOp (inst_pkg "b" 1 []); InstallOp (rem_pkg "b" 2 [])]) as (t & Et & Ho) by run.
  set (ds' := ds0 [need_remote; []] [need_remote] [] true false).
  assert (∃ t, solve env0 ds' 60 need_request = Ok (Normal t) ∧ t_ops t = []) as (t' & Et' & Ho') by run.
  exists [need_remote; need_installed], [need_remote; []], need_ds, ds', need_request, t, t', [RemoveOp (inst_pkg "b" 1 [])], [InstallOp (rem_pkg "b" 2 [])], (rem_pkg "b" 2 []).
  split; [run|]. split; [run|]. split; [repeat constructor; right; by right|]. split; [reflexivity|]. split; [run|]. split; [run|]. split; [run|].
  split; [exact Et|]. clear Et. split; [rewrite Ho; reflexivity|]. split.
  { clear Et'. intros q. split; [intros Hq; by apply elem_of_nil in Hq|]. intros [[Hq Hr]|Hq].
    - apply elem_of_list_singleton in Hq as ->. exfalso. apply Hr. left.
    - apply elem_of_list_singleton in Hq. discriminate Hq. }
  split; [reflexivity|]. split; [exact Et'|]. clear Et'. rewrite Ho, Ho'. split; [right; right; left|].
  intros q [[Hq _]|Hq]; by apply elem_of_nil in Hq.
Qed.
(** An upgrade that is interrupted and started again loses the packages that had been removed. *)
Definition cr_remote : list package := [rem_pkg "A" 2 []].
Definition cr_installed : list package := [inst_pkg "A" 1 []].
Definition cr_ds : dep_solver := ds0 [cr_remote; cr_installed] [cr_remote] cr_installed true false.
Theorem C85_upgrade_refuted : ∃ repos repos' ds ds' rq t t' done later p, setting repos ds ∧ setting repos' ds' ∧
  upgrade_request rq ∧ ds_pruning ds = true ∧ single_names (mjoin repos) ∧ same_metadata (mjoin repos) (ds_installed ds) ∧
  solve env0 ds 60 rq = Ok (Normal t) ∧ t_ops t = done ++ later ∧
  (∀ q, q ∈ ds_installed ds' ↔ after (ds_installed ds) done q) ∧ ds_remote ds' = ds_remote ds ∧
  solve env0 ds' 60 rq = Ok (Normal t') ∧
  after (ds_installed ds) (t_ops t) p ∧ ∀ q, ¬ after (ds_installed ds') (t_ops t') q.
Proof.
  assert (∃ t, solve env0 cr_ds 60 up_request = Ok (Normal t) ∧ t_ops t = [RemoveOp (inst_pkg "A" 1 []); InstallOp (rem_pkg "A" 2 [])]) as (t & Et & Ho) by run.
  set (ds' := ds0 [cr_remote; []] [cr_remote] [] true false).
  assert (∃ t, solve env0 ds' 60 up_request = Ok (Normal t) ∧ t_ops t = []) as (t' & Et' & Ho') by run.
  exists [cr_remote; cr_installed], [cr_remote; []], cr_ds, ds', up_request, t, t', [RemoveOp (inst_pkg "A" 1 [])], [InstallOp (rem_pkg "A" 2 [])], (rem_pkg "A" 2 []).
  split; [run|]. split; [run|]. split; [exact up_is|]. split; [reflexivity|]. split; [run|]. split; [run|].
  split; [exact Et|]. clear Et. split; [rewrite Ho; reflexivity|]. split.
  { clear Et'. intros q. split; [intros Hq; by apply elem_of_nil in Hq|]. intros [[Hq Hr]|Hq].
    - apply elem_of_list_singleton in Hq as ->. exfalso. apply Hr. left.
    - apply elem_of_list_singleton in Hq. discriminate Hq. }
  split; [reflexivity|]. split; [exact Et'|]. clear Et'. rewrite Ho, Ho'. split; [right; right; left|].
  intros q [[Hq _]|Hq]; by apply elem_of_nil in Hq.
Qed.
Print Assumptions C85_states. Print Assumptions C85_consistent. Print Assumptions C85_retry. Print Assumptions C85_example.
Print Assumptions C85_resume_refuted. Print Assumptions C85_upgrade_refuted.
