(** * Property C70: nothing is installed without need. *)
From Verif Require Import PoolProofs PropPool PropConstraints SpecSat ConstraintProofs PropRules SatLearn RepositoryProofs.
From Verif Require Export PropSolve.
From Verif Require Import PropLimits SpecCheck.

(** Why a package is there, [S] being the packages present: it provides a name that an installed package or one the request is
    about provides, or the name of a dependency of a package that is there for such a reason. *)
Inductive wanted (pkgs inst : list package) (jobs : list job) (S : package → Prop) : package → Prop :=
  | wanted_name p q n : S p → provides p n → q ∈ pkgs → provides q n → (q ∈ inst ∨ ∃ j, j ∈ jobs ∧ job_about pkgs inst j q) →
      wanted pkgs inst jobs S p
  | wanted_dep p d q : wanted pkgs inst jobs S p → d ∈ p_requires p → S q → provides q d.1 → wanted pkgs inst jobs S q.
Lemma wanted_in pkgs inst jobs S p : wanted pkgs inst jobs S p → S p.
Proof. by destruct 1. Qed.

Theorem C70_wanted : ∀ e repos ds fuel rq jobs t p, env_ok e → setting repos ds → asks ds rq jobs →
  ds_pruning ds = true → same_metadata (mjoin repos) (ds_installed ds) →
  solve e ds fuel rq = Ok (Normal t) →
  after (ds_installed ds) (t_ops t) p →
  wanted (mjoin repos) (ds_installed ds) jobs (after (ds_installed ds) (t_ops t)) p.
Proof.
  intros e repos ds fuel rq jobs t p He Hset Hask Hpr H3 H Hp. assert (Hf := solve_found _ He _ _ Hset _ _ _ Hask _ H). open_found Hf.
  destruct (Hconn Hpr) as (X & HX & ->).
  assert (Hc := connected_spec e He po _ R (sv_keys _ _ Hset) (solution_to_ids a)
    (sol_lit po _ _ _ _ (run_solved e He po _ R (sv_keys _ _ Hset) _ (sv_installed _ _ Hset) _ _ _ _ _ _ _ _ _ PB _ _ Hrun)) _
    (roots_ok e po _ R (sv_keys _ _ Hset) _ (sv_installed _ _ Hset) _ _ _ _ _ _ _ _ _ PB) fuel X HX).
  destruct Hc as (n2i & N & _ & HN & Hn1 & Hn2 & _ & HX').
  set (S := after (ds_installed ds) (t_ops t)) in *.
  assert (Hpid : ∀ q, pid po q ∈ e_ord e 2 X ↔ pid po q ∈ X) by (intros q; apply (e_ord_elem e He)).
  assert (Hab : ∀ q, (∃ j, j ∈ jobs' ∧ job_about (mjoin repos) (ds_installed ds) j q) → ∃ j, j ∈ jobs ∧ job_about (mjoin repos) (ds_installed ds) j q).
  { intros q (j & Hj1 & Hj2). exists j. split; [by apply Hj|done]. }
  assert (Hroot : ∀ q, q ∈ mjoin repos → pid po q ∈ inst_set po (ds_installed ds) ∪ list_to_set ids →
    q ∈ ds_installed ds ∨ ∃ j, j ∈ jobs ∧ job_about (mjoin repos) (ds_installed ds) j q).
  { intros q Hq Hr. apply (roots_pid e po _ R (sv_keys _ _ Hset) _ (sv_installed _ _ Hset) _ _ _ _ _ _ _ _ _ PB q Hq) in Hr as [?|?]; auto. }
  (* What is pulled is wanted, under the name it is present. *)
  assert (G : ∀ i, pulled po (mjoin repos) n2i N i → ∀ q q', q ∈ mjoin repos → i = pid po q → tau e po (mjoin repos) (ds_installed ds) q q' →
    wanted (mjoin repos) (ds_installed ds) jobs S q').
  { intros i Hi. induction Hi as [nm i Hnm Hi|x d i Hx Hpl IH Hd Hi]; intros q q' Hq -> Ht.
    - destruct (Hn1 _ _ Hi) as (z & Hz & Ez & _ & Hzn). apply (pid_inj po _ R (sv_keys _ _ Hset)) in Ez as <-; [|done|done].
      destruct (tau_meta0 e po _ _ (sv_installed _ _ Hset)) with (q := q) (q' := q') as (_ & _ & Ep & En & _ & Hl'); [intros ? ? ? ? [? ?]; by apply H3|done|done|].
      assert (Hnm2 := Hnm). apply HN in Hnm2 as (z & Hz' & Hzr & Hzn'). eapply (wanted_name _ _ _ _ q' z nm); [| |done|done|by apply Hroot].
      + eapply (decided_after e He po _ R (sv_keys _ _ Hset) _ (sv_installed _ _ Hset)); [exact D|exact OK|exact Hq| |exact Ht].
        apply Hpid, HX'. left. by eapply pulled_root.
      + unfold provides in *. by rewrite Ep, En.
    - destruct (Hn1 _ _ Hi) as (z & Hz & Ez & _ & Hzn). apply (pid_inj po _ R (sv_keys _ _ Hset)) in Ez as <-; [|done|done].
      destruct (tau_meta0 e po _ _ (sv_installed _ _ Hset)) with (q := q) (q' := q') as (_ & _ & Ep & En & _ & Hl'); [intros ? ? ? ? [? ?]; by apply H3|done|done|].
      destruct (tau_total e He po _ R (sv_keys _ _ Hset) _ (sv_installed _ _ Hset) x Hx) as (x' & Hx').
      destruct (tau_meta0 e po _ _ (sv_installed _ _ Hset)) with (q := x) (q' := x') as (Er & _); [intros ? ? ? ? [? ?]; by apply H3|done|done|].
      eapply (wanted_dep _ _ _ _ x' d q'); [exact (IH x x' Hx eq_refl Hx')|by rewrite Er| |].
      + eapply (decided_after e He po _ R (sv_keys _ _ Hset) _ (sv_installed _ _ Hset)); [exact D|exact OK|exact Hq| |exact Ht].
        apply Hpid, HX'. left. exact (pulled_dep po _ n2i N x d _ Hx Hpl Hd Hi).
      + unfold provides in *. by rewrite Ep, En. }
  destruct Hp as [[Hi Hn]|Hi].
  - eapply (wanted_name _ _ _ _ p p (p_name p)); [by left|by left|by apply (sv_installed _ _ Hset)|by left|by left].
  - destruct (install_val e He po _ R (sv_keys _ _ Hset) _ (sv_installed _ _ Hset) _ _ _ D _ _ _ OK p Hi) as (Hl & Hni & _).
    assert (Hi2 := Hi). apply (ins_iff e po _ _ _ _ _ _ OK) in Hi2. apply (ok_ins _ _ _ _ _ _ _ OK) in Hi2 as ([_ Hd] & _ & Hfr).
    apply Hpid, HX' in Hd as [Hd|[_ Hd]].
    + apply (G _ Hd p p Hl eq_refl). left. split; [done|]. right. by apply (fresh_iff e He po _ R (sv_keys _ _ Hset) _ (sv_installed _ _ Hset)) in Hfr.
    + assert (Z.abs (pid po p) = pid po p) as Ea. { pose proof (pid_pos po _ R p Hl). lia. }
      rewrite Ea in Hd. eapply (wanted_name _ _ _ _ p p (p_name p)); [by right|by left|done|by left|by apply Hroot].
Qed.

(** Of what is present only packages that keep the names of installed packages can be left out: a valid installation among the
    packages present that has every one of those is all that is present. *)
Theorem C70_minimal : ∀ e repos ds fuel rq jobs t S, env_ok e → setting repos ds → asks ds rq jobs →
  ds_pruning ds = true → single_names (mjoin repos) → same_metadata (mjoin repos) (ds_installed ds) →
  removes_known (mjoin repos) (ds_installed ds) jobs →
  solve e ds fuel rq = Ok (Normal t) →
  valid (mjoin repos) (ds_installed ds) (rq_mods rq) jobs S →
  (∀ p, S p → after (ds_installed ds) (t_ops t) p) →
  (∀ p i, after (ds_installed ds) (t_ops t) p → i ∈ ds_installed ds → p_name i = p_name p → S p) →
  ∀ p, after (ds_installed ds) (t_ops t) p → S p.
Proof.
  intros e repos ds fuel rq jobs t S He Hset Hask Hpr H1 H3 H2 H V Hsub Hkeep p Hp.
  assert (V' := C16_valid _ _ _ _ _ _ _ He Hset Hask Hpr H1 H3 H2 H).
  assert (W := C70_wanted _ _ _ _ _ _ _ p He Hset Hask Hpr H3 H Hp). clear Hp.
  assert (U : ∀ p q n, after (ds_installed ds) (t_ops t) p → provides p n → after (ds_installed ds) (t_ops t) q → provides q n → p = q).
  { intros x y n Hx Hxn Hy Hyn. apply (va_names _ _ _ _ _ V'); [done|done|]. apply (H1 x y n); [| |done|done]; by apply (va_sub _ _ _ _ _ V'). }
  induction W as [p q n Hp Hpn Hq Hqn Hr|x d q Hx IH Hd Hq Hqn].
  - assert (En : p_name q = p_name p) by (apply (H1 q p n); [done|by apply (va_sub _ _ _ _ _ V')|done|done]).
    destruct Hr as [Hi|(j & Hj & r & Hjr & Hab)]; [by eapply Hkeep|].
    assert (J := va_jobs _ _ _ _ _ V j Hj). assert (J' := va_jobs _ _ _ _ _ V' j Hj). unfold job_ok in J, J'. rewrite Hjr in J, J'.
    assert (Same : ∀ z, S z → provides z (r_name r) → req_meets r q → S p).
    { intros z Hz Hzn [Hqr _]. replace p with z; [done|]. apply (va_names _ _ _ _ _ V'); [by apply Hsub|done|].
      rewrite <-En. apply (H1 z q (r_name r)); [by apply (va_sub _ _ _ _ _ V)|done|done|done]. }
    destruct (j_kind j) eqn:Hk.
    + destruct Hab as [_ Hm]. destruct J as (z & Hz & Hzn & _). by eapply Same.
    + destruct Hab as [Hql Hm]. destruct (H2 j r Hj Hk Hjr) as [(i & Hi & Hin)|Hall].
      * apply (Hkeep p i); [done|done|]. rewrite <-En. apply (H1 i q (r_name r)); [by apply (sv_installed _ _ Hset)|done|done|apply Hm].
      * exfalso. apply (J' p Hp). apply (Hall q p); [done|by apply (va_sub _ _ _ _ _ V')|done|done].
    + destruct Hab as [_ Hm]. destruct J as (z & Hz & Hzn & _). by eapply Same.
    + assert (Hm : req_meets r q) by (by destruct Hab as (? & ? & _ & ? & _)). apply (Same q); [by apply J|apply Hm|done].
    + done.
  - destruct (va_closed _ _ _ _ _ V x d IH Hd) as (z & Hz & _ & Hzn & _). replace q with z; [done|]. eapply (U z q); [by apply Hsub|exact Hzn|done|exact Hqn].
Qed.

(** So each package that is installed either takes the place of a removed one of its name or cannot be done without. *)
Theorem C70_no_spare : ∀ e repos ds fuel rq jobs t p, env_ok e → setting repos ds → asks ds rq jobs →
  ds_pruning ds = true → single_names (mjoin repos) → same_metadata (mjoin repos) (ds_installed ds) →
  removes_known (mjoin repos) (ds_installed ds) jobs →
  solve e ds fuel rq = Ok (Normal t) →
  InstallOp p ∈ t_ops t →
  (∃ i, RemoveOp i ∈ t_ops t ∧ p_name i = p_name p) ∨
  ¬ valid (mjoin repos) (ds_installed ds) (rq_mods rq) jobs (λ q, after (ds_installed ds) (t_ops t) q ∧ q ≠ p).
Proof.
  intros e repos ds fuel rq jobs t p He Hset Hask Hpr H1 H3 H2 H Hp.
  assert (V' := C16_valid _ _ _ _ _ _ _ He Hset Hask Hpr H1 H3 H2 H).
  destruct (decide (Exists (λ i, RemoveOp i ∈ t_ops t ∧ p_name i = p_name p) (ds_installed ds))) as [Hx|Hno].
  { left. apply Exists_exists in Hx as (i & _ & Hi). by exists i. }
  right. intros V.
  assert (Hni : p ∉ ds_installed ds).
  { assert (Hf := solve_found _ He _ _ Hset _ _ _ Hask _ H). open_found Hf.
    by destruct (install_val e He po _ R (sv_keys _ _ Hset) _ (sv_installed _ _ Hset) _ _ _ D _ _ _ OK p Hp) as (_ & ? & _). }
  destruct (C70_minimal _ _ _ _ _ _ _ _ He Hset Hask Hpr H1 H3 H2 H V) with (p := p) as [_ Hne]; [by intros q [? _]| |by right|done].
  intros q i Hq Hi Hn. split; [done|]. intros ->.
  destruct (decide (RemoveOp i ∈ t_ops t)) as [Hr|Hr]; [apply Hno, Exists_exists; by exists i|].
  apply Hni. replace p with i; [done|]. apply (va_names _ _ _ _ _ V'); [by left|done|done].
Qed.
Print Assumptions C70_wanted.
Print Assumptions C70_minimal.
Print Assumptions C70_no_spare.

(** ** Examples *)
Local Notation inst_pkg n v rq := (Pkg n (V v 0) rq [] [] (Some "i")).
Local Notation rem_pkg n v rq := (Pkg n (V v 0) rq [] [] (Some "r")).
(** C16_example meets all hypotheses; two of its three new packages do not replace any. *)
Theorem C70_example : ∃ t, solve env0 (ex_ds true) 60 ex_request = Ok (Normal t) ∧
  ∃ p q, InstallOp p ∈ t_ops t ∧ InstallOp q ∈ t_ops t ∧ p ≠ q ∧
    ∀ i, RemoveOp i ∈ t_ops t → p_name i ≠ p_name p ∧ p_name i ≠ p_name q.
Proof.
  destruct C16_example as (_ & _ & _ & _ & _ & _ & _ & _ & _ & _ & _ & t & Et & Ho). exists t. split; [done|]. rewrite Ho.
  eexists _, _. split; [do 3 right; left|]. split; [do 4 right; left|]. split; [done|].
  intros i Hi. do 2 (apply elem_of_cons in Hi as [[= ->]|Hi]; [split; done|]).
  do 3 (apply elem_of_cons in Hi as [Hi|Hi]; [discriminate Hi|]). apply elem_of_nil in Hi. destruct Hi.
Qed.
(** That nothing can be left out is false in general: asked to remove one version of a package, the solver installs another
    one, which nothing needs. *)
Definition need_remote : list package := [rem_pkg "b" 1 []; rem_pkg "b" 2 []].
Definition need_installed : list package := [inst_pkg "b" 1 []].
Definition need_ds : dep_solver := ds0 [need_remote; need_installed] [need_remote] need_installed true false.
Definition need_request : request := ask [Job (Some (Req RInstall "b" [CEqual (V 1 0)])) JRemove].
Theorem C70_remove_refuted : ∃ e repos ds fuel rq jobs t p, env_ok e ∧ setting repos ds ∧ asks ds rq jobs ∧
  ds_pruning ds = true ∧ single_names (mjoin repos) ∧ same_metadata (mjoin repos) (ds_installed ds) ∧
  removes_known (mjoin repos) (ds_installed ds) jobs ∧
  solve e ds fuel rq = Ok (Normal t) ∧ (∀ j, j ∈ jobs → j_kind j = JRemove) ∧ InstallOp p ∈ t_ops t ∧
  valid (mjoin repos) (ds_installed ds) (rq_mods rq) jobs (λ q, after (ds_installed ds) (t_ops t) q ∧ q ≠ p).
Proof.
  assert (∃ t, solve env0 need_ds 60 need_request = Ok (Normal t) ∧ t_ops t = [RemoveOp (inst_pkg "b" 1 []); InstallOp (rem_pkg "b" 2 [])]) as (t & Et & Ho) by run.
  exists env0, [need_remote; need_installed], need_ds, 60%nat, need_request, (rq_jobs need_request), t, (rem_pkg "b" 2 []).
  split; [apply env0_ok|]. split; [run|]. split; [run|]. split; [done|]. split; [run|]. split; [run|]. split; [run|]. split; [exact Et|]. clear Et.
  split; [intros j Hj; apply elem_of_list_singleton in Hj as ->; done|]. rewrite Ho. split; [right; left|].
  assert (E : ∀ q, ¬ (after (ds_installed need_ds) [RemoveOp (inst_pkg "b" 1 []); InstallOp (rem_pkg "b" 2 [])] q ∧ q ≠ rem_pkg "b" 2 [])).
  { intros q [[[Hi Hn]|Hi] Hne].
    - apply elem_of_list_singleton in Hi as ->. apply Hn. left.
    - apply elem_of_cons in Hi as [?|Hi]; [done|]. apply elem_of_list_singleton in Hi as [= ->]. by apply Hne. }
  split; try (intros; exfalso; by eapply E).
  - intros j Hj. apply elem_of_list_singleton in Hj as ->. intros q Hq. by destruct (E q).
  - intros p d Hp. by destruct (E p).
  - intros p q Hp. by destruct (E p).
  - intros p d q Hp. by destruct (E p).
Qed.
Print Assumptions C70_example.
Print Assumptions C70_remove_refuted.
