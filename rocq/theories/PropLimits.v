(** * Examples and limits of the solver: concrete runs that meet the hypotheses of the theorems of
    PropSolve.v and PropTotal.v, and runs that refute stronger claims (C17, C18, C23, C30, C44, C45). *)
From Verif Require Export PropRules SpecCheck PropTotal PropHint.

Local Notation inst_pkg n v rq cf pv := (Pkg n (V v 0) rq cf pv (Some "i")).
Local Notation rem_pkg n v rq cf pv := (Pkg n (V v 0) rq cf pv (Some "r")).
Definition want (n : string) : job := Job (Some (Req RInstall n [CAny])) JInstall.
Definition ask (js : list job) : request := Request no_mods js.
Ltac run :=
  lazymatch goal with
  | |- setting _ _ => apply setting_b_spec
  | |- single_names _ => apply single_b_spec
  | |- same_metadata _ _ => apply same_b_spec
  | |- removes_known _ _ _ => apply removes_b_spec
  | |- one_version _ => apply names_b_spec
  | |- asks _ _ _ => apply plain_asks
  | |- ∃ t, _ => apply ran_spec
  | |- _ => apply raised_spec
  end; vm_compute; reflexivity.

(** ** A run that meets all hypotheses *)
Definition ex_remote : list package :=
  [rem_pkg "app" 1 [("lib", [[[CGeq (V 1 0)]]])] [] []; rem_pkg "app" 2 [("lib", [[[CGeq (V 2 0)]]]); ("gui", [])] [] [];
   rem_pkg "lib" 1 [] [] []; rem_pkg "lib" 2 [] [("old", [])] []; rem_pkg "lib" 3 [("ghost", [])] [] [];
   rem_pkg "gui" 1 [("lib", [])] [] [("toolkit", [])]; rem_pkg "old" 1 [] [] []].
Definition ex_installed : list package := [inst_pkg "lib" 1 [] [] []; inst_pkg "old" 1 [] [] []; inst_pkg "misc" 1 [("lib", [])] [] []].
Definition ex_request : request :=
  ask [want "app"; Job (Some (Req RInstall "old" [CLt (V 2 0)])) JRemove;
       Job (Some (Req RInstall "toolkit" [CAny])) JHardUpdate; Job (Some (Req RInstall "lib" [CAny])) JSoftUpdate].
Definition ex_ds (pruning : bool) : dep_solver := ds0 [ex_remote; ex_installed] [ex_remote] ex_installed pruning false.
Definition ex_rank (p : package) : nat :=
  if bool_decide (p_name p = "lib") then 0%nat else if bool_decide (p_name p = "gui") then 1%nat else 2%nat.
Definition ex_ops : list operation :=
  [RemoveOp (inst_pkg "old" 1 [] [] []); RemoveOp (inst_pkg "lib" 1 [] [] []);
   InstallOp (rem_pkg "lib" 2 [] [("old", [])] []);
   InstallOp (rem_pkg "gui" 1 [("lib", [])] [] [("toolkit", [])]);
   InstallOp (rem_pkg "app" 2 [("lib", [[[CGeq (V 2 0)]]]); ("gui", [])] [] [])].
Theorem C16_example : setting [ex_remote; ex_installed] (ex_ds true) ∧ asks (ex_ds true) ex_request (rq_jobs ex_request) ∧
  ds_pruning (ex_ds true) = true ∧ ds_strict (ex_ds true) = false ∧
  single_names (mjoin [ex_remote; ex_installed]) ∧ same_metadata (mjoin [ex_remote; ex_installed]) ex_installed ∧
  removes_known (mjoin [ex_remote; ex_installed]) ex_installed (rq_jobs ex_request) ∧ one_version (λ p, p ∈ ex_installed) ∧
  (∀ p, p ∈ mjoin [ex_remote; ex_installed] → interpretable no_mods p) ∧
  (∀ j, j ∈ rq_jobs ex_request → has_candidate (mjoin [ex_remote; ex_installed]) j) ∧
  acyclic (mjoin [ex_remote; ex_installed]) no_mods ∧
  ∃ t, solve env0 (ex_ds true) 60 ex_request = Ok (Normal t) ∧ t_ops t = ex_ops.
Proof.
  split; [run|]. split; [run|]. split; [done|]. split; [done|]. split; [run|]. split; [run|]. split; [run|]. split; [run|].
  split; [apply interp_b_spec; vm_compute; reflexivity|]. split; [apply cand_b_spec; vm_compute; reflexivity|].
  split; [apply (ranked_b_spec ex_rank); vm_compute; reflexivity|]. run.
Qed.
(** Also the hypotheses of C13 and C14 are met: a valid installation with everything that need not be
    removed, and with the newest candidates. *)
Theorem C13_example : valid (mjoin [ex_remote; ex_installed]) ex_installed no_mods (rq_jobs ex_request)
    (λ p, p ∈ after_l ex_installed ex_ops) ∧
  (∀ q, q ∈ ex_installed → RemoveOp q ∉ ex_ops → q ∈ after_l ex_installed ex_ops).
Proof.
  split; [apply valid_b_spec; vm_compute; reflexivity|]. intros q Hq Hr. apply after_l_spec. by left.
Qed.
(** Without pruning (C18). *)
Theorem C18_example : setting [ex_remote; ex_installed] (ex_ds false) ∧ ds_pruning (ex_ds false) = false ∧
  same_metadata (mjoin [ex_remote; ex_installed]) ex_installed ∧
  ∃ t, solve env0 (ex_ds false) 60 ex_request = Ok (Normal t) ∧ t_ops t = ex_ops.
Proof. split; [run|]. split; [done|]. split; [run|]. run. Qed.
(** A request without a valid installation (C15). *)
Definition ex_bad : request := ask [Job (Some (Req RInstall "app" [CGt (V 1 0)])) JInstall; want "old"].
Theorem C15_example : setting [ex_remote; ex_installed] (ex_ds true) ∧ asks (ex_ds true) ex_bad (rq_jobs ex_bad) ∧
  ∃ c k s, solve env0 (ex_ds true) 60 ex_bad = Ok (Unsat c k s).
Proof.
  split; [run|]. split; [run|].
  assert (match solve env0 (ex_ds true) 60 ex_bad with Ok (Unsat _ _ _) => true | _ => false end = true) as H by (vm_compute; reflexivity).
  destruct (solve env0 (ex_ds true) 60 ex_bad) as [[t|c k s]|]; try done. eauto.
Qed.
(** The hint names the two conflicting jobs (C26). *)
Definition ex_worse : request := ask [want "misc"; Job (Some (Req RInstall "app" [CGt (V 1 0)])) JInstall; want "lib"; want "old"].
Theorem C26_example : asks (ex_ds true) ex_worse (rq_jobs ex_worse) ∧ removes_known (mjoin [ex_remote; ex_installed]) ex_installed (rq_jobs ex_worse) ∧
  (∀ j, j ∈ rq_jobs ex_worse → has_candidate (mjoin [ex_remote; ex_installed]) j) ∧
  solve_with_hint env0 (ex_ds true) 60 ex_worse = Ok (inr [Job (Some (Req RInstall "app" [CGt (V 1 0)])) JInstall; want "old"]).
Proof. split; [run|]. split; [run|]. split; [apply cand_b_spec; vm_compute; reflexivity|]. vm_compute. reflexivity. Qed.
(** An installed set that already is what the request asks for (C23). *)
Definition ex_kept : request := ask [want "misc"; want "lib"].
Theorem C23_example : asks (ex_ds true) ex_kept (rq_jobs ex_kept) ∧ removes_known (mjoin [ex_remote; ex_installed]) ex_installed (rq_jobs ex_kept) ∧
  valid (mjoin [ex_remote; ex_installed]) ex_installed no_mods (rq_jobs ex_kept) (λ p, p ∈ ex_installed) ∧
  (∀ p, p ∈ ex_installed → ¬ soft (rq_jobs ex_kept) p) ∧
  ∃ t, solve env0 (ex_ds true) 60 ex_kept = Ok (Normal t) ∧ t_ops t = [].
Proof.
  split; [run|]. split; [run|]. split; [apply valid_b_spec; vm_compute; reflexivity|]. split; [|run].
  intros p _ (j & r & Hj & Hk & _). unfold ex_kept, want in Hj. cbn in Hj.
  rewrite !elem_of_cons, elem_of_nil in Hj. destruct Hj as [->|[->|[]]]; done.
Qed.

(** ** Upgrades *)
Definition up_request : request := ask [Job None JUpgrade].
Definition up_remote : list package := [rem_pkg "A" 1 [] [] []; rem_pkg "A" 3 [("B", [])] [] []; rem_pkg "B" 1 [] [] []; rem_pkg "C" 2 [] [] []].
Definition up_installed : list package := [inst_pkg "A" 2 [] [] []; inst_pkg "C" 2 [] [] []; inst_pkg "D" 1 [] [] []].
Definition up_ds : dep_solver := ds0 [up_remote; up_installed] [up_remote] up_installed true false.
Theorem C43_example : setting [up_remote; up_installed] up_ds ∧ upgrade_request up_request ∧
  single_names (mjoin [up_remote; up_installed]) ∧ same_metadata (mjoin [up_remote; up_installed]) up_installed ∧
  newest_remote [up_remote] "A" (V 3 0) ∧
  ∃ t, solve env0 up_ds 60 up_request = Ok (Normal t) ∧
    t_ops t = [RemoveOp (inst_pkg "A" 2 [] [] []); InstallOp (rem_pkg "B" 1 [] [] []); InstallOp (rem_pkg "A" 3 [("B", [])] [] [])].
Proof.
  split; [run|]. split; [by eexists|]. split; [run|]. split; [run|]. split; [|run].
  split; [exists (rem_pkg "A" 3 [("B", [])] [] []); cbn; set_solver|].
  intros q Hq _. cbn in Hq. rewrite !elem_of_cons, elem_of_nil in Hq. unfold vlt.
  destruct Hq as [->|[->|[->|[->|[]]]]]; cbn; lia.
Qed.

Lemma up_is : upgrade_request up_request.
Proof. by eexists. Qed.
(** The hypotheses of C44: an upgrade of [A], which is not newer than all remote versions. *)
Theorem C44_example : setting [up_remote; up_installed] up_ds ∧ upgrade_request up_request ∧ ds_pruning up_ds = true ∧
  single_names (mjoin [up_remote; up_installed]) ∧ same_metadata (mjoin [up_remote; up_installed]) up_installed ∧
  (∀ x, x ∈ mjoin [up_remote; up_installed] → x ∈ up_installed ∨ x ∈ mjoin [up_remote]) ∧
  inst_pkg "A" 2 [] [] [] ∈ up_installed ∧
  (∀ v, newest_remote [up_remote] "A" v → ¬ vlt v (V 2 0)) ∧
  ∃ t, solve env0 up_ds 60 up_request = Ok (Normal t) ∧
    t_ops t = [RemoveOp (inst_pkg "A" 2 [] [] []); InstallOp (rem_pkg "B" 1 [] [] []); InstallOp (rem_pkg "A" 3 [("B", [])] [] [])].
Proof.
  destruct C43_example as (H1 & H2 & H3 & H4 & _ & H5). split; [exact H1|]. split; [exact H2|]. split; [reflexivity|].
  split; [exact H3|]. split; [exact H4|]. split; [|split; [left|split; [|exact H5]]]; clear.
  - intros x Hx. cbn [mjoin list_join] in *. rewrite app_nil_r in *. apply elem_of_app in Hx as [Hx|Hx]; [by right|by left].
  - intros v [_ Hv] Hlt. specialize (Hv (rem_pkg "A" 3 [("B", [])] [] [])). apply Hv; [cbn; set_solver|reflexivity|].
    revert Hlt. unfold vlt. cbn. lia.
Qed.
(** C44: "upgrade never downgrades" is false: if the installed version is newer than every remote one,
    the package is replaced by the newest remote one. *)
Theorem C44_refuted : ∃ repos ds rq t p q, setting repos ds ∧ upgrade_request rq ∧ ds_pruning ds = true ∧
  single_names (mjoin repos) ∧ same_metadata (mjoin repos) (ds_installed ds) ∧
  solve env0 ds 20 rq = Ok (Normal t) ∧ p ∈ ds_installed ds ∧
  t_ops t = [RemoveOp p; InstallOp q] ∧ p_name q = p_name p ∧ vlt (p_version q) (p_version p).
Proof.
  set (i := inst_pkg "A" 2 [] [] []). set (r := rem_pkg "A" 1 [] [] []).
  assert (∃ t, solve env0 (ds0 [[r]; [i]] [[r]] [i] true false) 20 up_request = Ok (Normal t) ∧ t_ops t = [RemoveOp i; InstallOp r]) as (t & Ht & Hops) by run.
  exists [[r]; [i]], (ds0 [[r]; [i]] [[r]] [i] true false), up_request, t, i, r.
  split; [run|]. split; [exact up_is|]. split; [reflexivity|]. split; [run|]. split; [run|]. split; [exact Ht|].
  split; [left|]. split; [exact Hops|]. split; [reflexivity|]. apply vlt_b_spec. reflexivity.
Qed.

(** ** C17: pruning *)
(** If no name is provided by packages of different names, no needed dependency is dropped: every
    dependency of a present package is met by another present one. *)
Theorem C17_closed : ∀ e repos ds fuel rq jobs t p d, env_ok e → setting repos ds → asks ds rq jobs →
  ds_pruning ds = true → single_names (mjoin repos) → same_metadata (mjoin repos) (ds_installed ds) →
  removes_known (mjoin repos) (ds_installed ds) jobs →
  solve e ds fuel rq = Ok (Normal t) →
  after (ds_installed ds) (t_ops t) p → d ∈ p_requires p →
  ∃ q, after (ds_installed ds) (t_ops t) q ∧ q ≠ p ∧ dep_meets (rq_mods rq) d q.
Proof.
  intros e repos ds fuel rq jobs t p d He Hset Hask Hpr H1 H2 H3 Ht Hp Hd.
  exact (va_closed _ _ _ _ _ (C16_valid _ _ _ _ _ _ _ He Hset Hask Hpr H1 H2 H3 Ht) p d Hp Hd).
Qed.
(** With virtual packages a needed package can be dropped: both X-2 and Y-1 are selected and provide X,
    but only one of them is kept and B's dependency on X > 1 is not met. *)
Definition vp_pkgs : list package :=
  [rem_pkg "A" 1 [("X", [])] [] []; rem_pkg "B" 1 [("X", [[[CGt (V 1 0)]]])] [] []; rem_pkg "X" 2 [] [] []; rem_pkg "Y" 1 [] [] [("X", [])]].
Theorem C17_refuted : ∃ repos ds rq jobs t p d, setting repos ds ∧ asks ds rq jobs ∧ ds_pruning ds = true ∧
  same_metadata (mjoin repos) (ds_installed ds) ∧ removes_known (mjoin repos) (ds_installed ds) jobs ∧
  solve env0 ds 40 rq = Ok (Normal t) ∧ after (ds_installed ds) (t_ops t) p ∧ d ∈ p_requires p ∧
  ¬ ∃ q, after (ds_installed ds) (t_ops t) q ∧ dep_meets (rq_mods rq) d q.
Proof.
  set (ds := ds0 [vp_pkgs] [vp_pkgs] [] true false). set (rq := ask [want "A"; want "B"]).
  assert (∃ t, solve env0 ds 40 rq = Ok (Normal t) ∧ t_ops t =
    [InstallOp (rem_pkg "B" 1 [("X", [[[CGt (V 1 0)]]])] [] []); InstallOp (rem_pkg "Y" 1 [] [] [("X", [])]); InstallOp (rem_pkg "A" 1 [("X", [])] [] [])])
    as (t & Ht & Hops) by run.
  exists [vp_pkgs], ds, rq, (rq_jobs rq), t, (rem_pkg "B" 1 [("X", [[[CGt (V 1 0)]]])] [] []), ("X", [[[CGt (V 1 0)]]]).
  split; [run|]. split; [run|]. split; [reflexivity|]. split; [run|]. split; [run|]. split; [exact Ht|]. rewrite Hops.
  split; [right; left|]. split; [left|]. intros (q & Hq & Hd). apply after_l_spec in Hq. apply dep_b_spec in Hd.
  match type of Hq with _ ∈ ?l => let l' := eval vm_compute in l in change l with l' in Hq end.
  rewrite !elem_of_cons, elem_of_nil in Hq. destruct Hq as [->|[->|[->|[]]]]; vm_compute in Hd; discriminate Hd.
Qed.

(** ** C18: without pruning an installed package may lack its dependencies. *)
(** Installed A-1; remote A-2 conflicts with Y; Y needs Z, which does not exist.  Y only occurs in the
    conflict of A-2 and its own rules are not generated; the solver takes every variable it is left with. *)
Theorem C18_refuted : ∃ repos ds t p d, setting repos ds ∧ ds_pruning ds = false ∧ single_names (mjoin repos) ∧
  same_metadata (mjoin repos) (ds_installed ds) ∧
  solve env0 ds 40 (ask []) = Ok (Normal t) ∧ t_ops t = [InstallOp p] ∧ d ∈ p_requires p ∧
  ¬ ∃ q, q ∈ mjoin repos ∧ provides q d.1.
Proof.
  set (i := inst_pkg "A" 1 [] [] []). set (r := [rem_pkg "A" 2 [] [("Y", [])] []; rem_pkg "Y" 1 [("Z", [])] [] []; rem_pkg "B" 1 [] [] []]).
  assert (∃ t, solve env0 (ds0 [r; [i]] [r] [i] false false) 40 (ask []) = Ok (Normal t) ∧ t_ops t = [InstallOp (rem_pkg "Y" 1 [("Z", [])] [] [])])
    as (t & Ht & Hops) by run.
  exists [r; [i]], (ds0 [r; [i]] [r] [i] false false), t, (rem_pkg "Y" 1 [("Z", [])] [] []), ("Z", []).
  split; [run|]. split; [reflexivity|]. split; [run|]. split; [run|]. split; [exact Ht|]. split; [exact Hops|]. split; [left|].
  intros (q & Hq & Hp%provides_b_spec). cbn in Hq. rewrite !elem_of_cons, elem_of_nil in Hq.
  destruct Hq as [->|[->|[->|[->|[]]]]]; vm_compute in Hp; discriminate Hp.
Qed.

(** ** C23: with virtual packages *)
(** A request that is already fulfilled may still install something: another package that provides
    the wanted name. *)
Theorem C23_refuted : ∃ repos ds rq jobs t q, setting repos ds ∧ asks ds rq jobs ∧ ds_pruning ds = true ∧
  same_metadata (mjoin repos) (ds_installed ds) ∧
  valid (mjoin repos) (ds_installed ds) (rq_mods rq) jobs (λ p, p ∈ ds_installed ds) ∧
  solve env0 ds 40 rq = Ok (Normal t) ∧ t_ops t = [InstallOp q].
Proof.
  set (i := inst_pkg "A" 1 [] [] []). set (v := rem_pkg "V" 1 [] [] [("A", [])]).
  assert (∃ t, solve env0 (ds0 [[v]; [i]] [[v]] [i] true false) 40 (ask [want "A"]) = Ok (Normal t) ∧ t_ops t = [InstallOp v]) as (t & Ht & Hops) by run.
  exists [[v]; [i]], (ds0 [[v]; [i]] [[v]] [i] true false), (ask [want "A"]), [want "A"], t, v.
  split; [run|]. split; [apply plain_asks; reflexivity|]. split; [reflexivity|]. split; [run|].
  split; [apply valid_b_spec; vm_compute; reflexivity|]. split; [exact Ht|exact Hops].
Qed.

(** ** C30: cyclic dependencies *)
(** A valid, acyclic outcome, but ValueError: the cycle goes through P-1, which is not selected. *)
Theorem C30_refuted : ∃ repos ds rq jobs k, setting repos ds ∧ asks ds rq jobs ∧ ds_pruning ds = true ∧ ds_strict ds = false ∧
  single_names (mjoin repos) ∧ same_metadata (mjoin repos) (ds_installed ds) ∧
  valid (mjoin repos) (ds_installed ds) (rq_mods rq) jobs (λ p, p ∈ k) ∧ acyclic k (rq_mods rq) ∧
  solve env0 ds 40 rq = Raise ValueError.
Proof.
  set (p1 := rem_pkg "P" 1 [("Q", [])] [] []). set (p2 := rem_pkg "P" 2 [] [] []). set (q := rem_pkg "Q" 1 [("P", [])] [] []).
  set (rq := ask [want "P"; want "Q"]).
  exists [[p1; p2; q]], (ds0 [[p1; p2; q]] [[p1; p2; q]] [] true false), rq, (rq_jobs rq), [p2; q].
  split; [run|]. split; [run|]. split; [reflexivity|]. split; [reflexivity|]. split; [run|]. split; [run|].
  split; [apply valid_b_spec; vm_compute; reflexivity|].
  split; [apply (ranked_b_spec (λ p, length (p_requires p))); vm_compute; reflexivity|]. run.
Qed.

(** ** Removing a name that is not installed (why C16 and C30 assume [removes_known]) *)
(** The remove job makes its candidates roots of the pruning; the selected A-2 needs C, which pruning
    does not find: KeyError although there is a valid installation. *)
Theorem C45_remove_refuted : ∃ repos ds rq jobs (k : list package), setting repos ds ∧ asks ds rq jobs ∧ ds_pruning ds = true ∧ ds_strict ds = false ∧
  single_names (mjoin repos) ∧ same_metadata (mjoin repos) (ds_installed ds) ∧
  (∀ p, p ∈ mjoin repos → interpretable (rq_mods rq) p) ∧ (∀ j, j ∈ jobs → has_candidate (mjoin repos) j) ∧
  acyclic (mjoin repos) (rq_mods rq) ∧
  valid (mjoin repos) (ds_installed ds) (rq_mods rq) jobs (λ p, p ∈ k) ∧
  solve env0 ds 40 rq = Raise KeyError.
Proof.
  set (r := [rem_pkg "A" 1 [] [] []; rem_pkg "A" 2 [("Q", [])] [] []; rem_pkg "B" 2 [] [("A", [])] []]). set (i := inst_pkg "B" 1 [] [] []).
  set (rq := ask [Job (Some (Req RInstall "A" [CLt (V 2 0)])) JRemove]).
  exists [r; [i]], (ds0 [r; [i]] [r] [i] true false), rq, (rq_jobs rq), [i].
  split; [run|]. split; [run|]. split; [reflexivity|]. split; [reflexivity|]. split; [run|]. split; [run|].
  split; [apply interp_b_spec; vm_compute; reflexivity|]. split; [apply cand_b_spec; vm_compute; reflexivity|].
  split; [apply (ranked_b_spec (λ p, length (p_requires p))); vm_compute; reflexivity|].
  split; [apply valid_b_spec; vm_compute; reflexivity|]. run.
Qed.
Print Assumptions C16_valid. Print Assumptions C30_decides. Print Assumptions C13_maximal. Print Assumptions C14_newest_of_all.
Print Assumptions C44_no_downgrade. Print Assumptions C45_remove. Print Assumptions C18_needed. Print Assumptions C17_refuted.
Print Assumptions C43_upgraded. Print Assumptions C23_nothing_to_do. Print Assumptions C15_unsat. Print Assumptions C45_remove_refuted.
Print Assumptions C26_hint. Print Assumptions C26_total.
