(** * Property C80: the newest of everything, if it fits together. *)
From Verif Require Import PoolProofs PropPool PropConstraints SpecSat ConstraintProofs PropRules SatLearn RepositoryProofs TwinProofs PolicyGuided.
From Verif Require Export PropAgain.

(** The packages a request makes the solver look at: those its jobs are about, and those that a needed package (C20)
    shares its name with, conflicts with or could use. *)
Definition considered (pkgs inst : list package) (m : modifiers) (jobs : list job) (u : package) : Prop :=
  u ∈ pkgs ∧
  ((∃ j, j ∈ jobs ∧ job_about pkgs inst j u) ∨
   ∃ p, needed pkgs inst m jobs p ∧
     (p_name u = p_name p ∨ (∃ d, d ∈ p_conflicts p ∧ conflict_meets d u) ∨ ∃ d, d ∈ p_requires p ∧ dep_meets m d u)).
(** [p] cannot be present together with [q]. *)
Definition excludes (p q : package) : Prop :=
  q ≠ p ∧ (p_name q = p_name p ∨ ∃ d, d ∈ p_conflicts p ∧ conflict_meets d q).
(** [u] is out of question: a job removes it, or one of its dependencies can be met by no package at all. *)
Definition hopeless (pkgs inst : list package) (m : modifiers) (jobs : list job) (u : package) : Prop :=
  (∃ j r, j ∈ jobs ∧ j_kind j = JRemove ∧ j_req j = Some r ∧ req_meets r u) ∨
  (needed pkgs inst m jobs u ∧ ∃ d, d ∈ p_requires u ∧ ∀ q, q ∈ pkgs → ¬ dep_meets m d q).
(** [t] is preferred to [u]: it is installed (and to be kept), or it is newer (and asked for if [u] is). *)
Definition preferred (pkgs inst : list package) (jobs : list job) (t u : package) : Prop :=
  (t ∈ inst ∧ ¬ soft jobs t) ∨
  (vlt (p_version u) (p_version t) ∧
   ((∃ j, j ∈ jobs ∧ job_about pkgs inst j u) → ∃ j, j ∈ jobs ∧ job_about pkgs inst j t)).
(** [S] leaves out only what is hopeless or excluded by something in [S] that is preferred to it. *)
Definition first_choice (pkgs inst : list package) (m : modifiers) (jobs : list job) (S : list package) : Prop :=
  (∀ p, p ∈ inst → ¬ soft jobs p → p ∈ S) ∧
  ∀ u, considered pkgs inst m jobs u → u ∉ S →
    hopeless pkgs inst m jobs u ∨
    ∃ t, t ∈ S ∧ preferred pkgs inst jobs t u ∧
      ((needed pkgs inst m jobs u ∧ excludes u t) ∨ (needed pkgs inst m jobs t ∧ excludes t u)).

Lemma vlt_ltb a b : vlt a b ↔ ver_ltb a b = true.
Proof. symmetry. apply ver_ltb_lt. Qed.

Section problem.
  Context (e : env) (He : env_ok e).
  Context (po : pool) (l : list package) (R : pool_rep po l) (Hinj : well_formed l).
  Context (inst : list package) (Hinst : ∀ p, p ∈ inst → p ∈ l).
  Context (strict : bool) (fuel : nat) (jobs : list job) (ids : list Z) (rules : list rule) (uenv : uc_env) (ust : uc_state).
  Context (iids : list (Z * package)) (st : gst).
  Context (PB : problem e po l inst strict fuel jobs ids rules uenv ust iids st).
  Local Notation pid := (pid po).
  Local Notation m := (sem_mods po).
  Local Notation explored := (explored po l st).
  Local Notation Hii := (pb_iids _ _ _ _ _ _ _ _ _ _ _ _ _ PB).
  Local Notation Hst := (pb_st _ _ _ _ _ _ _ _ _ _ _ _ _ PB).

  Lemma req_clause_considered p ds c x : p ∈ l → req_fine po ds → req_clause po p ds c → x ∈ c →
    x = - pid p ∨ ∃ d q, d ∈ ds ∧ q ∈ l ∧ dep_meets m d q ∧ x = pid q.
  Proof.
    intros Hp. induction ds as [|d ds IH]; intros Hf Hc Hx; [done|]. cbn [req_clause req_fine] in Hc, Hf. destruct Hf as [Hd Hf].
    destruct (dcand po d) as [|q0 qs] eqn:Ed.
    - subst c. unfold broken_clause in Hx. rewrite elem_of_sort_Z, elem_of_list_singleton in Hx. by left.
    - destruct Hc as [->|Hc].
      + unfold dep_clause in Hx. rewrite elem_of_sort_Z, Ed in Hx. apply elem_of_cons in Hx as [->|Hx]; [by left|].
        apply elem_of_list_fmap in Hx as (q & -> & [_ Hq]%elem_of_list_filter). right. exists d, q.
        rewrite <-Ed in Hq. apply (dcand_spec po l R) in Hq as [Hq1 Hq2]; [|done]. split; [left|done].
      + destruct (IH (Hf ltac:(done)) Hc Hx) as [?|(d' & q & ? & ?)]; [by left|right]. exists d', q. split; [by right|done].
  Qed.
  (** The variables of the problem are considered. *)
  Lemma var_considered v : is_var (rule_lits st) v ∨ v ∈ extra ids uenv → ∃ q, v = pid q ∧
    (considered l inst m jobs q ∨ (q ∈ inst ∧ ¬ soft jobs q)).
  Proof.
    intros [(c & x & Hc & Hx & ->)|Hv].
    2:{ unfold extra in Hv. apply elem_of_union in Hv as [Hv|Hv]; apply elem_of_list_to_set in Hv.
        - apply (pb_prefer _ _ _ _ _ _ _ _ _ _ _ _ _ PB) in Hv as (p & Hp & Hs & ->). exists p. split; [done|]. by right.
        - apply (pb_ids _ _ _ _ _ _ _ _ _ _ _ _ _ PB) in Hv as (p & j & -> & Hj & Ha). exists p. split; [done|]. left.
          split; [by eapply job_about_in|]. left. eauto. }
    assert (Hq : ∃ q, q ∈ l ∧ (x = pid q ∨ x = - pid q) ∧ considered l inst m jobs q).
    2:{ destruct Hq as (q & Hq & Hx' & Hc'). exists q. split; [|by left]. pose proof (pid_pos po l R q Hq). lia. }
    apply in_rules in Hc.
    destruct (rules_inv po l R Hinj inst Hinst iids Hii strict fuel jobs st Hst) as [_ I].
    apply (gi_lits _ _ _ _ _ _ I) in Hc as [(j & Hj & Hc)|(p & Hp & [Hc|Hc])].
    - assert (Hw : ∃ q, q ∈ l ∧ (x = pid q ∨ x = - pid q) ∧ job_about l inst j q).
      { unfold job_about. unfold job_clause in Hc. destruct (j_kind j), (j_req j) as [r|]; try done.
        + subst c. rewrite elem_of_sort_Z in Hx. apply elem_of_list_fmap in Hx as (q & -> & Hq).
          apply (jcand_spec _ _ R) in Hq. exists q. split; [apply Hq|]. split; [by left|]. eauto.
        + destruct Hc as (q & Hq & ->). rewrite elem_of_sort_Z, elem_of_list_singleton in Hx.
          apply (jcand_spec _ _ R) in Hq. exists q. split; [apply Hq|]. split; [by right|]. eauto.
        + subst c. rewrite elem_of_sort_Z in Hx. apply elem_of_list_fmap in Hx as (q & -> & Hq).
          apply (jcand_spec _ _ R) in Hq. exists q. split; [apply Hq|]. split; [by left|]. eauto.
        + destruct Hc as (q & Hq & ->). rewrite elem_of_sort_Z, elem_of_list_singleton in Hx.
          exists q. split; [by eapply wp_sub, best_elem|]. split; [by left|]. exists r. split; [done|]. by apply (best_spec po l R Hinj inst Hinst iids Hii). }
      destruct Hw as (q & Hq & Hx' & Ha). exists q. split; [done|]. split; [done|]. split; [done|]. left. eauto.
    - assert (Hn := proj1 (explored_iff e po l R Hinj inst Hinst strict fuel jobs ids rules uenv ust iids st PB p) Hp).
      destruct (explored_fine po l R Hinj inst Hinst iids Hii strict fuel jobs st Hst p Hp) as [Hf _].
      destruct (req_clause_considered p _ c x (proj1 Hp) Hf Hc Hx) as [->|(d & q & Hd & Hq & Hm & ->)].
      + exists p. split; [apply Hp|]. split; [by right|]. split; [apply Hp|]. right. exists p. eauto.
      + exists q. split; [done|]. split; [by left|]. split; [done|]. right. exists p. split; [done|]. right. right. eauto.
    - assert (Hn := proj1 (explored_iff e po l R Hinj inst Hinst strict fuel jobs ids rules uenv ust iids st PB p) Hp).
      destruct (explored_fine po l R Hinj inst Hinst iids Hii strict fuel jobs st Hst p Hp) as [_ Hf].
      destruct Hc as (q & _ & -> & Hq). unfold pair_clause in Hx. rewrite elem_of_sort_Z in Hx.
      apply elem_of_cons in Hx as [-> |Hx%elem_of_list_singleton].
      + exists p. split; [apply Hp|]. split; [by right|]. split; [apply Hp|]. right. exists p. eauto.
      + exists q. destruct Hq as [[Hq En]|(d & Hd & Hq)].
        * split; [done|]. split; [by right|]. split; [done|]. right. exists p. eauto.
        * apply (ccand_spec po l R) in Hq as [Hq Hmt]; [|by apply Hf]. split; [done|]. split; [by right|]. split; [done|].
          right. exists p. split; [done|]. right. left. eauto.
  Qed.

  Lemma excludes_clause p q : p ∈ l → q ∈ l → needed l inst m jobs p → excludes p q → pair_clause po p q ∈ rule_lits st.
  Proof.
    intros Hp Hq Hn [Hne Hx].
    assert (Hex := proj2 (explored_iff e po l R Hinj inst Hinst strict fuel jobs ids rules uenv ust iids st PB p) Hn).
    destruct (explored_fine po l R Hinj inst Hinst iids Hii strict fuel jobs st Hst p Hex) as [_ Hf].
    apply (pkg_in_rules po l R Hinj inst Hinst iids Hii strict fuel jobs st Hst p); [done|]. right. exists q. split; [done|]. split; [done|].
    destruct Hx as [E|(d & Hd & Hm)]; [by left|right]. exists d. split; [done|]. apply (ccand_spec po l R); [by apply Hf|done].
  Qed.
  Lemma hopeless_clause u : u ∈ l → hopeless l inst m jobs u → ∃ c, c ∈ rule_lits st ∧ ∀ x, x ∈ c ↔ x = - pid u.
  Proof.
    intros Hu Hc. exists (sort_Z [- pid u]). split; [|intros x; by rewrite elem_of_sort_Z, elem_of_list_singleton].
    destruct Hc as [(j & r & Hj & Hk & Hr & Hmt)|[Hn (d & Hd & Hno)]].
    - apply (job_in_rules po l R Hinj inst Hinst iids Hii strict fuel jobs st Hst j); [done|]. unfold job_clause. rewrite Hk, Hr.
      exists u. split; [by apply (jcand_spec _ _ R)|done].
    - assert (Hex := proj2 (explored_iff e po l R Hinj inst Hinst strict fuel jobs ids rules uenv ust iids st PB u) Hn).
      destruct (explored_fine po l R Hinj inst Hinst iids Hii strict fuel jobs st Hst u Hex) as [Hf _].
      apply (pkg_in_rules po l R Hinj inst Hinst iids Hii strict fuel jobs st Hst u); [done|]. left. apply unmet_req_clause.
      apply not_true_iff_false. intros Ha. apply (hopeful_met po l R u Hf) in Ha. destruct (Ha d Hd) as (q & Hq & Hmt).
      by apply (Hno q).
  Qed.

  Context (n : nat) (a : aset).
  Context (Hrun : solve_clauses (logged_policy (uc_policy uenv)) n (ust, [], []) (rule_clauses rules) = Ok (Normal a)).
  Local Notation val := (val po a).

  Lemma first_choice_val S p : valid l inst m jobs (λ p, p ∈ S) → first_choice l inst m jobs S → p ∈ l →
    (val p = Some true → p ∈ S) ∧ (val p = Some false → p ∉ S).
  Proof.
    intros V [HS1 HS2] Hp. set (g := val_of po S).
    assert (Hsub : ∀ q, q ∈ S → q ∈ l) by (apply (va_sub _ _ _ _ _ V)).
    assert (Hg : ∀ q, q ∈ l → g (pid q) = true ↔ q ∈ S) by (intros q Hq; by apply (val_of_spec po l R Hinj)).
    assert (Hmod : model g (rule_lits st)) by (eapply (valid_model po l R Hinj inst Hinst iids Hii strict fuel jobs st Hst); eauto).
    destruct (pol_good e He po l R Hinj inst Hinst strict fuel jobs ids rules uenv ust iids st PB) as [Hwf Hpol].
    assert (Hfst := clauses_fst e po l inst strict fuel jobs ids rules uenv ust iids st PB).
    assert (Henv := env_good e He po l R Hinj inst Hinst strict fuel jobs ids rules uenv ust iids st PB).
    assert (Hab : ∀ q, q ∈ l → pid q ∈ ids ↔ ∃ j, j ∈ jobs ∧ job_about l inst j q).
    { intros q Hq. rewrite (pb_ids _ _ _ _ _ _ _ _ _ _ _ _ _ PB). split.
      - intros (q' & j & E & Hj & Ha). apply (pid_inj po l R Hinj) in E; [subst; eauto|done|by eapply job_about_in].
      - intros (j & Hj & Ha). eauto. }
    assert (Hval : ∀ v b, 0 < v → aset_value a v = Some b → g v = b).
    { rewrite Hfst in Hwf, Hpol.
      refine (guided_solution (logged_policy (uc_policy uenv)) (λ p, uc_inv (rule_lits st) (extra ids uenv) (list_to_set ids) p.1.1)
        (λ q, uc_link (rule_lits st) q.1.1) (rule_clauses rules) (extra ids uenv) (uprio ids uenv) g _ _ _ _ _ n (ust, [], []) a _ _ Hrun);
        rewrite ?Hfst; try done.
      - by intros c [_ Hc]%elem_of_list_filter; apply Hmod.
      - intros q b b'. apply uc_link_grow.
      - intros q b cls v q' b' H1 H2 H3 _ _ H4 H5 H6 H7.
        apply (logged_guided uenv (rule_lits st) (extra ids uenv) (list_to_set ids) g Hwf Henv); try done.
        + intros w (x & Hx & Hs & ->)%(pb_prefer _ _ _ _ _ _ _ _ _ _ _ _ _ PB). apply Hg; auto.
        + intros u Hu Hgu. destruct (var_considered u Hu) as (x & -> & Hx).
          assert (Hxl : x ∈ l) by (destruct Hx as [[? _]|[? _]]; auto).
          assert (HxS : x ∉ S). { intros HxS. apply Hg in HxS; [|done]. congruence. }
          destruct Hx as [Hx|[Hx Hs]]; [|by destruct HxS; apply HS1].
          destruct (HS2 x Hx HxS) as [Hh|(t & Ht & Hpr & Hex)]; [left; by apply hopeless_clause|right].
          assert (Htl := Hsub t Ht). exists (pid t). split.
          { split; [pose proof (pid_pos po l R t Htl); lia|].
            destruct Hex as [[Hn He']|[Hn He']]; [exists (pair_clause po x t)|exists (pair_clause po t x)];
              (split; [by apply excludes_clause|]); intros y; unfold pair_clause; rewrite elem_of_sort_Z, elem_of_cons, elem_of_list_singleton; tauto. }
          split; [by apply Hg|]. destruct Hpr as [[Hti Hts]|[Hlt Ha]].
          * left. apply (pb_prefer _ _ _ _ _ _ _ _ _ _ _ _ _ PB). eauto.
          * right. split.
            -- exists (p_version t), (p_version x). rewrite (pb_version _ _ _ _ _ _ _ _ _ _ _ _ _ PB).
               split; [by apply (version_pid po l R Hinj)|]. split; [by apply (version_pid po l R Hinj)|]. by apply vlt_ltb.
            -- rewrite !elem_of_list_to_set, !Hab by done. done.
      - exact (ust_good e He po l R Hinj inst Hinst strict fuel jobs ids rules uenv ust iids st PB).
      - intros b u t Hu. cbn in Hu. rewrite (pb_ust _ _ _ _ _ _ _ _ _ _ _ _ _ PB) in Hu. by apply elem_of_empty in Hu. }
    pose proof (pid_pos po l R p Hp). split; intros E; apply Hval in E; [by apply Hg|lia|intros HpS; apply Hg in HpS; [congruence|done]|lia].
  Qed.
End problem.

Section ext.
  Context (l inst : list package) (m m' : modifiers) (jobs jobs' : list job).
  Context (Hm : ∀ n c v, relaxed m n c v ↔ relaxed m' n c v) (Hj : ∀ j, j ∈ jobs' ↔ j ∈ jobs).
  Lemma needed_iff p : needed l inst m jobs p ↔ needed l inst m' jobs' p.
  Proof. split; eapply needed_ext; try done; intros; first [by apply Hj|symmetry; apply Hm]. Qed.
  Lemma about_iff p : (∃ j, j ∈ jobs ∧ job_about l inst j p) ↔ ∃ j, j ∈ jobs' ∧ job_about l inst j p.
  Proof. setoid_rewrite Hj. done. Qed.
  Lemma soft_iff p : soft jobs p ↔ soft jobs' p.
  Proof. split; apply soft_jobs; intros; by apply Hj. Qed.
  Lemma first_choice_ext S : first_choice l inst m jobs S → first_choice l inst m' jobs' S.
  Proof.
    intros [H1 H2]. split; [intros p Hp Hs; apply H1; [done|by rewrite soft_iff]|].
    intros u [Hu Hc] HS. destruct (H2 u) as [Hh|(t & Ht & Hpr & Hex)]; [|done|left|right].
    - split; [done|]. destruct Hc as [Ha|(p & Hp & Hc)]; [left; by apply about_iff|right]. exists p.
      split; [by apply needed_iff|]. setoid_rewrite (dep_meets_mods m m' Hm). done.
    - destruct Hh as [(j & r & Hj' & ?)|[Hn (d & Hd & Hq)]]; [left; exists j, r; split; [by apply Hj|done]|right].
      split; [by apply needed_iff|]. exists d. split; [done|]. setoid_rewrite <-(dep_meets_mods m m' Hm). done.
    - exists t. split; [done|]. unfold preferred. rewrite <-!needed_iff, <-soft_iff, <-!about_iff. done.
  Qed.
End ext.

(** If a valid installation [S] leaves out only packages that are hopeless or excluded by a preferred package of [S],
    then the answer is taken from [S]: only packages of [S] are installed, none of [S] is removed, and the packages of [S]
    that the request is about are present. *)
Theorem C80_first_choice : ∀ e repos ds fuel rq jobs t S, env_ok e → setting repos ds → asks ds rq jobs →
  solve e ds fuel rq = Ok (Normal t) →
  valid (mjoin repos) (ds_installed ds) (rq_mods rq) jobs (λ p, p ∈ S) →
  first_choice (mjoin repos) (ds_installed ds) (rq_mods rq) jobs S →
  (∀ p, InstallOp p ∈ t_ops t → p ∈ S) ∧ (∀ p, RemoveOp p ∈ t_ops t → p ∉ S) ∧
  (∀ j p, j ∈ jobs → job_about (mjoin repos) (ds_installed ds) j p → p ∈ S → present (ds_installed ds) (t_ops t) p).
Proof.
  intros e repos ds fuel rq jobs t S He Hset Hask H V HS. assert (Hf := solve_found _ He _ _ Hset _ _ _ Hask _ H). open_found Hf.
  assert (V' : valid (mjoin repos) (ds_installed ds) (sem_mods po) jobs' (λ p, p ∈ S)) by (by apply (to_mods repos ds rq jobs po jobs')).
  assert (HS' : first_choice (mjoin repos) (ds_installed ds) (sem_mods po) jobs' S).
  { eapply first_choice_ext; [| |exact HS]; [intros; symmetry; apply Hm|apply Hj]. }
  assert (Hval := λ p Hp, first_choice_val e He po _ R (sv_keys _ _ Hset) _ (sv_installed _ _ Hset) _ _ _ _ _ _ _ _ _ PB _ _ Hrun S p V' HS' Hp).
  split; [|split].
  - intros p Hi. apply (install_val e He po _ R (sv_keys _ _ Hset) _ (sv_installed _ _ Hset) _ _ _ D _ _ _ OK) in Hi as (Hp & _ & Hv).
    by apply (Hval p).
  - intros p Hr. apply (removed_val e He po _ R (sv_keys _ _ Hset) _ (sv_installed _ _ Hset) _ _ _ D _ _ _ OK) in Hr as (Hp & Hv).
    apply (Hval p); [by apply (sv_installed _ _ Hset)|done].
  - intros j p Hjj Ha HpS. assert (Hab : ∃ j, j ∈ jobs' ∧ job_about (mjoin repos) (ds_installed ds) j p) by (exists j; split; [by apply Hj|done]).
    assert (Hp : p ∈ mjoin repos) by (by eapply job_about_in).
    assert (Hs := about_some e He po _ R (sv_keys _ _ Hset) _ (sv_installed _ _ Hset) _ _ _ _ _ _ _ _ _ PB _ _ Hrun p Hab).
    apply (about_present e He po _ R (sv_keys _ _ Hset) _ (sv_installed _ _ Hset) _ _ _ D _ _ _ OK p Hab).
    destruct Hs as [[] Hv]; [done|]. by apply (Hval p Hp) in Hv.
Qed.

(** In particular, with nothing installed: if the newest versions fit together, only newest versions are installed. *)
Theorem C80_newest : ∀ e repos ds fuel rq jobs t (S : list package), env_ok e → setting repos ds → asks ds rq jobs → ds_installed ds = [] →
  solve e ds fuel rq = Ok (Normal t) →
  valid (mjoin repos) [] (rq_mods rq) jobs (λ p, p ∈ S) →
  (∀ u, considered (mjoin repos) [] (rq_mods rq) jobs u → u ∉ S →
     ∃ t, t ∈ S ∧ p_name t = p_name u ∧ vlt (p_version u) (p_version t) ∧ needed (mjoin repos) [] (rq_mods rq) jobs t ∧
       ((∃ j, j ∈ jobs ∧ job_about (mjoin repos) [] j u) → ∃ j, j ∈ jobs ∧ job_about (mjoin repos) [] j t)) →
  ∀ p u, InstallOp p ∈ t_ops t → considered (mjoin repos) [] (rq_mods rq) jobs u → p_name u = p_name p →
    ¬ vlt (p_version p) (p_version u).
Proof.
  intros e repos ds fuel rq jobs t S He Hset Hask Hi H V HS p u Hp Hu En Hlt.
  destruct (C80_first_choice e repos ds fuel rq jobs t S He Hset Hask H) as (H1 & _ & _).
  - by rewrite Hi.
  - rewrite Hi. split; [by intros q ?%elem_of_nil|]. intros q Hq HqS. right.
    destruct (HS q Hq HqS) as (t' & Ht & Ent & Hv & Hn & Ha). exists t'. split; [done|]. split; [by right|]. right. split; [done|].
    split; [intros ->; done|]. left. done.
  - assert (HpS := H1 p Hp). destruct (decide (u ∈ S)) as [HuS|HuS].
    + assert (u = p) as -> by (by apply (va_names _ _ _ _ _ V)). revert Hlt. unfold vlt. lia.
    + destruct (HS u Hu HuS) as (q & Hq & Enq & Hv & _). assert (q = p) as -> by (apply (va_names _ _ _ _ _ V); [done|done|congruence]).
      revert Hlt Hv. unfold vlt. lia.
Qed.

Local Notation inst_pkg n v rq cf pv := (Pkg n (V v 0) rq cf pv (Some "i")).
Local Notation rem_pkg n v rq cf pv := (Pkg n (V v 0) rq cf pv (Some "r")).

(** Example: [app] and the newest [lib] that can be used; [lib 3] needs something that does not exist, and [db 1] is installed. *)
Definition nw_app1 := rem_pkg "app" 1 [] [] [].
Definition nw_app2 := rem_pkg "app" 2 [("lib", [])] [] [].
Definition nw_lib1 := rem_pkg "lib" 1 [] [] [].
Definition nw_lib2 := rem_pkg "lib" 2 [] [] [].
Definition nw_lib3 := rem_pkg "lib" 3 [("missing", [])] [] [].
Definition nw_db2 := rem_pkg "db" 2 [] [] [].
Definition nw_db1 := inst_pkg "db" 1 [] [] [].
Definition nw_remote : list package := [nw_app1; nw_app2; nw_lib1; nw_lib2; nw_lib3; nw_db2].
Definition nw_ds : dep_solver := ds0 [nw_remote; [nw_db1]] [nw_remote] [nw_db1] true false.
Definition nw_S : list package := [nw_app2; nw_lib2; nw_db1].
Ltac mem := apply elem_of_list_In; cbn; tauto.
Lemma want_about pkgs inst n p : p ∈ pkgs → p_name p = n → ∃ j, j ∈ [want n] ∧ job_about pkgs inst j p.
Proof.
  intros Hp <-. exists (want (p_name p)). split; [left|]. eexists. split; [done|]. split; [done|]. split; [by left|].
  intros c ->%elem_of_list_singleton. done.
Qed.
Theorem C80_example : setting [nw_remote; [nw_db1]] nw_ds ∧ asks nw_ds (ask [want "app"]) [want "app"] ∧
  valid (mjoin [nw_remote; [nw_db1]]) [nw_db1] no_mods [want "app"] (λ p, p ∈ nw_S) ∧
  first_choice (mjoin [nw_remote; [nw_db1]]) [nw_db1] no_mods [want "app"] nw_S ∧
  (∃ t, solve env0 nw_ds 60 (ask [want "app"]) = Ok (Normal t) ∧ t_ops t = [InstallOp nw_lib2; InstallOp nw_app2]).
Proof.
  split; [run|]. split; [run|]. split; [apply valid_b_spec; vm_compute; reflexivity|]. split; [|run].
  set (l := mjoin [nw_remote; [nw_db1]]).
  assert (N1 : needed l [nw_db1] no_mods [want "app"] nw_app2).
  { eapply nd_install; [left|by left|done|mem|]. split; [by left|]. by intros c ->%elem_of_list_singleton. }
  assert (Hl : ∀ q, p_name q = "lib" → dep_meets no_mods ("lib", []) q) by (intros q <-; split; by left).
  assert (N2 : ∀ q, q ∈ l → p_name q = "lib" → needed l [nw_db1] no_mods [want "app"] q).
  { intros q Hq Hn. eapply (nd_depends _ _ _ _ nw_app2 ("lib", [])); [done| |left|done|by apply Hl].
    intros d ->%elem_of_list_singleton. exists nw_lib1. split; [mem|by apply Hl]. }
  assert (N3 : needed l [nw_db1] no_mods [want "app"] nw_db1) by (eapply nd_installed; [left|mem|by left]).
  split; [intros p ->%elem_of_list_singleton _; mem|].
  assert (Hasked : ∀ q j, j ∈ [want "app"] → job_about l [nw_db1] j q → provides q "app").
  { intros q j ->%elem_of_list_singleton (r & [= <-] & _ & Hm & _). done. }
  intros u [Hu _] HS. repeat (apply elem_of_cons in Hu as [->|Hu]); [..|by apply elem_of_nil in Hu].
  - right. exists nw_app2. split; [mem|]. split; [right; split; [left; done|]|].
    + intros _. by apply want_about; [mem|].
    + right. split; [done|]. split; [done|by left].
  - exfalso. apply HS. mem.
  - right. exists nw_lib2. split; [mem|]. split; [right; split; [left; done|]|].
    + intros (j & Hj & [E|(d & Hd & _)]%Hasked); [done|by apply elem_of_nil in Hd|done].
    + right. split; [apply N2; [mem|done]|]. split; [done|by left].
  - exfalso. apply HS. mem.
  - left. right. split; [apply N2; [mem|done]|]. exists ("missing", []). split; [left|]. intros q Hq [[E|(d & Hd & _)] _].
    + repeat (apply elem_of_cons in Hq as [->|Hq]; [done|]). by apply elem_of_nil in Hq.
    + repeat (apply elem_of_cons in Hq as [->|Hq]; [by apply elem_of_nil in Hd|]). by apply elem_of_nil in Hq.
  - right. exists nw_db1. split; [mem|]. split; [left; split; [left|]|].
    + intros (j & r & ->%elem_of_list_singleton & [=] & _).
    + right. split; [done|]. split; [done|by left].
  - exfalso. apply HS. mem.
Qed.

(** One might expect that each dependency is installed in the newest version that fits what else is installed.  This is not
    so: [app 2] needs [lib], and [lib 2] would do, but [lib 1] is installed.  The policy of the solver looks at all packages
    of clauses that are not satisfied yet, whether they are needed or not, and takes the one with the highest version number:
    here [db 9], which only the unused [app 1] requires, and which conflicts with [lib 2].  Pruning then drops [db 9]. *)
Definition nw_old := rem_pkg "app" 1 [("db", [])] [] [].
Definition nw_new := rem_pkg "app" 2 [("lib", [])] [] [].
Definition nw_db8 := rem_pkg "db" 8 [] [] [].
Definition nw_db9 := rem_pkg "db" 9 [] [("lib", [[[CGeq (V 2 0)]]])] [].
Definition nw_remote2 : list package := [nw_old; nw_new; nw_db8; nw_db9; nw_lib1; nw_lib2].
Definition nw_ds2 : dep_solver := ds0 [nw_remote2] [nw_remote2] [] true false.
Theorem C80_each_newest_refuted :
  ¬ ∀ e repos ds fuel rq jobs t p q, env_ok e → setting repos ds → asks ds rq jobs → single_names (mjoin repos) →
      ds_installed ds = [] → solve e ds fuel rq = Ok (Normal t) →
      InstallOp p ∈ t_ops t → p_name q = p_name p → vlt (p_version p) (p_version q) →
      ¬ valid (mjoin repos) [] (rq_mods rq) jobs (λ x, x = q ∨ (x ≠ p ∧ InstallOp x ∈ t_ops t)).
Proof.
  intros H. assert (H3 : ∃ t, solve env0 nw_ds2 100 (ask [want "app"]) = Ok (Normal t) ∧ t_ops t = [InstallOp nw_lib1; InstallOp nw_new]) by run.
  destruct H3 as (t & H3 & H4).
  assert (V : valid (mjoin [nw_remote2]) [] no_mods [want "app"] (λ p, p ∈ [nw_lib2; nw_new])) by (apply valid_b_spec; vm_compute; reflexivity).
  apply (H env0 [nw_remote2] nw_ds2 100%nat (ask [want "app"]) [want "app"] t nw_lib1 nw_lib2 env0_ok); [run|run|run|done|done|rewrite H4; left|done|left; done|].
  eapply valid_ext; [|exact V]. intros x. rewrite H4, !elem_of_cons, !elem_of_nil. clear H H3 H4 V. split.
  - intros [->|[->|[]]]; [by left|right]. split; [done|]. right. by left.
  - intros [->|[Hn [E|[E|[]]]]]; [by left|exfalso; apply Hn; congruence|right; left; congruence].
Qed.

(** The hypotheses of [C80_newest]. *)
Definition nw_remote3 : list package := [nw_app1; nw_app2; nw_lib2; nw_lib1].
Theorem C80_newest_example : setting [nw_remote3] (ds0 [nw_remote3] [nw_remote3] [] true false) ∧
  valid (mjoin [nw_remote3]) [] no_mods [want "app"] (λ p, p ∈ [nw_app2; nw_lib2]) ∧
  (∀ u, considered (mjoin [nw_remote3]) [] no_mods [want "app"] u → u ∉ [nw_app2; nw_lib2] →
     ∃ t, t ∈ [nw_app2; nw_lib2] ∧ p_name t = p_name u ∧ vlt (p_version u) (p_version t) ∧ needed (mjoin [nw_remote3]) [] no_mods [want "app"] t ∧
       ((∃ j, j ∈ [want "app"] ∧ job_about (mjoin [nw_remote3]) [] j u) → ∃ j, j ∈ [want "app"] ∧ job_about (mjoin [nw_remote3]) [] j t)) ∧
  (∃ t, solve env0 (ds0 [nw_remote3] [nw_remote3] [] true false) 60 (ask [want "app"]) = Ok (Normal t) ∧ t_ops t = [InstallOp nw_lib2; InstallOp nw_app2]).
Proof.
  split; [run|]. split; [apply valid_b_spec; vm_compute; reflexivity|]. split; [|run].
  set (l := mjoin [nw_remote3]).
  assert (N1 : needed l [] no_mods [want "app"] nw_app2).
  { eapply nd_install; [left|by left|done|mem|]. split; [by left|]. by intros c ->%elem_of_list_singleton. }
  assert (Hl : ∀ q, p_name q = "lib" → dep_meets no_mods ("lib", []) q) by (intros q <-; split; by left).
  assert (N2 : needed l [] no_mods [want "app"] nw_lib2).
  { eapply (nd_depends _ _ _ _ nw_app2 ("lib", [])); [done| |left|mem|by apply Hl].
    intros d ->%elem_of_list_singleton. exists nw_lib1. split; [mem|by apply Hl]. }
  intros u [Hu _] HS. repeat (apply elem_of_cons in Hu as [->|Hu]); [..|by apply elem_of_nil in Hu].
  - exists nw_app2. split; [mem|]. split; [done|]. split; [left; done|]. split; [done|]. intros _. by apply want_about; [mem|].
  - exfalso. apply HS. mem.
  - exfalso. apply HS. mem.
  - exists nw_lib2. split; [mem|]. split; [done|]. split; [left; done|]. split; [done|].
    intros (j & ->%elem_of_list_singleton & r & [= <-] & _ & [E|(d & Hd & _)] & _); [done|by apply elem_of_nil in Hd].
Qed.

Print Assumptions C80_first_choice. Print Assumptions C80_newest. Print Assumptions C80_each_newest_refuted.
