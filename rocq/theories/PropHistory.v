(** * Property C86: histories of requests. *)
From Verif Require Import PoolProofs PropPool PropConstraints SpecSat ConstraintProofs PropRules RepositoryProofs.
From Verif Require Export PropCrash.
From Verif Require Import PropLimits PropNeed SpecCheck.

(** The same package, perhaps listed by another repository. *)
Definition same_release (p q : package) : Prop :=
  p_name p = p_name q ∧ p_version p = p_version q ∧ p_requires p = p_requires q ∧ p_conflicts p = p_conflicts q ∧ p_provides p = p_provides q.
(** One request: the solver is set up with the repositories and the packages installed now, it answers, and the first
    operations of the answer ([whole]: all) are carried out.  [listed]: how the repository of installed packages lists a package. *)
Record request_step (remote : list (list package)) (inst : list package) (m : modifiers) (whole : bool) (inst' : list package) : Prop := {
  rs_run : ∃ e ds fuel rq jobs t done later, env_ok e ∧ (∃ m, pool_of (remote ++ [inst]) m = Ok (ds_pool ds)) ∧
    ds_remote ds = remote ∧ ds_installed ds = inst ∧ ds_pruning ds = true ∧ asks ds rq jobs ∧ rq_mods rq = m ∧
    removes_known (mjoin (remote ++ [inst])) inst jobs ∧
    solve e ds fuel rq = Ok (Normal t) ∧ t_ops t = done ++ later ∧ (whole = true → later = []) ∧
    ∃ listed : package → package, (∀ p, same_release (listed p) p) ∧
      ∀ p, p ∈ inst' ↔ ∃ q, after inst done q ∧ p = listed q }.
(** Any number of requests, some of them interrupted. *)
Inductive history (remote : list (list package)) (inst : list package) : list package → Prop :=
  | history_start : history remote inst inst
  | history_step inst1 m whole inst2 : history remote inst inst1 → request_step remote inst1 m whole inst2 → history remote inst inst2.

Lemma join_snoc {A} (l : list (list A)) x : mjoin (l ++ [x]) = mjoin l ++ x.
Proof. induction l as [|y l IH]; cbn; [by rewrite app_nil_r|]. fold (mjoin (M:=list) (A:=A)). rewrite <-app_assoc. f_equal. exact IH. Qed.
Lemma provides_release p q n : same_release p q → provides p n ↔ provides q n.
Proof. intros (E & _ & _ & _ & E'). unfold provides. by rewrite E, E'. Qed.
Lemma dep_release m d p q : same_release p q → dep_meets m d p ↔ dep_meets m d q.
Proof. intros R. unfold dep_meets. rewrite (provides_release p q d.1 R). destruct R as (_ & -> & _). done. Qed.
Lemma conflict_release d p q : same_release p q → conflict_meets d p ↔ conflict_meets d q.
Proof. intros R. unfold conflict_meets. rewrite (provides_release p q d.1 R). destruct R as (_ & -> & _). done. Qed.

Section history.
  Context (remote : list (list package)) (inst0 : list package).
  Local Notation all := (mjoin remote ++ inst0).
  Local Notation known p := (∃ q, q ∈ all ∧ same_release p q).
  Context (Hwf : ∀ p, p ∈ all → dist_name (of_s (p_name p))) (H1 : single_names all) (H3 : same_metadata all all).
  Lemma now_in inst p : (∀ p, p ∈ inst → known p) → p ∈ mjoin (remote ++ [inst]) → known p.
  Proof.
    intros H. rewrite join_snoc, elem_of_app. intros [Hp|?]; [|by apply H].
    exists p. split; [set_solver|by repeat split].
  Qed.
  Lemma known_meta p q : known p → known q → p_name p = p_name q → p_version p = p_version q →
    p_requires p = p_requires q ∧ p_conflicts p = p_conflicts q ∧ p_provides p = p_provides q.
  Proof.
    intros (p' & Hp & P1 & P2 & P3 & P4 & P5) (q' & Hq & Q1 & Q2 & Q3 & Q4 & Q5) E1 E2. rewrite P3, P4, P5, Q3, Q4, Q5.
    apply (H3 p' q' Hp Hq); congruence.
  Qed.
  Lemma step_ok inst m whole inst' : (∀ p, p ∈ inst → known p) → one_version (λ p, p ∈ inst) → no_conflict (λ p, p ∈ inst) →
    request_step remote inst m whole inst' →
    (∀ p, p ∈ inst' → known p) ∧ one_version (λ p, p ∈ inst') ∧ no_conflict (λ p, p ∈ inst') ∧ (whole = true → closed_set m (λ p, p ∈ inst')).
  Proof.
    intros Hsub Hn Hc [(e & ds & fuel & rq & jobs & t & done & later & He & Hpo & Er & Ei & Hpr & Hask & Em & H2 & Hs & E & Hw & f & Hf & Hi)].
    assert (Sub := λ p, now_in inst p Hsub).
    assert (Hset : setting (remote ++ [inst]) ds).
    { split; [done| |]. 
      - rewrite Ei. intros p Hp. rewrite join_snoc. set_solver.
      - split.
        + intros p q Hp%Sub Hq%Sub K. unfold pkg_key in K.
          assert (E1 : p_name p = p_name q) by congruence. assert (E2 : p_version p = p_version q) by congruence. assert (E3 : p_repo p = p_repo q) by congruence.
          destruct (known_meta p q Hp Hq E1 E2) as (? & ? & ?). destruct p, q. cbn in *. congruence.
        + intros p (q & Hq & -> & _)%Sub. by apply Hwf. }
    assert (H1' : single_names (mjoin (remote ++ [inst]))).
    { intros p q n (p' & Hp & Rp)%Sub (q' & Hq & Rq)%Sub Pp Pq. rewrite (provides_release _ _ n Rp) in Pp. rewrite (provides_release _ _ n Rq) in Pq.
      destruct Rp as (-> & _). destruct Rq as (-> & _). by apply (H1 p' q' n). }
    assert (H3' : same_metadata (mjoin (remote ++ [inst])) (ds_installed ds)).
    { rewrite Ei. intros p q Hp%Hsub Hq%Sub. by apply known_meta. }
    assert (H2' : removes_known (mjoin (remote ++ [inst])) (ds_installed ds) jobs) by (rewrite Ei; exact H2).
    assert (V := C16_valid e _ ds fuel rq jobs t He Hset Hask Hpr H1' H3' H2' Hs).
    destruct (solve_ops e He _ ds Hset fuel rq jobs Hask t Hs) as (rem & ins & Eo & _ & _ & _ & Hins & _). clear Hs.
    rewrite E in Eo. symmetry in Eo. apply split_phases in Eo. rewrite Ei in V. destruct V as [V1 V2 V3 V4 V5].
    assert (C : (∀ p, after inst done p → p ∈ inst) ∨ (∀ p, after inst done p → after inst (t_ops t) p)).
    { destruct Eo as [Hno|Hno]; [left; intros p [[? _]|?]; [done|by destruct (Hno p)]|right].
      intros p [[Hp Hr]|Hp]; [left; split; [done|]; rewrite E, elem_of_app; by intros [?|?%Hno]|right; rewrite E; set_solver]. }
    assert (N : one_version (after inst done)).
    { intros p q Hp Hq. destruct C as [C|C]; [apply Hn; by apply C|apply V4; by apply C]. }
    split; [|split; [|split]].
    - intros p (q & Hq & ->)%Hi. assert (K : known q) by (destruct C as [C|C]; [by apply Hsub, C|by apply Sub, V1, C]).
      destruct K as (q' & Hq' & R). exists q'. split; [done|]. destruct (Hf q) as (? & ? & ? & ? & ?), R as (? & ? & ? & ? & ?). repeat split; congruence.
    - intros p q (p' & Hp & ->)%Hi (q' & Hq & ->)%Hi Enm. f_equal. apply (N p' q' Hp Hq). destruct (Hf p') as (<- & _), (Hf q') as (<- & _). done.
    - intros p d q (p' & Hp & ->)%Hi Hd (q' & Hq & ->)%Hi Hne. rewrite (conflict_release d _ _ (Hf q')).
      assert (Hd' : d ∈ p_conflicts p') by (destruct (Hf p') as (_ & _ & _ & <- & _); done). assert (Hne' : q' ≠ p') by (intros ->; done).
      destruct C as [C|C]; [apply (Hc p' d q'); [by apply C|done|by apply C|done]|apply (V5 p' d q'); [by apply C|done|by apply C|done]].
    - intros Hwh. rewrite (Hw Hwh), app_nil_r in E. rewrite E in V3. rewrite <-Em. intros p d (p' & Hp & ->)%Hi Hd.
      assert (Hd' : d ∈ p_requires p') by (destruct (Hf p') as (_ & _ & <- & _); done).
      destruct (V3 p' d Hp Hd') as (q & Hq & Hne & Hq'). exists (f q). split; [apply Hi; eauto|].
      split; [|by rewrite (dep_release _ d _ _ (Hf q))].
      intros Ef. apply Hne. apply (N q p' Hq Hp). destruct (Hf q) as (<- & _), (Hf p') as (<- & _). by rewrite Ef.
  Qed.
End history.

(** Whatever is requested and wherever transactions are interrupted: never two versions of one package, never a conflict, only packages
    that were installed in the beginning or are in the repositories; and after each transaction that was carried out completely all
    dependencies are met. *)
Theorem C86_history : ∀ remote inst0 inst, (∀ p, p ∈ mjoin remote ++ inst0 → dist_name (of_s (p_name p))) → single_names (mjoin remote ++ inst0) →
  same_metadata (mjoin remote ++ inst0) (mjoin remote ++ inst0) →
  one_version (λ p, p ∈ inst0) → no_conflict (λ p, p ∈ inst0) →
  history remote inst0 inst →
  (∀ p, p ∈ inst → ∃ q, (q ∈ mjoin remote ∨ q ∈ inst0) ∧ same_release p q) ∧ one_version (λ p, p ∈ inst) ∧ no_conflict (λ p, p ∈ inst) ∧
  ∀ m inst', request_step remote inst m true inst' → closed_set m (λ p, p ∈ inst').
Proof.
  intros remote inst0 inst Hwf H1 H3 Hn Hc H.
  assert (I : (∀ p, p ∈ inst → ∃ q, q ∈ mjoin remote ++ inst0 ∧ same_release p q) ∧ one_version (λ p, p ∈ inst) ∧ no_conflict (λ p, p ∈ inst)).
  { induction H as [|inst1 m whole inst2 _ (I1 & I2 & I3) S]; [split; [intros p Hp; exists p; split; [set_solver|by repeat split]|done]|].
    destruct (step_ok remote inst0 Hwf H1 H3 inst1 m whole inst2 I1 I2 I3 S) as (? & ? & ? & _). done. }
  destruct I as (I1 & I2 & I3). split; [intros p (q & Hq & R)%I1; exists q; rewrite <-elem_of_app; done|]. split; [done|]. split; [done|].
  intros m inst' S. by apply (step_ok remote inst0 Hwf H1 H3 inst m true inst' I1 I2 I3 S).
Qed.

(** The transaction of C16_example is interrupted after its removals; then "gui" is requested, which also brings back a "lib", and the new
    packages are listed by the repository "i" of installed packages. *)
Definition hi_listed (p : package) : package := Pkg (p_name p) (p_version p) (p_requires p) (p_conflicts p) (p_provides p) (Some "i").
Definition hi_mid : list package := hi_listed <$> after_l ex_installed (take 2 ex_ops).
Definition hi_ds : dep_solver := ds0 ([ex_remote] ++ [hi_mid]) [ex_remote] hi_mid true false.
Definition hi_ops : list operation := match solve env0 hi_ds 60 (ask [want "gui"]) with Ok (Normal t) => t_ops t | _ => [] end.
Definition hi_end : list package := hi_listed <$> after_l hi_mid hi_ops.
Lemma hi_release p : same_release (hi_listed p) p.
Proof. by repeat split. Qed.
Lemma hi_step inst ops : ∀ p, p ∈ hi_listed <$> after_l inst ops ↔ ∃ q, after inst ops q ∧ p = hi_listed q.
Proof.
  intros p. rewrite elem_of_list_fmap. split; intros (q & H1 & H2); exists q; [by rewrite <-after_l_spec|by rewrite after_l_spec].
Qed.
Lemma hi_steps : request_step [ex_remote] ex_installed no_mods false hi_mid ∧ request_step [ex_remote] hi_mid no_mods true hi_end.
Proof.
  split; split.
  - destruct C16_example as (S & A & Pr & _ & _ & _ & Rk & _ & _ & _ & _ & t & Et & Ho).
    exists env0, (ex_ds true), 60%nat, ex_request, (rq_jobs ex_request), t, (take 2 ex_ops), (drop 2 ex_ops).
    split; [exact env0_ok|]. split; [exact (sv_pool _ _ S)|]. split; [reflexivity|]. split; [reflexivity|]. split; [exact Pr|]. split; [exact A|].
    split; [reflexivity|]. split; [exact Rk|]. split; [exact Et|]. clear Et. split; [rewrite Ho; reflexivity|]. split; [discriminate|].
    exists hi_listed. split; [exact hi_release|]. exact (hi_step _ _).
  - assert (∃ t, solve env0 hi_ds 60 (ask [want "gui"]) = Ok (Normal t) ∧ t_ops t = hi_ops) as (t & Et & Ho) by run.
    assert (S : setting ([ex_remote] ++ [hi_mid]) hi_ds) by run.
    exists env0, hi_ds, 60%nat, (ask [want "gui"]), (rq_jobs (ask [want "gui"])), t, hi_ops, [].
    split; [exact env0_ok|]. split; [exact (sv_pool _ _ S)|]. split; [reflexivity|]. split; [reflexivity|]. split; [reflexivity|]. split; [run|].
    split; [reflexivity|]. split; [run|]. split; [exact Et|]. clear Et. split; [rewrite app_nil_r; exact Ho|]. split; [reflexivity|].
    exists hi_listed. split; [exact hi_release|]. exact (hi_step _ _).
Qed.
Theorem C86_example : (∀ p, p ∈ mjoin [ex_remote] ++ ex_installed → dist_name (of_s (p_name p))) ∧ single_names (mjoin [ex_remote] ++ ex_installed) ∧
  same_metadata (mjoin [ex_remote] ++ ex_installed) (mjoin [ex_remote] ++ ex_installed) ∧
  one_version (λ p, p ∈ ex_installed) ∧ no_conflict (λ p, p ∈ ex_installed) ∧
  history [ex_remote] ex_installed hi_mid ∧ request_step [ex_remote] hi_mid no_mods true hi_end ∧
  p_name <$> hi_mid = ["misc"] ∧ p_name <$> hi_end = ["misc"; "lib"; "gui"].
Proof.
  destruct C16_example as (S & _). destruct hi_steps as (S1 & S2).
  split; [intros p Hp; apply (wf_names _ (sv_keys _ _ S)); exact Hp|]. split; [run|]. split; [run|].
  split; [apply names_b_spec; vm_compute; reflexivity|]. split; [apply conflicts_b_spec; vm_compute; reflexivity|].
  split; [eapply history_step; [apply history_start|exact S1]|]. split; [exact S2|]. split; vm_compute; reflexivity.
Qed.
Print Assumptions C86_history. Print Assumptions C86_example.
