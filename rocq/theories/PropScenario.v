(** * Property C67: scenario files. *)
From Verif Require Import ReqProofs PropParser PropPretty PropRepo PropPool PoolProofs PrettyProofs RulesProofs ScenarioProofs PropLimits PropSolve.
From Coq Require Import Ascii String.
Open Scope list_scope.

(** ** Loading: the scenario is exactly what the data says, and everything else is refused. *)
Theorem C67_loaded : ∀ vparse vtext d sc, from_yaml vparse vtext d = Ok sc ↔ loaded vparse vtext d sc.
Proof. intros vparse vtext d sc. apply from_yaml_spec. Qed.

(** If no entry of "marked" is repeated, those that are not the name of a requirement of the request are left. *)
Lemma count_0 x l : count x l = 0%nat ↔ x ∉ l.
Proof.
  unfold count. rewrite length_zero_iff_nil. split.
  - intros H Hx. assert (x ∈ filter (λ y, y = x) l) as H' by (by apply elem_of_list_filter). rewrite H in H'. by apply elem_of_nil in H'.
  - intros H. destruct (filter _ l) as [|y k] eqn:E; [done|]. assert (y ∈ filter (λ y, y = x) l) as [-> Hy]%elem_of_list_filter by (rewrite E; left). done.
Qed.
Lemma left_from_nodup names marked : ∀ pre, NoDup marked → (∀ s, s ∈ marked → count s pre = 0%nat) →
  left_from names pre marked = filter (λ s, s ∉ names) marked.
Proof.
  induction marked as [|s r IH]; intros pre Hd Hp; [done|]. apply NoDup_cons in Hd as [Hs Hd]. rewrite left_from_cons, IH; [|done|].
  - assert (Hp' := Hp s ltac:(left)). destruct (decide (s ∈ names)) as [H|H].
    + rewrite filter_cons_False by (intros ?; done). rewrite decide_False; [done|]. rewrite Hp'. intros H'. apply (count_0 s names); [lia|done].
    + rewrite filter_cons_True by done. rewrite decide_True; [done|]. apply count_0 in H. lia.
  - intros t Ht. rewrite count_app, Hp by (by right). rewrite count_cons. case_decide; [by subst|]. done.
Qed.
Theorem C67_marked : ∀ vparse vtext d sc, from_yaml vparse vtext d = Ok sc → NoDup (sd_marked d) →
  ∃ asked kept, rq_jobs (sc_request sc) = asked ++ kept ∧
    Forall2 (entry_job vparse) (filter (λ rd, ¬ is_update_all rd) (sd_request d)) asked ∧
    Forall2 (λ s j, ∃ r k, reads vparse s r ∧ j = Job (Some r) k ∧ (k = JHardUpdate ∨ k = JInstall))
      (filter (λ s, s ∉ asked_name <$> asked) (sd_marked d)) kept.
Proof.
  intros vparse vtext d sc H Hd. apply from_yaml_spec in H. destruct (rl_jobs _ _ _ (ld_request _ _ _ _ H)) as (asked & left & kept & EJ & Ha & Hl & Hk).
  exists asked, kept. split; [done|]. split; [done|]. unfold left_over in Hl.
  assert (E := left_from_nodup (asked_name <$> asked) (sd_marked d) [] Hd ltac:(done)). unfold left_from in E. cbn [app] in E. rewrite <-E, <-Hl.
  eapply Forall2_impl; [exact Hk|]. cbn. intros s j (r & k & Hr & -> & [[-> _]|[-> _]]); eauto 10.
Qed.

(** An upgrade cannot be asked for: the method takes no requirement. *)
Theorem C67_upgrade_refuted : ∀ vparse vtext d rd, rd ∈ sd_request d → rd_operation rd = Some "upgrade" →
  ∀ sc, from_yaml vparse vtext d ≠ Ok sc.
Proof.
  intros vparse vtext d rd Hrd Hop sc H%from_yaml_spec.
  destruct (rl_jobs _ _ _ (ld_request _ _ _ _ H)) as (asked & left & kept & _ & Ha & _).
  assert (rd ∈ filter (λ rd, ¬ is_update_all rd) (sd_request d)) as Hin. { apply elem_of_list_filter. split; [|done]. unfold is_update_all. by rewrite Hop. }
  apply elem_of_list_lookup in Hin as (i & Hi). destruct (Forall2_lookup_l _ _ _ _ _ Ha Hi) as (j & _ & op & s & r & k & Hop' & _ & _ & Hk & _).
  rewrite Hop in Hop'. injection Hop' as <-. destruct Hk as [[? _]|[[? _]|[[? _]|[? _]]]]; done.
Qed.

(** ** Solving *)
Section solving.
  Context (vparse : text → res version) (vtext : text → text).
  (** The packages of the pool, and the lines they come from. *)
  Lemma parse_dep_spec d c : parse_dep vparse d = Ok c ↔ dep_said vparse d c.
  Proof.
    unfold parse_dep, dep_said, metadata_says. rewrite bind_ok. destruct c as [n cs]. cbn [fst snd].
    assert (E : ∀ cs, mapM_res (mapM_res (parse_constraints vparse)) d.2 = Ok cs ↔ Forall2 (Forall2 (λ s cs, constraint_text vparse cs s)) d.2 cs).
    { intros k. rewrite mapM_res_iff. apply Forall2_iff. intros x y. rewrite mapM_res_iff. apply Forall2_iff. intros s z. apply C56_constraint_string. }
    split.
    - intros (k & Hk & [= <- <-]). split; [done|]. by apply E.
    - intros [-> H]. exists cs. split; [by apply E|done].
  Qed.
  Lemma package_of_spec info m p : package_of vparse info m = Ok p ↔ package_said vparse info m p.
  Proof.
    unfold package_of, package_said. rewrite bind_ok. destruct p as [n v rs cs ps repo]. cbn [p_name p_version p_requires p_conflicts p_provides p_repo].
    assert (E : ∀ l k, mapM_res (parse_dep vparse) l = Ok k ↔ Forall2 (dep_said vparse) l k).
    { intros l k. rewrite mapM_res_iff. apply Forall2_iff. intros x y. apply parse_dep_spec. }
    split.
    - intros (rs' & Hr & H). apply bind_ok in H as (cs' & Hc & H). apply bind_ok in H as (ps' & Hp & [= <- <- <- <- <- <-]).
      split; [done|]. split; [done|]. split; [by apply E|]. split; [by apply E|]. split; [by apply E|done].
    - intros (-> & -> & Hr & Hc & Hp & ->). exists rs. split; [by apply E|]. apply bind_ok. exists cs. split; [by apply E|].
      apply bind_ok. exists ps. split; [by apply E|done].
  Qed.

  (** Versions that are equal are printed the same. *)
  Definition printed_alike : Prop := ∀ v v' w, vparse v = Ok w → vparse v' = Ok w → vtext v = vtext v'.

  Context (d : scenario_data) (sc : scenario) (Hsc : from_yaml vparse vtext d = Ok sc).
  Let Hld : loaded vparse vtext d sc := proj1 (from_yaml_spec _ _ _ _) Hsc.
  Lemma remote_known m : m ∈ sc_remote sc → ∃ f, known vparse vtext (sd_packages d) f m.
  Proof.
    intros Hm. assert (H := ld_remote _ _ _ _ Hld). destruct (sd_remote d) as [names|].
    - apply elem_of_list_lookup in Hm as (i & Hi). destruct (Forall2_lookup_r _ _ _ _ _ H Hi) as (f & _ & Hf). eauto.
    - rewrite H in Hm. apply elem_of_list_fmap in Hm as ([f m'] & -> & Hm). exists f. by apply (ld_packages _ _ _ _ Hld).
  Qed.
  Lemma installed_known m : m ∈ sc_installed sc → ∃ f, known vparse vtext (sd_packages d) f m.
  Proof.
    intros Hm. apply elem_of_list_lookup in Hm as (i & Hi). destruct (Forall2_lookup_r _ _ _ _ _ (ld_installed _ _ _ _ Hld) Hi) as (f & _ & Hf). eauto.
  Qed.
  Lemma known_name f m : known vparse vtext (sd_packages d) f m →
    dist_name (of_s (mt_name m)) ∧ ∃ v, vparse v = Ok (mt_version m) ∧ f = of_s (mt_name m) ++ of_s " " ++ vtext v.
  Proof.
    intros (l1 & s & l2 & _ & (Hm & v & Hv & ->) & _). destruct (C61_preamble _ _ _ Hm) as (b & pre & rest & n & v' & E & Hb & _ & Hr & Hp & Hn & Hv').
    assert (v' = v) as ->. { apply (version_of_line_unique s); [|done]. exists b, pre, rest, n. auto. }
    split; [|eauto]. rewrite Hn, of_to_s. by destruct Hp as (sp & _ & ? & _).
  Qed.
  Lemma known_release f m f' m' : printed_alike → known vparse vtext (sd_packages d) f m → known vparse vtext (sd_packages d) f' m' →
    mt_name m = mt_name m' → mt_version m = mt_version m' → m = m'.
  Proof.
    intros Hpa Hf Hf' En Ev. destruct (known_name _ _ Hf) as (_ & v & Hv & ->). destruct (known_name _ _ Hf') as (_ & v' & Hv' & ->).
    rewrite Ev in Hv. rewrite En, (Hpa _ _ _ Hv Hv') in Hf. by eapply known_unique.
  Qed.
  Context (pruning strict : bool) (ds : dep_solver) (Hds : scenario_solver vparse sc pruning strict = Ok ds).
  Lemma solver_open : ∃ remote inst, mapM_res (package_of vparse "remote") (sc_remote sc) = Ok remote ∧
    mapM_res (package_of vparse "installed") (sc_installed sc) = Ok inst ∧
    pool_of [repo_iter (repo_of remote); repo_iter (repo_of inst)] None = Ok (ds_pool ds) ∧
    ds_remote ds = [repo_iter (repo_of remote)] ∧ ds_installed ds = repo_iter (repo_of inst) ∧ ds_pruning ds = pruning ∧ ds_strict ds = strict.
  Proof.
    unfold scenario_solver in Hds. apply bind_ok in Hds as (remote & Hr & H). apply bind_ok in H as (inst & Hi & H). apply bind_ok in H as (po & Hp & [= <-]).
    exists remote, inst. auto 10.
  Qed.
  Lemma solver_remote p : p ∈ mjoin (ds_remote ds) ↔ ∃ m, m ∈ sc_remote sc ∧ package_said vparse "remote" m p.
  Proof.
    destruct solver_open as (remote & inst & Hr & Hi & _ & -> & _). unfold mjoin. cbn [mjoin list_join]. rewrite app_nil_r.
    rewrite (proj1 (C35_iteration remote)). rewrite (mapM_res_elem _ _ _ p Hr). setoid_rewrite package_of_spec. done.
  Qed.
  Lemma solver_installed p : p ∈ ds_installed ds ↔ ∃ m, m ∈ sc_installed sc ∧ package_said vparse "installed" m p.
  Proof.
    destruct solver_open as (remote & inst & Hr & Hi & _ & _ & -> & _).
    rewrite (proj1 (C35_iteration inst)). rewrite (mapM_res_elem _ _ _ p Hi). setoid_rewrite package_of_spec. done.
  Qed.
  Lemma solver_all p : p ∈ mjoin (ds_remote ds ++ [ds_installed ds]) ↔ p ∈ mjoin (ds_remote ds) ∨ p ∈ ds_installed ds.
  Proof.
    rewrite !elem_of_list_join. setoid_rewrite elem_of_app. setoid_rewrite elem_of_list_singleton. split.
    - intros (l & Hp & H). destruct H as [Hl|El]; [left; eauto|right; by subst].
    - intros H. destruct H as [H|Hp]; [destruct H as (l & Hp & Hl)|]; eauto.
  Qed.
  Lemma said_known p : p ∈ mjoin (ds_remote ds ++ [ds_installed ds]) → ∃ f m info, known vparse vtext (sd_packages d) f m ∧ package_of vparse info m = Ok p.
  Proof.
    intros H. apply solver_all in H. destruct H as [H|H]; [apply solver_remote in H|apply solver_installed in H];
      destruct H as (m & Hm & Hp); apply package_of_spec in Hp.
    - destruct (remote_known _ Hm) as [f Hf]. eauto.
    - destruct (installed_known _ Hm) as [f Hf]. eauto.
  Qed.
  Lemma same_release p q : printed_alike → p ∈ mjoin (ds_remote ds ++ [ds_installed ds]) → q ∈ mjoin (ds_remote ds ++ [ds_installed ds]) →
    p_name p = p_name q → p_version p = p_version q →
    p_requires p = p_requires q ∧ p_conflicts p = p_conflicts q ∧ p_provides p = p_provides q.
  Proof.
    intros Hpa Hp Hq En Ev. apply said_known in Hp, Hq. destruct Hp as (f & m & i & Hf & Hm), Hq as (f' & m' & i' & Hf' & Hm').
    assert (∀ i, package_of vparse i m = (r ← mapM_res (parse_dep vparse) (mt_requires m); c ← mapM_res (parse_dep vparse) (mt_conflicts m);
      v ← mapM_res (parse_dep vparse) (mt_provides m); Ok (Pkg (mt_name m) (mt_version m) r c v (Some i)))) as E by done.
    assert (m' = m) as ->.
    { destruct (proj1 (package_of_spec _ _ _) Hm) as (E1 & E2 & _), (proj1 (package_of_spec _ _ _) Hm') as (E3 & E4 & _).
      symmetry. eapply known_release; eauto; congruence. }
    rewrite E in Hm, Hm'. destruct (mapM_res _ (mt_requires m)) as [r|]; [|done]. destruct (mapM_res _ (mt_conflicts m)) as [c|]; [|done].
    destruct (mapM_res _ (mt_provides m)) as [v|]; [|done]. injection Hm as <-. injection Hm' as <-. done.
  Qed.
  Lemma scenario_setting : printed_alike → setting (ds_remote ds ++ [ds_installed ds]) ds.
  Proof.
    intros Hpa. split.
    - exists None. destruct solver_open as (remote & inst & _ & _ & Hp & -> & -> & _). exact Hp.
    - intros p Hp. apply solver_all. by right.
    - split.
      + intros p q Hp Hq E. unfold pkg_key in E. injection E as En Ev _ _ Er.
        destruct (same_release p q Hpa Hp Hq En Ev) as (E1 & E2 & E3). destruct p, q; cbn in *; congruence.
      + intros p Hp. apply said_known in Hp. destruct Hp as (f & m & i & Hf & Hm). apply package_of_spec in Hm. destruct Hm as [-> _]. by destruct (known_name _ _ Hf).
  Qed.
  Lemma scenario_same_metadata : printed_alike → same_metadata (mjoin (ds_remote ds ++ [ds_installed ds])) (ds_installed ds).
  Proof. intros Hpa p q Hp Hq. apply same_release; [done| |done]. apply solver_all. by right. Qed.
  Lemma scenario_jobs j : j ∈ rq_jobs (sc_request sc) → j_kind j ≠ JUpgrade.
  Proof.
    destruct (rl_jobs _ _ _ (ld_request _ _ _ _ Hld)) as (asked & left & kept & -> & Ha & _ & Hk).
    intros [H|H]%elem_of_app; apply elem_of_list_lookup in H as (i & Hi).
    - destruct (Forall2_lookup_r _ _ _ _ _ Ha Hi) as (rd & _ & op & s & r & k & _ & _ & _ & Hkk & ->). by destruct (operation_kind_not _ _ Hkk).
    - destruct (Forall2_lookup_r _ _ _ _ _ Hk Hi) as (s & _ & r & k & _ & -> & [[-> _]|[-> _]]); done.
  Qed.
  Lemma scenario_asks : asks ds (sc_request sc) (rq_jobs (sc_request sc)).
  Proof. left. split; [apply scenario_jobs|done]. Qed.
End solving.

(** The pool holds the packages of the file, marked with the repository they come from; it is one the theorems about
    solve apply to, with nothing to assume about the metadata of installed packages. *)
Theorem C67_pool : ∀ vparse vtext d sc pruning strict ds, from_yaml vparse vtext d = Ok sc →
  scenario_solver vparse sc pruning strict = Ok ds →
  (∀ p, p ∈ mjoin (ds_remote ds) ↔ ∃ m, m ∈ sc_remote sc ∧ package_said vparse "remote" m p) ∧
  (∀ p, p ∈ ds_installed ds ↔ ∃ m, m ∈ sc_installed sc ∧ package_said vparse "installed" m p) ∧
  asks ds (sc_request sc) (rq_jobs (sc_request sc)) ∧
  (printed_alike vparse vtext →
    setting (ds_remote ds ++ [ds_installed ds]) ds ∧
    same_metadata (mjoin (ds_remote ds ++ [ds_installed ds])) (ds_installed ds)).
Proof.
  intros vparse vtext d sc pr st ds Hsc Hds. split; [by eapply solver_remote|]. split; [by eapply solver_installed|].
  split; [by eapply scenario_asks|]. intros Hpa. split; [by eapply scenario_setting|by eapply scenario_same_metadata].
Qed.
(** From the file to the transaction: what is installed afterwards is a valid installation. *)
Theorem C67_valid : ∀ vparse vtext d sc strict ds e fuel t, from_yaml vparse vtext d = Ok sc → printed_alike vparse vtext →
  scenario_solver vparse sc true strict = Ok ds → env_ok e →
  let pkgs := mjoin (ds_remote ds ++ [ds_installed ds]) in
  single_names pkgs → removes_known pkgs (ds_installed ds) (rq_jobs (sc_request sc)) →
  solve_scenario vparse e fuel sc true strict = Ok (Normal t) →
  valid pkgs (ds_installed ds) (rq_mods (sc_request sc)) (rq_jobs (sc_request sc)) (after (ds_installed ds) (t_ops t)).
Proof.
  intros vparse vtext d sc st ds e fuel t Hsc Hpa Hds He pkgs Hs Hr H. unfold solve_scenario in H. rewrite Hds in H. cbn [mbind res_bind] in H.
  apply (C16_valid e (ds_remote ds ++ [ds_installed ds]) ds fuel (sc_request sc)); try done.
  - by eapply scenario_setting.
  - by eapply scenario_asks.
  - by destruct (solver_open _ _ _ _ _ Hds) as (_ & _ & _ & _ & _ & _ & _ & ? & _).
  - by eapply scenario_same_metadata.
Qed.
Theorem C67_unsat : ∀ vparse vtext d sc pruning strict ds e fuel c k s, from_yaml vparse vtext d = Ok sc → printed_alike vparse vtext →
  scenario_solver vparse sc pruning strict = Ok ds → env_ok e →
  solve_scenario vparse e fuel sc pruning strict = Ok (Unsat c k s) →
  ¬ ∃ S, valid (mjoin (ds_remote ds ++ [ds_installed ds])) (ds_installed ds) (rq_mods (sc_request sc)) (rq_jobs (sc_request sc)) S.
Proof.
  intros vparse vtext d sc pr st ds e fuel c k s Hsc Hpa Hds He H. unfold solve_scenario in H. rewrite Hds in H. cbn [mbind res_bind] in H.
  eapply (C15_unsat e _ ds); [done|by eapply scenario_setting|by eapply scenario_asks|exact H].
Qed.

(** ** Examples *)
Definition c67_vparse (t : text) : res version := if decide (t = of_s "1.0-0") then Ok (V 10 0) else ex_vparse t.
Definition c67_vtext (t : text) : text :=
  match c67_vparse t with
  | Ok v => if decide (v = V 10 0) then of_s "1.0-0" else ex_vstr v
  | Raise _ => []
  end.
Lemma c67_alike : printed_alike c67_vparse c67_vtext.
Proof. intros v v' w H H'. unfold c67_vtext. by rewrite H, H'. Qed.
Definition c67_install (n : string) : request_data := RequestData (Some "install"%string) (Some (of_s n)).
Definition c67_data : scenario_data := ScenarioData
  [of_s "app 1.0; depends (lib >= 2.0)"; of_s "lib 1.0"; of_s "lib 2.0; conflicts (old)"; of_s "old 1.0"; of_s "app 1.0-0; depends (lib > 1.0)"]
  None [of_s "lib 1.0-0"] [of_s "lib"; of_s "app"] [("allow_newer"%string, ["old"%string])]
  [c67_install "app >= 1.0"; RequestData (Some "update_all"%string) None]
  [OpData (Some "update"%string) None (Some (of_s "lib 2.0")) (Some (of_s "lib 1.0"))] [] None.
(** The second line for app replaces the first one; app is no longer marked after the request, lib is to be updated. *)
Definition c67_app : package := Pkg "app" (V 10 0) [("lib", [[[CGt (V 10 0)]]])] [] [] (Some "remote"%string).
Definition c67_lib2 : package := Pkg "lib" (V 20 0) [] [("old", [[[CAny]]])] [] (Some "remote"%string).
Definition c67_lib1 : package := Pkg "lib" (V 10 0) [] [] [] (Some "installed"%string).
Definition c67_sc : scenario := match from_yaml c67_vparse c67_vtext c67_data with Ok sc => sc | Raise _ => MkScenario [] [] [] (Request no_mods []) [] [] None end.
Definition c67_ds : dep_solver := match scenario_solver c67_vparse c67_sc true false with Ok ds => ds | Raise _ => DepSolver (pool_empty None) [] [] false false end.
Definition loads_as (jobs : list job) (d : scenario_data) : bool :=
  match from_yaml c67_vparse c67_vtext d with Ok sc => bool_decide (rq_jobs (sc_request sc) = jobs) | Raise _ => false end.
Lemma loads_as_spec jobs d : loads_as jobs d = true → ∃ sc, from_yaml c67_vparse c67_vtext d = Ok sc ∧ rq_jobs (sc_request sc) = jobs.
Proof. unfold loads_as. destruct (from_yaml _ _ d); [|done]. intros H%bool_decide_eq_true. eauto. Qed.
Local Notation base n c k := (Job (Some (Req RBase n c)) k).
Theorem C67_example : from_yaml c67_vparse c67_vtext c67_data = Ok c67_sc ∧ printed_alike c67_vparse c67_vtext ∧ NoDup (sd_marked c67_data) ∧
  scenario_solver c67_vparse c67_sc true false = Ok c67_ds ∧ env_ok env0 ∧
  single_names (mjoin (ds_remote c67_ds ++ [ds_installed c67_ds])) ∧
  removes_known (mjoin (ds_remote c67_ds ++ [ds_installed c67_ds])) (ds_installed c67_ds) (rq_jobs (sc_request c67_sc)) ∧
  rq_jobs (sc_request c67_sc) = [base "app" [CGeq (V 10 0)] JInstall; base "lib" [CAny] JHardUpdate] ∧
  ∃ t, solve_scenario c67_vparse env0 60 c67_sc true false = Ok (Normal t) ∧
    t_ops t = [RemoveOp c67_lib1; InstallOp c67_lib2; InstallOp c67_app].
Proof.
  split; [vm_compute; reflexivity|]. split; [apply c67_alike|]. split; [apply (bool_decide_unpack (NoDup (sd_marked c67_data))); vm_compute; exact I|].
  split; [vm_compute; reflexivity|]. split; [apply env0_ok|]. split; [run|]. split; [run|]. split; [vm_compute; reflexivity|]. run.
Qed.
(** A marked name that is listed twice is not forgotten when it is asked for once; and only bare names are forgotten:
    after the removal of lib, "lib < 2.0" is still to be installed. *)
Definition c67_marks (ms : list text) : scenario_data := ScenarioData [of_s "lib 1.0"] None [] ms []
  [RequestData (Some "remove"%string) (Some (of_s "lib"))] [] [] None.
Theorem C67_duplicates_refuted :
  (∃ sc, from_yaml c67_vparse c67_vtext (c67_marks [of_s "lib"]) = Ok sc ∧ rq_jobs (sc_request sc) = [base "lib" [CAny] JRemove]) ∧
  (∃ sc, from_yaml c67_vparse c67_vtext (c67_marks [of_s "lib"; of_s "lib"]) = Ok sc ∧
     rq_jobs (sc_request sc) = [base "lib" [CAny] JRemove; base "lib" [CAny] JInstall]) ∧
  (∃ sc, from_yaml c67_vparse c67_vtext (c67_marks [of_s "lib < 2.0"]) = Ok sc ∧
     rq_jobs (sc_request sc) = [base "lib" [CAny] JRemove; base "lib" [CLt (V 20 0)] JInstall]).
Proof. split; [|split]; apply loads_as_spec; vm_compute; reflexivity. Qed.
(** An unsatisfiable scenario, for C67_unsat. *)
Definition c67_bad : scenario_data := ScenarioData
  [of_s "lib 2.0; conflicts (old)"; of_s "old 1.0"] None [of_s "old 1.0-0"] [of_s "old"] [] [c67_install "lib"] [] [] (Some (of_s "Conflicting requirements")).
Definition is_unsat (r : res (out transaction)) : bool := match r with Ok (Unsat _ _ _) => true | _ => false end.
Lemma is_unsat_spec r : is_unsat r = true → ∃ c k s, r = Ok (Unsat c k s).
Proof. destruct r as [[?|c k s]|]; [done| |done]. eauto. Qed.
Theorem C67_unsat_example : ∃ sc ds c k s, from_yaml c67_vparse c67_vtext c67_bad = Ok sc ∧ sc_failed sc = true ∧
  scenario_solver c67_vparse sc true false = Ok ds ∧ solve_scenario c67_vparse env0 60 sc true false = Ok (Unsat c k s).
Proof.
  assert (∃ sc, from_yaml c67_vparse c67_vtext c67_bad = Ok sc ∧ sc_failed sc && is_unsat (solve_scenario c67_vparse env0 60 sc true false) = true) as (sc & H & H').
  { eexists. split; [vm_compute; reflexivity|vm_compute; reflexivity]. }
  apply andb_true_iff in H' as [Hf H']. apply is_unsat_spec in H' as (c & k & s & H').
  destruct (scenario_solver c67_vparse sc true false) as [ds|x] eqn:E.
  - exists sc, ds, c, k, s. auto.
  - unfold solve_scenario in H'. rewrite E in H'. discriminate H'.
Qed.
Print Assumptions C67_loaded.
Print Assumptions C67_marked.
Print Assumptions C67_upgrade_refuted.
Print Assumptions C67_pool.
Print Assumptions C67_valid.
Print Assumptions C67_unsat.
Print Assumptions C67_example.
Print Assumptions C67_duplicates_refuted.
Print Assumptions C67_unsat_example.
