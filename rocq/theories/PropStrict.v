(** * Property C21, continued: which missing packages strict mode reports. *)
From Verif Require Import PoolProofs PropPool PropConstraints SpecSat ConstraintProofs RulesMain.
From Verif Require Export PropRules.

(** A package a job asks for directly: a candidate of an install or soft update job that is not installed,
    or the package a hard update picks. *)
Definition asked_directly (pkgs inst : list package) (jobs : list job) (p : package) : Prop :=
  ∃ j r, j ∈ jobs ∧ j_req j = Some r ∧
    match j_kind j with
    | JInstall | JSoftUpdate => p ∈ pkgs ∧ req_meets r p ∧ p ∉ inst
    | JHardUpdate => hard_choice pkgs inst r p
    | _ => False
    end.
(** What the two errors of strict mode say. *)
Definition missing_requires (pkgs inst : list package) (m : modifiers) (jobs : list job) : Prop :=
  ∃ p d, asked_directly pkgs inst jobs p ∧ d ∈ p_requires p ∧ ∀ q, q ∈ pkgs → ¬ dep_meets m d q.
Definition missing_conflict (pkgs inst : list package) (jobs : list job) : Prop :=
  ∃ p d, asked_directly pkgs inst jobs p ∧ d ∈ p_conflicts p ∧ ∀ q, q ∈ pkgs → ¬ conflict_meets d q.
Definition just (s : bool) (pkgs inst : list package) (m : modifiers) (jobs : list job) (e : exn) : Prop :=
  match e with
  | MissingInstallRequires => s = true ∧ missing_requires pkgs inst m jobs
  | MissingConflicts => s = true ∧ missing_conflict pkgs inst jobs
  | _ => True
  end.

Section just.
  Context (po : pool) (l : list package) (R : pool_rep po l) (Hinj : well_formed l).
  Context (inst : list package) (Hinst : ∀ p, p ∈ inst → p ∈ l).
  Context (iids : list (Z * package)) (Hiids : ∀ ip, ip ∈ iids ↔ ∃ p, p ∈ inst ∧ ip = (pid po p, p)).
  Context (s : bool) (jobs : list job).
  Local Notation J := (just s l inst (sem_mods po) jobs).
  Local Notation direct := (asked_directly l inst jobs).
  Lemma just_from_constraints cls d : only J (from_constraints cls d).
  Proof. destruct d as [n dd]. unfold from_constraints. by destruct (1 <? length dd)%nat. Qed.
  Lemma just_what_provides r b : only J (what_provides po r b).
  Proof.
    unfold what_provides. destruct (po_byname po !! r_name r); [|done]. apply only_bind; [|done].
    destruct b; [|done]. unfold pool_modify. destruct (po_mods po) as [m|]; [|done].
    unfold modify_requirement. repeat case_match; cbn; auto.
  Qed.
  (** The queue: packages of the pool; an entry with one requirement was put there by a job. *)
  Definition entry (w : package * option (list requirement)) : Prop :=
    w.1 ∈ l ∧ match w.2 with None => True | Some [] => False | Some [_] => direct w.1 | _ => True end.
  Lemma just_strict e p rs : entry (p, rs) → (s = true → direct p → J e) → e = MissingInstallRequires ∨ e = MissingConflicts →
    only J (strict_check s e rs).
  Proof.
    intros [_ Hd] He Hm. cbn in Hd. unfold strict_check. destruct s; [|done]. destruct rs as [[|r [|]]|]; try done.
    cbn. by apply He.
  Qed.
  Lemma combine_entry q rs r : q ∈ l → match rs with Some [] => False | _ => True end → entry (q, Rules.combine rs r).
  Proof. intros Hq Hr. split; [done|]. by destruct rs as [[|? [|]]|]. Qed.
  Lemma just_requires p rs : entry (p, rs) → ∀ ds acc st, (∀ d, d ∈ ds → d ∈ p_requires p) → (∀ w, w ∈ acc → entry w) →
    only J (requires_rules po s p rs ds acc st) ∧
    ∀ st' more, requires_rules po s p rs ds acc st = Ok (st', more) → ∀ w, w ∈ more → entry w.
  Proof.
    intros He. destruct He as [Hp Hrs] eqn:EE. clear EE. cbn in Hp, Hrs.
    induction ds as [|d ds IH]; intros acc st Hds Hacc; cbn [requires_rules].
    { split; [done|]. by intros ? ? [= <- <-]. }
    assert (Ho := just_from_constraints RInstall d).
    destruct (from_constraints RInstall d) as [r|e] eqn:Er; cbn [mbind res_bind]; [|split; [done|done]].
    assert (Hw := just_what_provides r true).
    destruct (what_provides po r true) as [[|q qs]|e] eqn:Ew; cbn [mbind res_bind]; [..|split; [done|done]].
    - split.
      + apply only_bind; [apply just_strict with (p := p); [by split| |by left]|].
        * intros Hs Hd. split; [done|]. exists p, d. split; [done|]. split; [apply Hds; left|].
          intros q Hq Hm. destruct (from_constraints_spec _ _ _ Er) as [Hpl _].
          assert (q ∈ dcand po d) as Hin by (apply (dcand_spec _ _ R); done).
          unfold dcand, wp in Hin. rewrite Er, Ew in Hin. by apply elem_of_nil in Hin.
        * intros _ _. unfold remove_rule. by rewrite (pid_ok _ _ R p Hp).
      + intros st' more (_ & _ & H)%mbind_ok. apply mbind_ok in H as (? & _ & H). injection H as _ <-. by intros w ?%elem_of_nil.
    - assert (Hqs : ∀ x, x ∈ q :: qs → x ∈ l).
      { intros x Hx. by apply (rep_what_provides_elem _ _ R _ _ _ _ Ew) in Hx as [? _]. }
      unfold dependency_rule. rewrite (pid_ok _ _ R p Hp). cbn [mbind res_bind]. rewrite (pids_ok _ _ R).
      2:{ intros x [_ Hx]%elem_of_list_filter. auto. }
      cbn [mbind res_bind]. apply IH; [intros ? ?; apply Hds; by right|].
      intros w [?|(y & -> & Hy)%elem_of_list_fmap]%elem_of_app; [auto|]. apply combine_entry; [auto|]. by destruct rs as [[|? [|]]|].
  Qed.
  Lemma just_conflicts p rs st : entry (p, rs) → only J (conflicts_rules po s p rs st).
  Proof.
    intros He. assert (Hp : p ∈ l) by apply He.
    unfold conflicts_rules, same_name_rules. destruct (same_name_cand po l R p Hp) as (ps & Hps & Hsp).
    rewrite (name_req _ Hinj _ p Hp). cbn [mbind res_bind]. rewrite Hps. cbn [mbind res_bind].
    edestruct (add_conflicts_spec po l R Hinj p package_same_name) as (st1 & E1 & _); [done| |rewrite E1].
    { intros q [_ Hq]%elem_of_list_filter. by apply Hsp. }
    cbn [mbind res_bind]. apply only_foldM. intros d s1 Hd. apply only_bind; [apply just_from_constraints|]. intros r Hr.
    apply only_bind; [apply just_what_provides|]. intros cs Hcs. apply only_bind.
    { destruct cs; [|done]. apply just_strict with (p := p); [done| |by right]. intros Hs Hdir. split; [done|].
      exists p, d. split; [done|]. split; [done|]. intros q Hq Hm.
      assert (q ∈ ccand po d) as Hin by (apply (ccand_spec _ _ R); [by exists r, []|done]).
      unfold ccand, wp in Hin. rewrite Hr, Hcs in Hin. by apply elem_of_nil in Hin. }
    intros _ _. edestruct (add_conflicts_spec po l R Hinj p package_conflicts) as (st2 & E2 & _); [done| |by rewrite E2].
    intros q Hq. by apply (rep_what_provides_elem _ _ R _ _ _ _ Hcs) in Hq as [? _].
  Qed.
  Lemma just_loop : ∀ fuel queue st, (∀ w, w ∈ queue → entry w) → only J (package_rules_loop po s fuel queue st).
  Proof.
    induction fuel as [|fuel IH]; intros queue st Hq; (destruct queue as [|[p reqs] queue]; cbn [package_rules_loop]; [done|]).
    { done. }
    assert (He : entry (p, reqs)) by (apply Hq; left). assert (Hp : p ∈ l) by apply He.
    assert (Hq' : ∀ w, w ∈ queue → entry w) by (intros w Hw; apply Hq; by right).
    rewrite (pid_ok _ _ R p Hp). cbn [mbind res_bind]. case_decide; [by apply IH|].
    destruct (just_requires p reqs He (p_requires p) [] (Gst (g_rules st) ({[pid po p]} ∪ g_added st))) as [O1 O2]; [done| |].
    { by intros w ?%elem_of_nil. }
    apply only_bind; [exact O1|]. intros [st1 more] H1. apply only_bind; [by apply just_conflicts|]. intros st2 _.
    apply IH. intros w [Hw|Hw]%elem_of_app; [by apply Hq'|]. by eapply O2.
  Qed.
  Lemma just_package_rules fuel p r st : entry (p, r) → only J (package_rules po s fuel p r st).
  Proof. intros Hp. apply just_loop. by intros w ->%elem_of_list_singleton. Qed.
  Lemma just_job fuel j st : j ∈ jobs → only J (job_rules po iids s fuel j st).
  Proof.
    intros Hj.
    assert (Hi : ∀ r, j_req j = Some r → (j_kind j = JInstall ∨ j_kind j = JSoftUpdate) →
      only J (install_job_rules po iids s fuel r st)).
    { intros r Hr Hk. unfold install_job_rules. rewrite (jcand_ok _ _ R). cbn [mbind res_bind].
      assert (Hsub : ∀ p, p ∈ wp po r false → p ∈ l ∧ req_meets r p) by (intros p; by rewrite (jcand_spec _ _ R)).
      destruct (wp po r false) as [|p0 ps0] eqn:E; [done|]. rewrite <-E in *. clear E.
      apply only_bind; [apply only_foldM|intros st1 _].
      - intros p s0 Hp. apply Hsub in Hp as [Hl Hm]. rewrite (pid_ok _ _ R) by auto. cbn [mbind res_bind].
        case_decide as Hd; [done|]. apply just_package_rules. split; [done|]. cbn. exists j, r. split; [done|]. split; [done|].
        rewrite (iids_ids po l R Hinj inst Hinst iids Hiids p Hl) in Hd. by destruct Hk as [-> | ->].
      - unfold one_of_rule. rewrite (pids_ok _ _ R); [done|]. intros p Hp. by apply Hsub. }
    unfold job_rules. destruct (j_kind j) eqn:Ek, (j_req j) as [r|] eqn:Er; auto; try done.
    - unfold remove_job_rules. rewrite (jcand_ok _ _ R). cbn [mbind res_bind]. apply only_foldM. intros p s0 Hp.
      apply (jcand_spec _ _ R) in Hp as [Hl _]. unfold remove_rule. by rewrite (pid_ok _ _ R) by done.
    - unfold update_job_rules. rewrite (jcand_ok _ _ R). cbn [mbind res_bind].
      assert (Hb := λ p, best_spec po l R Hinj inst Hinst iids Hiids r p). unfold best in Hb.
      destruct (wp po r false) as [|p0 ps0] eqn:E; [done|].
      specialize (Hb (max_first (update_lt po iids) p0 ps0)). destruct Hb as [Hb _]. specialize (Hb eq_refl).
      assert (Hl : max_first (update_lt po iids) p0 ps0 ∈ l).
      { destruct Hb as (l1 & l2 & -> & _). apply elem_of_app. right. left. }
      apply only_bind; [apply just_package_rules|].
      + split; [done|]. cbn. exists j, r. split; [done|]. split; [done|]. by rewrite Ek.
      + intros st1 _. by rewrite (pid_ok _ _ R) by done.
  Qed.
  Lemma just_iter fuel : only J (iter_rules po iids s fuel jobs).
  Proof.
    unfold iter_rules. apply only_bind; [apply only_foldM; intros j st Hj; by apply just_job|]. intros st _.
    apply only_foldM. intros ip st1 Hip. apply (iids_pkgs po l inst Hinst iids Hiids) in Hip.
    apply only_bind.
    - unfold installed_package_rules. apply only_foldM. intros q st2 Hq. apply just_package_rules.
      split; [|done]. by apply (name_packages_spec _ _ R) in Hq as [? _].
    - intros st2 _. by apply just_package_rules.
  Qed.
End just.

(** When strict mode must fail: a package that a job asks for and nothing depends on. *)
Definition no_dependent (pkgs : list package) (m : modifiers) (p : package) : Prop :=
  ∀ q d, q ∈ pkgs → d ∈ p_requires q → ¬ dep_meets m d p.
Section must.
  Context (po : pool) (l : list package) (R : pool_rep po l) (Hinj : well_formed l).
  Context (inst : list package) (Hinst : ∀ p, p ∈ inst → p ∈ l).
  Context (iids : list (Z * package)) (Hiids : ∀ ip, ip ∈ iids ↔ ∃ p, p ∈ inst ∧ ip = (pid po p, p)).
  Context (p : package) (Hpl : p ∈ l) (Hnd : no_dependent l (sem_mods po) p).
  (** All its dependencies and conflicts have candidates. *)
  Definition complete : Prop :=
    (∀ d, d ∈ p_requires p → ∃ q, q ∈ l ∧ dep_meets (sem_mods po) d q) ∧
    (∀ d, d ∈ p_conflicts p → ∃ q, q ∈ l ∧ conflict_meets d q).
  Definition checked (st : gst) : Prop := pid po p ∈ g_added st → complete.
  Definition first (w : package * option (list requirement)) : Prop := w.1 ∈ l ∧ (w.1 = p → ∃ r, w.2 = Some [r]).
  Lemma dcand_some d q qs : dcand po d = q :: qs → ∃ q, q ∈ l ∧ dep_meets (sem_mods po) d q.
  Proof.
    intros E. exists q. assert (Hin : q ∈ dcand po d) by (rewrite E; left). apply (dcand_spec _ _ R); [|done].
    unfold dcand in Hin. destruct (from_constraints RInstall d) as [r|] eqn:Er; [|by apply elem_of_nil in Hin].
    by apply from_constraints_spec in Er as [? _].
  Qed.
  Lemma must_requires r : ∀ ds acc st st' more, requires_rules po true p (Some [r]) ds acc st = Ok (st', more) →
    ∀ d, d ∈ ds → ∃ q, q ∈ l ∧ dep_meets (sem_mods po) d q.
  Proof.
    induction ds as [|d0 ds IH]; intros acc st st' more H d Hd; [by apply elem_of_nil in Hd|]. cbn [requires_rules] in H.
    apply mbind_ok in H as (q & Eq & H). apply mbind_ok in H as (cs & Ecs & H). destruct cs as [|c cs]; [done|].
    apply mbind_ok in H as (ru & _ & H). apply elem_of_cons in Hd as [-> |Hd]; [|by eapply IH].
    apply (dcand_some d0 c cs). unfold dcand, wp. by rewrite Eq, Ecs.
  Qed.
  Lemma must_conflicts r st st' : conflicts_rules po true p (Some [r]) st = Ok st' →
    ∀ d, d ∈ p_conflicts p → ∃ q, q ∈ l ∧ conflict_meets d q.
  Proof.
    unfold conflicts_rules. intros (st1 & _ & H)%mbind_ok. unfold declared_conflicts in H.
    revert H. refine (foldM_inv _ (λ ys _, ∀ d, d ∈ ys → ∃ q, q ∈ l ∧ conflict_meets d q) _ _ _ _ _).
    { by intros d ?%elem_of_nil. }
    intros ys d0 b b' IH _ H d [Hd| ->%elem_of_list_singleton]%elem_of_app; [by apply IH|].
    apply mbind_ok in H as (q & Eq & H). apply mbind_ok in H as (cs & Ecs & H). destruct cs as [|c cs]; [done|].
    exists c. apply (ccand_spec _ _ R); [by exists q, (c :: cs)|]. unfold ccand, wp. rewrite Eq, Ecs. left.
  Qed.
  Lemma must_loop : ∀ fuel queue st st', (∀ w, w ∈ queue → first w) → checked st →
    package_rules_loop po true fuel queue st = Ok st' → checked st'.
  Proof.
    induction fuel as [|fuel IH]; intros queue st st' Hq Hc H; (destruct queue as [|[p0 reqs] queue]; cbn [package_rules_loop] in H; [by injection H as <-|]).
    { done. }
    destruct (Hq (p0, reqs)) as [Hp0 Hf]; [left|]. cbn in Hp0, Hf.
    assert (Hq' : ∀ w, w ∈ queue → first w) by (intros w Hw; apply Hq; by right).
    rewrite (pid_ok _ _ R p0 Hp0) in H. cbn [mbind res_bind] in H. case_decide as Hd; [by eapply IH|].
    apply mbind_ok in H as ([st1 more] & H1 & H). apply mbind_ok in H as (st2 & H2 & H).
    assert (HS1 := H1). apply (requires_rules_spec _ _ R) in HS1 as (A1 & _ & _ & M1); [|done].
    assert (HS2 := H2). apply (conflicts_rules_spec _ _ R Hinj) in HS2 as (A2 & _); [|done].
    eapply IH; [| |exact H].
    - intros w [Hw|Hw]%elem_of_app; [by apply Hq'|].
      assert (Hm : w.1 ∈ more.*1) by (apply elem_of_list_fmap; eauto). rewrite M1 in Hm.
      destruct (all_met _ _); [|by apply elem_of_nil in Hm]. cbn in Hm.
      apply elem_of_list_join in Hm as (c & Hm & (d & -> & Hdd)%elem_of_list_fmap).
      assert (Hdep : w.1 ∈ l ∧ dep_meets (sem_mods po) d w.1).
      { assert (Hcd := Hm). unfold dcand in Hcd.
        destruct (from_constraints RInstall d) as [r|] eqn:Er; [|by apply elem_of_nil in Hcd].
        apply (dcand_spec _ _ R); [|done]. by apply from_constraints_spec in Er as [? _]. }
      split; [apply Hdep|]. intros Hw1. exfalso. apply (Hnd p0 d); [done|done|]. rewrite <-Hw1. apply Hdep.
    - intros Hin. rewrite A2, A1 in Hin. cbn in Hin. apply elem_of_union in Hin as [Hin%elem_of_singleton|Hin]; [|by apply Hc].
      apply (pid_inj _ _ R Hinj) in Hin; [|done|done]. subst p0. destruct (Hf eq_refl) as [r ->].
      split; [by eapply must_requires|by eapply must_conflicts].
  Qed.
  Lemma must_job fuel j st st' : checked st → job_rules po iids true fuel j st = Ok st' → checked st'.
  Proof.
    assert (Hi : ∀ r, checked st → install_job_rules po iids true fuel r st = Ok st' → checked st').
    { intros r Hc. unfold install_job_rules. rewrite (jcand_ok _ _ R). cbn [mbind res_bind].
      assert (Hsub : ∀ p, p ∈ wp po r false → p ∈ l) by (intros q; by rewrite (jcand_spec _ _ R); intros [? _]).
      destruct (wp po r false) as [|p0 ps0] eqn:E; [done|]. rewrite <-E in *. clear E.
      intros (st1 & H1 & H)%mbind_ok. apply mbind_ok in H as (ru & _ & [= <-]). unfold checked. rewrite added_add.
      revert H1. refine (foldM_inv _ (λ _ s, checked s) _ _ _ Hc _). intros _ q b b' IH Hq.
      rewrite (pid_ok _ _ R) by auto. cbn [mbind res_bind]. case_decide; [by intros [= <-]|].
      apply must_loop; [|done]. intros w ->%elem_of_list_singleton. split; cbn; eauto. }
    intros Hc. unfold job_rules. destruct (j_kind j), (j_req j) as [r|]; try done; try (by apply Hi).
    - unfold remove_job_rules. intros (ps & _ & H)%mbind_ok. revert H.
      refine (foldM_inv _ (λ _ s, checked s) _ _ _ Hc _). intros _ q b b' IH Hq (ru & _ & [= <-])%mbind_ok.
      unfold checked. by rewrite added_add.
    - unfold update_job_rules. rewrite (jcand_ok _ _ R). cbn [mbind res_bind].
      assert (Hsub : ∀ p, p ∈ wp po r false → p ∈ l) by (intros q; by rewrite (jcand_spec _ _ R); intros [? _]).
      destruct (wp po r false) as [|p0 ps0] eqn:E; [by intros [= <-]|].
      intros (st1 & H1 & H)%mbind_ok. apply mbind_ok in H as (i & _ & [= <-]). unfold checked. rewrite added_add.
      revert H1. apply must_loop; [|done]. intros w ->%elem_of_list_singleton. split; cbn; [|eauto].
      apply Hsub. apply max_first_elem.
  Qed.
  Lemma must_iter fuel jobs st : asked_directly l inst jobs p → iter_rules po iids true fuel jobs = Ok st → complete.
  Proof.
    intros Ha. unfold iter_rules. intros (st1 & H1 & _)%mbind_ok.
    assert (Hc : checked st1).
    { revert H1. refine (foldM_inv _ (λ _ s, checked s) _ _ _ _ _); [done|]. intros _ j b b' IH _ H. by eapply must_job. }
    assert (HR : ginv po l st1 [] (λ q, ∃ j, j ∈ jobs ∧ job_root po iids j q) (λ c, ∃ j, j ∈ jobs ∧ job_clause po iids j c)).
    { revert H1. refine (foldM_inv _ (λ ys s, ginv po l s [] (λ q, ∃ j, j ∈ ys ∧ job_root po iids j q) (λ c, ∃ j, j ∈ ys ∧ job_clause po iids j c)) _ _ _ _ _).
      - constructor; cbn; try (intros; set_solver).
        + intros c. split; [intros (r & Hr & _); by apply elem_of_nil in Hr|].
          intros [(j & Hj & _)|(q & [_ Hq] & _)]; [by apply elem_of_nil in Hj|]. cbn in Hq. set_solver.
        + intros q [_ Hq]. cbn in Hq. set_solver.
        + intros q [_ Hq]. cbn in Hq. set_solver.
        + intros q q' [_ Hq]. cbn in Hq. set_solver.
      - intros ys j b b' IH _ H. apply (job_rules_spec _ _ R Hinj) with (1 := H) in IH as [_ G].
        revert G. apply ginv_proper; [intros q|intros c]; split.
        + intros [(j' & Hj' & ?)|?]; [exists j'|exists j]; (split; [apply elem_of_app|done]); [by left|right; by left].
        + intros (j' & [Hj'| ->%elem_of_list_singleton]%elem_of_app & Hr); [left; eauto|by right].
        + intros [(j' & Hj' & ?)|?]; [exists j'|exists j]; (split; [apply elem_of_app|done]); [by left|right; by left].
        + intros (j' & [Hj'| ->%elem_of_list_singleton]%elem_of_app & Hr); [left; eauto|by right]. }
    apply Hc. destruct Ha as (j & r & Hj & Hr & Hk).
    destruct (gi_roots _ _ _ _ _ _ HR p) as [[_ ?]|Hn]; [|done|by apply elem_of_nil in Hn].
    exists j. split; [done|]. unfold job_root. rewrite Hr.
    assert (Hi : p ∈ l ∧ req_meets r p ∧ p ∉ inst → p ∈ wp po r false ∧ pid po p ∉ iids.*1).
    { intros (? & ? & ?). by rewrite (jcand_spec _ _ R), (iids_ids po l R Hinj inst Hinst iids Hiids). }
    destruct (j_kind j); auto. by apply (best_spec po l R Hinj inst Hinst iids Hiids).
  Qed.
End must.

(** The two errors are raised in strict mode only, and only for a package a job asks for directly that has
    a dependency (a conflict) no package of the pool meets. *)
Theorem C21_blamed : ∀ repos m po inst iids strict fuel jobs, pool_of repos m = Ok po →
  well_formed (mjoin repos) → (∀ p, p ∈ inst → p ∈ mjoin repos) → installed_ids po inst = Ok iids →
  (iter_rules po iids strict fuel jobs = Raise MissingInstallRequires →
     strict = true ∧ missing_requires (mjoin repos) inst (default no_mods m) jobs) ∧
  (iter_rules po iids strict fuel jobs = Raise MissingConflicts →
     strict = true ∧ missing_conflict (mjoin repos) inst jobs).
Proof.
  intros repos m po inst iids strict fuel jobs Hpo Hinj Hinst Hi. assert (Hpo' := Hpo). apply pool_of_rep in Hpo' as [R Hm].
  destruct (installed_ids_spec po _ R Hinj inst Hinst) as (iids' & E & Hiids). rewrite Hi in E. injection E as <-.
  assert (J := just_iter po _ R Hinj inst Hinst iids Hiids strict jobs fuel).
  assert (sem_mods po = default no_mods m) as <- by (unfold sem_mods; by rewrite Hm).
  split; intros H; rewrite H in J; exact J.
Qed.
(** And strict mode cannot succeed if a job asks directly for a package that nothing depends on and that has
    such a dependency or conflict. *)
Theorem C21_must_fail : ∀ repos m po inst iids fuel jobs p, pool_of repos m = Ok po →
  well_formed (mjoin repos) → (∀ p, p ∈ inst → p ∈ mjoin repos) → installed_ids po inst = Ok iids →
  asked_directly (mjoin repos) inst jobs p → no_dependent (mjoin repos) (default no_mods m) p →
  (∃ d, d ∈ p_requires p ∧ ∀ q, q ∈ mjoin repos → ¬ dep_meets (default no_mods m) d q) ∨
  (∃ d, d ∈ p_conflicts p ∧ ∀ q, q ∈ mjoin repos → ¬ conflict_meets d q) →
  ∃ e, iter_rules po iids true fuel jobs = Raise e.
Proof.
  intros repos m po inst iids fuel jobs p Hpo Hinj Hinst Hi Ha Hnd Hmiss. assert (Hpo' := Hpo). apply pool_of_rep in Hpo' as [R Hm].
  destruct (installed_ids_spec po _ R Hinj inst Hinst) as (iids' & E & Hiids). rewrite Hi in E. injection E as <-.
  assert (Hs : sem_mods po = default no_mods m) by (unfold sem_mods; by rewrite Hm). rewrite <-Hs in *.
  destruct (iter_rules po iids true fuel jobs) as [st|e] eqn:E; [|eauto]. exfalso.
  assert (Hp : p ∈ mjoin repos).
  { destruct Ha as (j & r & _ & _ & Hk). destruct (j_kind j); try tauto. destruct Hk as (l1 & l2 & -> & _).
    apply elem_of_app. right. left. }
  destruct (must_iter po _ R Hinj inst Hinst iids Hiids p Hp Hnd fuel jobs st Ha E) as [H1 H2].
  destruct Hmiss as [(d & Hd & Hq)|(d & Hd & Hq)]; [destruct (H1 d Hd) as (q & ? & ?)|destruct (H2 d Hd) as (q & ? & ?)]; by eapply Hq.
Qed.
(** "Nothing depends on" cannot be dropped: the number of requirements is only a proxy for "asked by a job".
    A package with a missing dependency is not reported if it was reached before as a dependency, so
    the order of the jobs decides. *)
Definition c21_a : package := Pkg "A" (V 1 0) [("B", [])] [] [] (Some "r").
Definition c21_b : package := Pkg "B" (V 1 0) [("X", [])] [] [] (Some "r").
Definition c21_get (n : string) : job := Job (Some (Req RInstall n [CAny])) JInstall.
Theorem C21_order_refuted : ∃ repos po, pool_of repos None = Ok po ∧ well_formed (mjoin repos) ∧
  asked_directly (mjoin repos) [] [c21_get "A"; c21_get "B"] c21_b ∧
  missing_requires (mjoin repos) [] no_mods [c21_get "A"; c21_get "B"] ∧
  ∀ fuel, (10 ≤ fuel)%nat →
    (∃ st, iter_rules po [] true fuel [c21_get "A"; c21_get "B"] = Ok st) ∧
    iter_rules po [] true fuel [c21_get "B"; c21_get "A"] = Raise MissingInstallRequires.
Proof.
  eexists [[c21_a; c21_b]], _. split; [vm_compute; reflexivity|]. split.
  { apply well_formed_check. vm_compute. reflexivity. }
  assert (Ha : asked_directly (mjoin [[c21_a; c21_b]]) [] [c21_get "A"; c21_get "B"] c21_b).
  { exists (c21_get "B"), (Req RInstall "B" [CAny]). split; [right; left|]. split; [done|]. cbn. split; [right; left|].
    split; [|by intros ?%elem_of_nil]. split; [by left|]. intros c ->%elem_of_list_singleton. done. }
  split; [exact Ha|]. split.
  { exists c21_b, ("X", []). split; [exact Ha|]. split; [left|]. intros q Hq [Hp _]. cbn in Hq.
    apply elem_of_cons in Hq as [-> |Hq%elem_of_list_singleton]; [|subst q];
      destruct Hp as [Hp|(d & Hd & _)]; try done; by apply elem_of_nil in Hd. }
  intros fuel Hf. do 10 (destruct fuel as [|fuel]; [lia|]). split; [eexists|]; vm_compute; reflexivity.
Qed.
(** ** Non-vacuity *)
Theorem C21_must_fail_example : ∃ po, pool_of [[c21_b]] None = Ok po ∧ well_formed [c21_b] ∧
  asked_directly [c21_b] [] [c21_get "B"] c21_b ∧ no_dependent [c21_b] no_mods c21_b ∧
  iter_rules po [] true 10 [c21_get "B"] = Raise MissingInstallRequires ∧
  ∃ st, iter_rules po [] false 10 [c21_get "B"] = Ok st.
Proof.
  eexists. split; [vm_compute; reflexivity|]. split; [apply well_formed_check; vm_compute; reflexivity|].
  split.
  { exists (c21_get "B"), (Req RInstall "B" [CAny]). split; [left|]. split; [done|]. cbn. split; [left|].
    split; [|by intros ?%elem_of_nil]. split; [by left|]. intros c ->%elem_of_list_singleton. done. }
  split.
  { intros q d ->%elem_of_list_singleton ->%elem_of_list_singleton [Hp _].
    destruct Hp as [Hp|(d & Hd & _)]; [done|by apply elem_of_nil in Hd]. }
  split; [|eexists]; vm_compute; reflexivity.
Qed.
Print Assumptions C21_blamed.
Print Assumptions C21_must_fail.
Print Assumptions C21_order_refuted.
Print Assumptions C21_must_fail_example.
