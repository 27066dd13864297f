(** * Properties C19, C20, C21, C24: rule generation. *)
From Verif Require Import PoolProofs PropPool PropConstraints SpecSat ConstraintProofs RulesMain.

(** RulesGenerator(pool, request, installed_package_ids, strict).iter_rules() for the pool of [repos]
    (with modifiers [m]) in which the packages [inst] are installed. *)
Definition generates (repos : list (list package)) (m : option modifiers) (inst : list package)
    (strict : bool) (fuel : nat) (jobs : list job) (po : pool) (st : gst) : Prop :=
  pool_of repos m = Ok po ∧ (∀ p, p ∈ inst → p ∈ mjoin repos) ∧
  ∃ iids, installed_ids po inst = Ok iids ∧ iter_rules po iids strict fuel jobs = Ok st.
Definition rules_of (st : gst) : list (list Z) := ru_lits <$> g_rules st.
(** The package is selected by a valuation of the ids. *)
Definition selected (po : pool) (f : valuation) (p : package) : Prop :=
  ∃ i, package_id po p = Ok i ∧ f i = true.
(** Rules were generated for the package. *)
Definition has_rules (po : pool) (st : gst) (p : package) : Prop :=
  ∃ i, package_id po p = Ok i ∧ i ∈ g_added st.

Section use.
  Context repos m inst strict fuel jobs po st (H : generates repos m inst strict fuel jobs po st)
    (Hinj : well_formed (mjoin repos)).
  Lemma gen_open : ∃ iids, pool_rep po (mjoin repos) ∧ sem_mods po = default no_mods m ∧
    (∀ p, p ∈ inst → p ∈ mjoin repos) ∧ (∀ ip, ip ∈ iids ↔ ∃ p, p ∈ inst ∧ ip = (pid po p, p)) ∧
    iter_rules po iids strict fuel jobs = Ok st.
  Proof.
    destruct H as ([R Hm]%pool_of_rep & Hi & iids & Hii & Hit). exists iids. split; [done|].
    split; [unfold sem_mods; by rewrite Hm|]. split; [done|]. split; [|done].
    destruct (installed_ids_spec po _ R Hinj inst Hi) as (iids' & E & Hs). rewrite E in Hii. by injection Hii as <-.
  Qed.
  Lemma selected_chosen f p : p ∈ mjoin repos → selected po f p ↔ chosen po (mjoin repos) f p.
  Proof.
    intros Hp. destruct gen_open as (iids & R & _). unfold selected, chosen. rewrite (pid_ok _ _ R p Hp). naive_solver.
  Qed.
  Lemma selected_in f p : selected po f p → ∃ q, q ∈ mjoin repos ∧ pkg_key q = pkg_key p.
  Proof.
    intros (i & Hi & _). destruct gen_open as (iids & R & _). apply (rep_package_id _ _ R) in Hi as (k & q & _ & Hl & Hk & _).
    exists q. split; [by eapply elem_of_list_lookup_2|done].
  Qed.
  Lemma has_rules_explored p : p ∈ mjoin repos → has_rules po st p ↔ explored po (mjoin repos) st p.
  Proof.
    intros Hp. destruct gen_open as (iids & R & _). unfold has_rules, explored. rewrite (pid_ok _ _ R p Hp). naive_solver.
  Qed.
End use.

(** ** C20 *)
(** Generation stops: some recursion bound suffices for every request on this pool. *)
Theorem C20_terminates : ∀ repos m po inst iids strict, pool_of repos m = Ok po →
  well_formed (mjoin repos) → (∀ p, p ∈ inst → p ∈ mjoin repos) → installed_ids po inst = Ok iids →
  ∃ n, ∀ fuel jobs, (n ≤ fuel)%nat → iter_rules po iids strict fuel jobs ≠ Raise OutOfFuel.
Proof.
  intros repos m po inst iids strict [R _]%pool_of_rep Hinj Hinst Hii. exists (bound po (mjoin repos)).
  intros fuel jobs Hf. apply (iter_rules_terminates po (mjoin repos) R Hinj); [|done].
  destruct (installed_ids_spec po _ R Hinj inst Hinst) as (iids' & E & Hs). rewrite E in Hii. injection Hii as ->.
  intros ip (p & Hp & ->)%Hs. by apply Hinst.
Qed.
(** Without strict mode it succeeds when the metadata can be interpreted, the jobs have candidates
    and no versioned conflict is to be relaxed. *)
Definition interpretable (m : modifiers) (p : package) : Prop :=
  (∀ d, d ∈ p_requires p → (length d.2 ≤ 1)%nat) ∧
  (∀ d, d ∈ p_conflicts p → (length d.2 ≤ 1)%nat ∧ (d.2 = [] ∨ d.1 ∉ targets m)).
Definition has_candidate (pkgs : list package) (j : job) : Prop :=
  j_kind j ≠ JUpgrade ∧ ∃ r, j_req j = Some r ∧ ∃ p, p ∈ pkgs ∧ req_meets r p.
Lemma modify_untouched r m : r_name r ∉ targets m → modify_install r m = (r, false).
Proof.
  unfold targets. intros Hn. unfold modify_install. rewrite !decide_False by set_solver. done.
Qed.
Lemma interpretable_fine po l m p : pool_rep po l → sem_mods po = m → (po_mods po = None → m = no_mods) →
  interpretable m p → pkg_fine po p.
Proof.
  intros R Hm _ [H1 H2]. split.
  - induction (p_requires p) as [|d ds IH]; cbn; [done|]. split; [apply H1; left|]. intros _. apply IH.
    intros d' Hd'. apply H1. by right.
  - intros d Hd. destruct (H2 d Hd) as [Hl Hn]. destruct (from_constraints_total RConflict d Hl) as [r Hr].
    exists r. destruct (from_constraints_spec _ _ _ Hr) as (_ & Hc & Hrn).
    assert (Hmod : pool_modify po r = Ok r).
    { unfold pool_modify. destruct (po_mods po) as [mm|] eqn:Em; [|done]. unfold sem_mods in Hm. rewrite Em in Hm. cbn in Hm. subst mm.
      unfold modify_requirement. rewrite Hc. destruct (has_any_version_constraint r) eqn:Eh; [|done].
      destruct Hn as [Hn|Hn].
      - destruct d as [n dd]. cbn in Hn. subst dd. cbn in Hr. injection Hr as <-. done.
      - rewrite modify_untouched by (by rewrite Hrn). done. }
    assert (Hw : ∃ ps, what_provides po r true = Ok ps).
    { rewrite (rep_what_provides _ _ R), Hmod. destruct (by_name _ _); cbn; eauto. }
    destruct Hw as [ps Hw]. exists ps. done.
Qed.
Theorem C20_succeeds : ∀ repos m po inst iids, pool_of repos m = Ok po →
  well_formed (mjoin repos) → (∀ p, p ∈ inst → p ∈ mjoin repos) → installed_ids po inst = Ok iids →
  (∀ p, p ∈ mjoin repos → interpretable (default no_mods m) p) →
  ∃ n, ∀ fuel jobs, (n ≤ fuel)%nat → (∀ j, j ∈ jobs → has_candidate (mjoin repos) j) →
    ∃ st, iter_rules po iids false fuel jobs = Ok st.
Proof.
  intros repos m po inst iids [R Hm]%pool_of_rep Hinj Hinst Hii Hok. exists (bound po (mjoin repos)).
  intros fuel jobs Hf Hj. apply (iter_rules_total po (mjoin repos) R Hinj); [done| | | |done].
  - intros p Hp. eapply interpretable_fine; [exact R|reflexivity| |].
    + unfold sem_mods. by intros ->.
    + unfold sem_mods. rewrite Hm. auto.
  - destruct (installed_ids_spec po _ R Hinj inst Hinst) as (iids' & E & Hs). rewrite E in Hii. injection Hii as ->.
    intros ip (p & Hp & ->)%Hs. by apply Hinst.
  - intros j Hx. destruct (Hj j Hx) as (Hk & r & Hr & p & Hp & Hmt). unfold job_fine. rewrite Hr.
    assert (wp po r false ≠ []).
    { intros E. assert (Hw : p ∈ wp po r false) by (by apply (jcand_spec _ _ R)). rewrite E in Hw. by apply elem_of_nil in Hw. }
    by destruct (j_kind j).
Qed.
(** Rules are generated for exactly the needed packages. *)
Theorem C20_explored : ∀ repos m inst strict fuel jobs po st,
  generates repos m inst strict fuel jobs po st → well_formed (mjoin repos) →
  (∀ i, i ∈ g_added st → ∃ p, p ∈ mjoin repos ∧ package_id po p = Ok i) ∧
  ∀ p, p ∈ mjoin repos → has_rules po st p ↔ needed (mjoin repos) inst (default no_mods m) jobs p.
Proof.
  intros repos m inst strict fuel jobs po st H Hinj.
  destruct (gen_open _ _ _ _ _ _ _ _ H Hinj) as (iids & R & Hm & Hinst & Hii & Hit).
  assert (I := rules_inv po _ R Hinj inst Hinst iids Hii strict fuel jobs st Hit). split.
  - intros i (p & Hp & ->)%(gi_ids _ _ _ _ _ _ (proj2 I)). exists p. split; [done|]. by apply (pid_ok _ _ R).
  - intros p Hp. rewrite (has_rules_explored _ _ _ _ _ _ _ _ H Hinj) by done. rewrite <-Hm.
    by apply (explored_needed po _ R Hinj inst Hinst iids Hii strict fuel jobs st Hit).
Qed.

(** ** C19 *)
Theorem C19_consistent : ∀ repos m inst strict fuel jobs po st f,
  generates repos m inst strict fuel jobs po st → well_formed (mjoin repos) → model f (rules_of st) →
  (∀ p, p ∈ mjoin repos → has_rules po st p → selected po f p →
     (∀ d, d ∈ p_requires p → ∃ q, q ∈ mjoin repos ∧ selected po f q ∧ has_rules po st q ∧ q ≠ p ∧
                                   dep_meets (default no_mods m) d q) ∧
     (∀ q, q ∈ mjoin repos → selected po f q → p_name q = p_name p → q = p) ∧
     (∀ d q, d ∈ p_conflicts p → q ∈ mjoin repos → selected po f q → q ≠ p → ¬ conflict_meets d q)) ∧
  (∀ j, j ∈ jobs → job_ok (mjoin repos) inst (λ p, p ∈ mjoin repos ∧ selected po f p) j) ∧
  valid (mjoin repos) inst (default no_mods m) jobs
        (λ p, p ∈ mjoin repos ∧ selected po f p ∧ has_rules po st p).
Proof.
  intros repos m inst strict fuel jobs po st f H Hinj Hf.
  destruct (gen_open _ _ _ _ _ _ _ _ H Hinj) as (iids & R & Hm & Hinst & Hii & Hit). rewrite <-Hm.
  assert (Hs := selected_chosen _ _ _ _ _ _ _ _ H Hinj). assert (He := has_rules_explored _ _ _ _ _ _ _ _ H Hinj).
  split; [|split].
  - intros p Hp Hr%He Hc%Hs; [|done..]. split; [|split].
    + intros d Hd. destruct (model_requires po _ R Hinj inst Hinst iids Hii strict fuel jobs st Hit f Hf p d Hr Hc Hd)
        as (q & Hq & Hqe & Hne & Hmt). assert (Hql : q ∈ mjoin repos) by apply Hq.
      exists q. split; [done|]. split; [by apply Hs|]. split; [by apply He|]. done.
    + intros q Hq Hsq%Hs Hn; [|done]. by eapply (model_names po _ R Hinj inst Hinst iids Hii strict fuel jobs st Hit f Hf).
    + intros d q Hd Hq Hsq%Hs Hne; [|done].
      by eapply (model_conflicts po _ R Hinj inst Hinst iids Hii strict fuel jobs st Hit f Hf p d q).
  - intros j Hj. destruct (model_job po _ R Hinj inst Hinst iids Hii strict fuel jobs st Hit f Hf j Hj) as [_ Hok].
    unfold job_ok in *. destruct (j_req j) as [r|]; [|done]. destruct (j_kind j); try done.
    + destruct Hok as (q & Hq & ?). exists q. split; [|done]. split; [apply Hq|]. apply Hs; [apply Hq|done].
    + intros q [Hq Hsq%Hs]; [|done]. auto.
    + destruct Hok as (q & Hq & ?). exists q. split; [|done]. split; [apply Hq|]. apply Hs; [apply Hq|done].
    + intros q Hq%Hok. split; [apply Hq|]. apply Hs; [apply Hq|done].
  - assert (V := model_valid po _ R Hinj inst Hinst iids Hii strict fuel jobs st Hit f Hf).
    assert (Heq : ∀ p, (p ∈ mjoin repos ∧ selected po f p ∧ has_rules po st p) ↔
              chosen po (mjoin repos) f p ∧ explored po (mjoin repos) st p).
    { intros p. split.
      - intros (Hp & Hsp & Hr). split; [by apply Hs|by apply He].
      - intros [Hsp Hr]. assert (Hp : p ∈ mjoin repos) by apply Hr. split; [done|]. split; [by apply Hs|by apply He]. }
    destruct V as [V1 V2 V3 V4 V5]. split.
    + by intros p [? _].
    + intros j Hj. specialize (V2 j Hj). unfold job_ok in *. destruct (j_req j) as [r|]; [|done].
      destruct (j_kind j); try done; [..|]; setoid_rewrite Heq; done.
    + intros p d Hp%Heq Hd. destruct (V3 p d Hp Hd) as (q & Hq%Heq & ?). eauto.
    + intros p q Hp%Heq Hq%Heq. by apply V4.
    + intros p d q Hp%Heq Hd Hq%Heq. by apply V5.
Qed.
(** Conversely a valid installation satisfies the rules: if they are unsatisfiable, there is none. *)
Theorem C15_rules : ∀ repos m inst strict fuel jobs po st,
  generates repos m inst strict fuel jobs po st → well_formed (mjoin repos) → ¬ satisfiable (rules_of st) →
  ¬ ∃ S, valid (mjoin repos) inst (default no_mods m) jobs S.
Proof.
  intros repos m inst strict fuel jobs po st H Hinj Hu (S & V).
  destruct (gen_open _ _ _ _ _ _ _ _ H Hinj) as (iids & R & Hm & Hinst & Hii & Hit). rewrite <-Hm in V.
  by apply (valid_not_unsat po _ R Hinj inst Hinst iids Hii strict fuel jobs st Hit S V).
Qed.

(** ** C24 *)
Theorem C24_fewer_jobs : ∀ repos m inst strict strict' fuel fuel' jobs jobs' po st st',
  generates repos m inst strict fuel jobs po st → generates repos m inst strict' fuel' jobs' po st' →
  well_formed (mjoin repos) → (∀ j, j ∈ jobs' → j ∈ jobs) →
  (∀ c, c ∈ rules_of st' → c ∈ rules_of st) ∧ (satisfiable (rules_of st) → satisfiable (rules_of st')).
Proof.
  intros repos m inst strict strict' fuel fuel' jobs jobs' po st st' H H' Hinj Hsub.
  assert (G : ∀ c, c ∈ rules_of st' → c ∈ rules_of st).
  { destruct H as ([R _]%pool_of_rep & Hinst & iids & Hii & Hit).
    destruct H' as (_ & _ & iids' & Hii' & Hit'). rewrite Hii in Hii'. injection Hii' as <-.
    destruct (installed_ids_spec po _ R Hinj inst Hinst) as (iids' & E & Hs). rewrite E in Hii. injection Hii as ->.
    intros c. unfold rules_of.
    assert (A := in_rules st). assert (B := in_rules st').
    unfold rule_lits in A, B. rewrite A, B.
    destruct (rules_inv po _ R Hinj inst Hinst iids Hs strict fuel jobs st Hit) as [_ I].
    destruct (rules_inv po _ R Hinj inst Hinst iids Hs strict' fuel' jobs' st' Hit') as [_ I'].
    rewrite (gi_lits _ _ _ _ _ _ I), (gi_lits _ _ _ _ _ _ I'). intros [(j & Hj & Hc)|(p & Hp & Hc)].
    - left. exists j. auto.
    - right. exists p. split; [|done]. apply (ginv_done _ _ _ _ _ _ I). apply (ginv_done _ _ _ _ _ _ I') in Hp.
      eapply reach_mono; [|exact Hp]. intros q [(j & Hj & Hq)|?]; [left; eauto|by right]. }
  split; [done|]. intros (f & Hf). exists f. intros c Hc. auto.
Qed.
Theorem C24_no_jobs : ∀ repos m inst strict fuel po st,
  generates repos m inst strict fuel [] po st → well_formed (mjoin repos) → satisfiable (rules_of st).
Proof.
  intros repos m inst strict fuel po st H Hinj.
  destruct (gen_open _ _ _ _ _ _ _ _ H Hinj) as (iids & R & Hm & Hinst & Hii & Hit).
  exists (λ _, false). eapply (valid_model po _ R Hinj inst Hinst iids Hii strict fuel [] st Hit (λ _, False)); [|done].
  split; [done|by intros j ?%elem_of_nil| | |].
  - by intros p d [].
  - by intros p q [].
  - by intros p d q [].
Qed.

(** ** C21 *)
(** What rule generation may raise in strict mode besides the errors for missing packages:
    InvalidConstraint for alternatives in the metadata, NotImplementedError for modifiers on a versioned
    conflict and for jobs without requirement. *)
Definition documented (e : exn) : Prop :=
  e = MissingInstallRequires ∨ e = MissingConflicts ∨ e = NoPackageFound ∨ e = InvalidConstraint ∨
  e = NotImplementedError.
Definition only {A} (P : exn → Prop) (r : res A) : Prop := match r with Ok _ => True | Raise e => P e end.
Lemma only_bind {A B} P (r : res A) (f : A → res B) :
  only P r → (∀ a, r = Ok a → only P (f a)) → only P (r ≫= f).
Proof. destruct r; cbn; auto. Qed.
Lemma only_foldM {A B} P (f : B → A → res B) xs b : (∀ x b, x ∈ xs → only P (f b x)) → only P (foldM f xs b).
Proof.
  revert b. induction xs as [|x xs IH]; intros b H; cbn [foldM]; [done|].
  apply only_bind; [apply H; left|]. intros b' _. apply IH. intros y c Hy. apply H. by right.
Qed.
Section strict.
  Context (po : pool) (l : list package) (R : pool_rep po l) (Hinj : well_formed l).
  Local Notation doc := (λ e, documented e ∨ e = OutOfFuel).
  Lemma only_from_constraints cls d : only doc (from_constraints cls d).
  Proof. destruct d as [n dd]. unfold from_constraints. destruct (1 <? length dd)%nat; cbn; [|done]. unfold documented. auto 10. Qed.
  Lemma only_what_provides r b : only doc (what_provides po r b).
  Proof.
    unfold what_provides. destruct (po_byname po !! r_name r); [|done]. apply only_bind; [|done].
    destruct b; [|done]. unfold pool_modify. destruct (po_mods po) as [m|]; [|done].
    unfold modify_requirement, documented. repeat case_match; cbn; auto 10.
  Qed.
  Lemma only_strict s e rs : documented e → only doc (strict_check s e (Some rs)).
  Proof. intros He. unfold strict_check. repeat case_match; cbn; auto. Qed.
  Lemma only_requires s p rs : p ∈ l → ∀ ds acc st, (∀ w, w ∈ acc → ∃ rs', w.2 = Some rs') →
    only doc (requires_rules po s p (Some rs) ds acc st) ∧
    ∀ st' more, requires_rules po s p (Some rs) ds acc st = Ok (st', more) → ∀ w, w ∈ more → ∃ rs', w.2 = Some rs'.
  Proof.
    intros Hp. induction ds as [|d ds IH]; intros acc st Hacc; cbn [requires_rules].
    { split; [done|]. by intros ? ? [= <- <-]. }
    assert (Ho := only_from_constraints RInstall d).
    destruct (from_constraints RInstall d) as [r|e] eqn:Er; cbn [mbind res_bind]; [|split; [done|done]].
    assert (Hw := only_what_provides r true). destruct (what_provides po r true) as [[|q qs]|e] eqn:Ew; cbn [mbind res_bind]; [..|split; [done|done]].
    - split.
      + apply only_bind; [apply only_strict; unfold documented; auto|]. intros _ _.
        unfold remove_rule. rewrite (pid_ok _ _ R p Hp). done.
      + intros st' more (_ & _ & H)%mbind_ok. apply mbind_ok in H as (? & _ & H). injection H as _ <-. by intros w ?%elem_of_nil.
    - unfold dependency_rule. rewrite (pid_ok _ _ R p Hp). cbn [mbind res_bind]. rewrite (pids_ok _ _ R).
      2:{ intros x [_ Hx]%elem_of_list_filter. by apply (rep_what_provides_elem _ _ R _ _ _ _ Ew) in Hx as [? _]. }
      cbn [mbind res_bind]. apply IH. intros w [?|(y & -> & _)%elem_of_list_fmap]%elem_of_app; [auto|]. cbn. eauto.
  Qed.
  Lemma only_conflicts s p rs st : p ∈ l → only doc (conflicts_rules po s p (Some rs) st).
  Proof.
    intros Hp. unfold conflicts_rules, same_name_rules. destruct (same_name_cand po l R p Hp) as (ps & Hps & Hsp).
    rewrite (name_req _ Hinj _ p Hp). cbn [mbind res_bind]. rewrite Hps. cbn [mbind res_bind].
    edestruct (add_conflicts_spec po l R Hinj p package_same_name) as (st1 & E1 & _); [done| |rewrite E1].
    { intros q [_ Hq]%elem_of_list_filter. by apply Hsp. }
    cbn [mbind res_bind]. apply only_foldM. intros d s1 _. apply only_bind; [apply only_from_constraints|]. intros r _.
    apply only_bind; [apply only_what_provides|]. intros cs Hcs. apply only_bind.
    { destruct cs; [apply only_strict; unfold documented; auto|done]. }
    intros _ _. edestruct (add_conflicts_spec po l R Hinj p package_conflicts) as (st2 & E2 & _); [done| |by rewrite E2].
    intros q Hq. by apply (rep_what_provides_elem _ _ R _ _ _ _ Hcs) in Hq as [? _].
  Qed.
  Lemma only_loop s : ∀ fuel queue st, (∀ w, w ∈ queue → w.1 ∈ l ∧ ∃ rs, w.2 = Some rs) →
    only doc (package_rules_loop po s fuel queue st).
  Proof.
    induction fuel as [|fuel IH]; intros queue st Hq; (destruct queue as [|[p reqs] queue]; cbn [package_rules_loop]; [done|]).
    { by right. }
    destruct (Hq (p, reqs)) as [Hp [rs Hrs]]; [left|]. cbn in Hp, Hrs. subst reqs.
    assert (Hq' : ∀ w, w ∈ queue → w.1 ∈ l ∧ ∃ rs, w.2 = Some rs) by (intros w Hw; apply Hq; by right).
    rewrite (pid_ok _ _ R p Hp). cbn [mbind res_bind]. case_decide; [by apply IH|].
    destruct (only_requires s p rs Hp (p_requires p) [] (Gst (g_rules st) ({[pid po p]} ∪ g_added st))) as [O1 O2].
    { by intros w ?%elem_of_nil. }
    apply only_bind; [exact O1|]. intros [st1 more] H1. apply only_bind; [by apply only_conflicts|]. intros st2 _.
    apply IH. intros w [Hw|Hw]%elem_of_app; [by apply Hq'|]. split; [|by eapply O2].
    apply (requires_rules_spec _ _ R) in H1 as (_ & _ & _ & M1); [|done].
    assert (Hm : w.1 ∈ more.*1) by (apply elem_of_list_fmap; eauto). rewrite M1 in Hm.
    apply (next_sub po l R p). unfold next. destruct (all_met _ _); [|by apply elem_of_nil in Hm]. done.
  Qed.
  Lemma only_package_rules s fuel p r st : p ∈ l → only doc (package_rules po s fuel p (Some r) st).
  Proof. intros Hp. apply only_loop. intros w ->%elem_of_list_singleton. cbn. eauto. Qed.
  Lemma only_job iids s fuel j st : only doc (job_rules po iids s fuel j st).
  Proof.
    assert (Hsub : ∀ r p, p ∈ wp po r false → p ∈ l) by (intros r p; by eapply wp_sub).
    assert (Hi : ∀ r, only doc (install_job_rules po iids s fuel r st)).
    { intros r. unfold install_job_rules. rewrite (jcand_ok _ _ R). cbn [mbind res_bind].
      specialize (Hsub r). destruct (wp po r false) as [|p0 ps0] eqn:E; [cbn; unfold documented; auto 10|]. rewrite <-E in *. clear E.
      apply only_bind; [apply only_foldM|intros st1 _].
      - intros p s0 Hp. rewrite (pid_ok _ _ R) by auto. cbn [mbind res_bind]. case_decide; [done|]. apply only_package_rules; auto.
      - unfold one_of_rule. by rewrite (pids_ok _ _ R) by done. }
    unfold job_rules. destruct (j_kind j), (j_req j) as [r|]; auto; try (cbn; unfold documented; auto 10; done).
    - unfold remove_job_rules. rewrite (jcand_ok _ _ R). cbn [mbind res_bind]. apply only_foldM. intros p s0 Hp.
      unfold remove_rule. by rewrite (pid_ok _ _ R) by eauto.
    - unfold update_job_rules. rewrite (jcand_ok _ _ R). cbn [mbind res_bind]. specialize (Hsub r).
      destruct (wp po r false) as [|p0 ps0] eqn:E; [done|].
      assert (Hb := max_first_elem (update_lt po iids) p0 ps0). apply Hsub in Hb.
      apply only_bind; [by apply only_package_rules|]. intros st1 _. by rewrite (pid_ok _ _ R) by done.
  Qed.
End strict.
(** With nothing installed only these errors can occur (and generation stops, C20). *)
Theorem C21_nothing_installed : ∀ repos m po strict, pool_of repos m = Ok po → well_formed (mjoin repos) →
  ∃ n, ∀ fuel jobs, (n ≤ fuel)%nat →
    (∃ st, iter_rules po [] strict fuel jobs = Ok st) ∨
    (∃ e, iter_rules po [] strict fuel jobs = Raise e ∧ documented e).
Proof.
  intros repos m po strict Hpo Hinj. assert (Hpo' := Hpo). apply pool_of_rep in Hpo' as [R _].
  destruct (C20_terminates repos m po [] [] strict Hpo Hinj) as [n Hn]; [by intros p ?%elem_of_nil|done|].
  exists n. intros fuel jobs Hf. specialize (Hn fuel jobs Hf).
  assert (Ho : only (λ e, documented e ∨ e = OutOfFuel) (iter_rules po [] strict fuel jobs)).
  { unfold iter_rules. apply only_bind; [|done]. apply only_foldM. intros j s _. by apply only_job with (l := mjoin repos). }
  destruct (iter_rules po [] strict fuel jobs) as [st|e]; [eauto|]. right. exists e. split; [done|].
  destruct Ho as [?| ->]; done.
Qed.
Definition readable_b (p : package) : bool := bool_decide ((rev (of_s (p_name p)), []) ∈ r_dist ([], of_s (p_name p))).
Lemma well_formed_check l : bool_decide (NoDup (pkg_key <$> l)) && forallb readable_b l = true → well_formed l.
Proof.
  intros [Hn%bool_decide_eq_true Hr]%andb_true_iff. split.
  2:{ intros p Hp. apply elem_of_list_In in Hp. rewrite forallb_forall in Hr. by apply ReqProofs.dist_by, Hr. }
  intros p q Hp Hq Hk. apply elem_of_list_lookup in Hp as [i Hi]. apply elem_of_list_lookup in Hq as [j Hj].
  assert (i = j) as ->; [|congruence]. eapply NoDup_lookup; [exact Hn|rewrite list_lookup_fmap, Hi; done|].
  rewrite list_lookup_fmap, Hj. cbn. congruence.
Qed.
(** But an installed package with a missing dependency makes strict mode fail with TypeError. *)
Definition c21_installed : package := Pkg "A" (V 1 0) [("B", [])] [] [] None.
Theorem C21_refuted : ∃ repos po inst iids, pool_of repos None = Ok po ∧ well_formed (mjoin repos) ∧
  (∀ p, p ∈ inst → p ∈ mjoin repos) ∧ installed_ids po inst = Ok iids ∧
  ∀ fuel, (10 ≤ fuel)%nat → iter_rules po iids true fuel [] = Raise TypeError.
Proof.
  eexists [[c21_installed]], _, [c21_installed], _. split; [vm_compute; reflexivity|]. split.
  { apply well_formed_check. vm_compute. reflexivity. }
  split; [done|]. split; [vm_compute; reflexivity|].
  intros fuel Hf. do 10 (destruct fuel as [|fuel]; [lia|]). vm_compute. reflexivity.
Qed.

(** ** Non-vacuity *)
Definition ex_repo : list package :=
  [Pkg "A" (V 1 0) [("X", [])] [] [] (Some "r"); Pkg "A" (V 2 0) [("X", [[[CGt (V 1 0)]]])] [("Y", [])] [] (Some "r");
   Pkg "X" (V 1 0) [] [] [] (Some "r"); Pkg "X" (V 2 0) [] [] [] (Some "r"); Pkg "Y" (V 1 0) [("Z", [])] [] [] (Some "r");
   Pkg "U" (V 1 0) [] [] [] (Some "r")].
Definition ex_inst : list package := [Pkg "X" (V 1 0) [] [] [] (Some "i")].
Definition ex_jobs : list job := [Job (Some (Req RInstall "A" [CAny])) JInstall].
Lemma generates_run repos m inst strict fuel jobs L :
  forallb (λ p, bool_decide (p ∈ mjoin repos)) inst = true →
  match (po ← pool_of repos m; iids ← installed_ids po inst; iter_rules po iids strict fuel jobs) with
  | Ok st => Some (rules_of st) | Raise _ => None end = Some L →
  ∃ po st, generates repos m inst strict fuel jobs po st ∧ rules_of st = L.
Proof.
  intros Hi H. destruct (pool_of repos m) as [po|] eqn:E1; cbn [mbind res_bind] in H; [|done].
  destruct (installed_ids po inst) as [iids|] eqn:E2; cbn [mbind res_bind] in H; [|done].
  destruct (iter_rules po iids strict fuel jobs) as [st|] eqn:E3; [|done]. injection H as <-.
  exists po, st. split; [|done]. split; [done|]. split; [|eauto].
  intros p Hp. rewrite forallb_forall in Hi. apply elem_of_list_In, Hi in Hp. by apply bool_decide_eq_true in Hp.
Qed.
Example ex_generates : ∃ po st, generates [ex_repo; ex_inst] None ex_inst false 100 ex_jobs po st ∧
  rules_of st = [[-1; 3; 4; 7]; [-2; -1]; [-4; -3]; [-7; -3]; [-7; -4]; [-2; 4]; [-5; -2]; [1; 2]].
Proof. apply generates_run; vm_compute; reflexivity. Qed.
Example ex_keys : well_formed (mjoin [ex_repo; ex_inst]).
Proof. apply well_formed_check. vm_compute. reflexivity. Qed.
Example ex_model : model (λ v, bool_decide (v = 2 ∨ v = 4))
  [[-1; 3; 4; 7]; [-2; -1]; [-4; -3]; [-7; -3]; [-7; -4]; [-2; 4]; [-5; -2]; [1; 2]].
Proof.
  intros c Hc. repeat (apply elem_of_cons in Hc as [->|Hc]; [
    solve [eexists; split; [left|]; vm_compute; reflexivity | eexists; split; [right; left|]; vm_compute; reflexivity
          | eexists; split; [right; right; left|]; vm_compute; reflexivity]|]). by apply elem_of_nil in Hc.
Qed.
Example ex_unsat : ∃ po st, generates [ex_repo; ex_inst] None ex_inst false 100
    (ex_jobs ++ [Job (Some (Req RInstall "A" [CAny])) JRemove]) po st ∧ ¬ satisfiable (rules_of st).
Proof.
  edestruct (generates_run [ex_repo; ex_inst] None ex_inst false 100
    (ex_jobs ++ [Job (Some (Req RInstall "A" [CAny])) JRemove])) as (po & st & H & E); [vm_compute; reflexivity..|].
  exists po, st. split; [exact H|]. rewrite E. intros (f & Hf).
  destruct (Hf [1; 2]) as (x & Hx & Ht); [vm_compute; by do 7 right; left|].
  destruct (Hf [-1]) as (y & ->%elem_of_list_singleton & Hy); [by do 8 right; left|].
  destruct (Hf [-2]) as (z & ->%elem_of_list_singleton & Hz); [by do 9 right; left|].
  unfold lit_true in *. rewrite decide_False in Hy, Hz by done. change (- (-1)) with 1 in Hy. change (- (-2)) with 2 in Hz.
  apply elem_of_cons in Hx as [->| ->%elem_of_list_singleton]; rewrite decide_True in Ht by done; congruence.
Qed.

Print Assumptions C20_terminates.
Print Assumptions C20_succeeds.
Print Assumptions C20_explored.
Print Assumptions C19_consistent.
Print Assumptions C15_rules.
Print Assumptions C24_fewer_jobs.
Print Assumptions C24_no_jobs.
Print Assumptions C21_nothing_installed.
Print Assumptions C21_refuted.
