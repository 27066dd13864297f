(** * The rules describe exactly the valid installations. *)
From Verif Require Import PoolProofs PropPool PropConstraints SpecSat ConstraintProofs.
From Verif Require Export RulesSem.

(** The packages whose metadata matters for a request: the candidates of its jobs, everything that
    provides the name of an installed package, and what these depend on, as long as every dependency
    of the depending package can be met. *)
Definition hopeful (pkgs : list package) (m : modifiers) (p : package) : Prop :=
  ∀ d, d ∈ p_requires p → ∃ q, q ∈ pkgs ∧ dep_meets m d q.
Inductive needed (pkgs inst : list package) (m : modifiers) (jobs : list job) : package → Prop :=
  | nd_install j r p : j ∈ jobs → j_kind j = JInstall ∨ j_kind j = JSoftUpdate → j_req j = Some r →
      p ∈ pkgs → req_meets r p → needed pkgs inst m jobs p
  | nd_hard j r p : j ∈ jobs → j_kind j = JHardUpdate → j_req j = Some r →
      hard_choice pkgs inst r p → needed pkgs inst m jobs p
  | nd_installed i p : i ∈ inst → p ∈ pkgs → provides p (p_name i) → needed pkgs inst m jobs p
  | nd_depends p d q : needed pkgs inst m jobs p → hopeful pkgs m p →
      d ∈ p_requires p → q ∈ pkgs → dep_meets m d q → needed pkgs inst m jobs q.


(** For a finite list, every predicate is (not not) decidable. *)
Lemma decide_on {A} `{EqDecision A} (l : list A) (P : A → Prop) :
  ¬ ¬ ∃ k : list A, ∀ x, x ∈ l → x ∈ k ↔ P x.
Proof.
  induction l as [|a l IH].
  - intros H. apply H. exists []. by intros x ?%elem_of_nil.
  - intros H. apply IH. intros (k & Hk). assert (Hp : ¬ ¬ (P a ∨ ¬ P a)) by tauto. apply Hp. intros Ha. apply H.
    destruct Ha as [Ha|Ha].
    + exists (a :: k). intros x Hx. rewrite elem_of_cons. destruct (decide (x = a)) as [->|Hne]; [tauto|].
      rewrite <-Hk by (by apply elem_of_cons in Hx as [?|?]). tauto.
    + exists (filter (λ x, x ≠ a) k). intros x Hx. rewrite elem_of_list_filter. destruct (decide (x = a)) as [->|Hne]; [tauto|].
      rewrite <-Hk by (by apply elem_of_cons in Hx as [?|?]). tauto.
Qed.

Section main.
  Context (po : pool) (l : list package) (R : pool_rep po l) (Hinj : well_formed l).
  Context (inst : list package) (Hinst : ∀ p, p ∈ inst → p ∈ l).
  Context (iids : list (Z * package)) (Hiids : ∀ ip, ip ∈ iids ↔ ∃ p, p ∈ inst ∧ ip = (pid po p, p)).
  Context (strict : bool) (fuel : nat) (jobs : list job) (st : gst).
  Context (Hst : iter_rules po iids strict fuel jobs = Ok st).
  Local Notation pid := (pid po).
  Local Notation m := (sem_mods po).
  Local Notation chosen := (chosen po l).

  Let Hip : ∀ ip, ip ∈ iids → ip.2 ∈ l := iids_pkgs po l inst Hinst iids Hiids.
  Definition rule_lits : list (list Z) := ru_lits <$> g_rules st.
  Lemma rules_inv : (∀ j, j ∈ jobs → job_fine po j) ∧ ginv po l st [] (roots po l iids jobs) (job_clauses po iids jobs).
  Proof. by eapply iter_rules_spec. Qed.
  Lemma in_rules c : c ∈ rule_lits ↔ lits st c.
  Proof. unfold rule_lits, lits. rewrite elem_of_list_fmap. naive_solver. Qed.

  Lemma explored_fine p : explored po l st p → pkg_fine po p.
  Proof. apply (gi_fine _ _ _ _ _ _ (proj2 rules_inv)). Qed.
  Lemma pkg_in_rules p c : explored po l st p → pkg_clause po l p c → c ∈ rule_lits.
  Proof. intros Hp Hc. apply in_rules, (gi_lits _ _ _ _ _ _ (proj2 rules_inv)). right. eauto. Qed.
  Lemma job_in_rules j c : j ∈ jobs → job_clause po iids j c → c ∈ rule_lits.
  Proof. intros Hp Hc. apply in_rules, (gi_lits _ _ _ _ _ _ (proj2 rules_inv)). left. by exists j. Qed.

  (** Metadata of a package whose dependencies all have candidates. *)
  Lemma fine_met ds d : req_fine po ds → all_met po ds = true → d ∈ ds → plain_cdep d ∧ dcand po d ≠ [].
  Proof.
    induction ds as [|a ds IH]; intros Hf Ha Hd; [by apply elem_of_nil in Hd|]. cbn in Hf, Ha.
    destruct Hf as [Hpl Hf]. destruct (dcand po a) eqn:E; [done|].
    apply elem_of_cons in Hd as [->|Hd]; [by rewrite E|]. apply IH; auto.
  Qed.
  Lemma met_req_clause p ds d : all_met po ds = true → d ∈ ds → req_clause po p ds (dep_clause po p d).
  Proof.
    induction ds as [|a ds IH]; intros Ha Hd; [by apply elem_of_nil in Hd|]. cbn [all_met req_clause] in Ha |- *.
    destruct (dcand po a) eqn:E; [done|]. apply elem_of_cons in Hd as [->|Hd]; [by left|]. right. by apply IH.
  Qed.
  Lemma unmet_req_clause p ds : all_met po ds = false → req_clause po p ds (broken_clause po p).
  Proof.
    induction ds as [|a ds IH]; intros Ha; [done|]. cbn [all_met req_clause] in Ha |- *. destruct (dcand po a) eqn:E; [done|]. right. by apply IH.
  Qed.
  Lemma hopeful_met p : req_fine po (p_requires p) → hopeful l m p ↔ all_met po (p_requires p) = true.
  Proof.
    unfold hopeful. induction (p_requires p) as [|a ds IH]; cbn [req_fine all_met].
    - intros _. split; [done|]. by intros _ d ?%elem_of_nil.
    - intros [Hpl Hf]. destruct (dcand po a) as [|q cs] eqn:E.
      + split; [|done]. intros H. destruct (H a) as (q & Hq); [left|].
        apply (dcand_spec _ _ R _ _ Hpl) in Hq. rewrite E in Hq. by apply elem_of_nil in Hq.
      + rewrite <-IH by (by apply Hf). split.
        * intros H d Hd. apply H. by right.
        * intros H d [->|Hd]%elem_of_cons; [|auto]. exists q. apply (dcand_spec _ _ R _ _ Hpl). rewrite E. left.
  Qed.

  (** ** Exactly the needed packages are explored. *)
  Lemma root_needed p : p ∈ l → roots po l iids jobs p → needed l inst m jobs p.
  Proof.
    intros Hp [(j & Hj & Hr)|(Hl & i & Hi & Hn)%(inst_root_spec po l inst iids Hiids)]; [|by eapply nd_installed].
    unfold job_root in Hr. destruct (j_kind j) eqn:Ek, (j_req j) as [r|] eqn:Er; try done.
    - destruct Hr as [Hr _]. apply (jcand_spec _ _ R) in Hr as [_ Hr]. eapply nd_install; eauto.
    - destruct Hr as [Hr _]. apply (jcand_spec _ _ R) in Hr as [_ Hr]. eapply nd_install; eauto.
    - eapply nd_hard; [done..|]. by eapply best_spec.
  Qed.
  Lemma explored_needed p : explored po l st p ↔ needed l inst m jobs p.
  Proof.
    rewrite (ginv_done _ _ _ _ _ _ (proj2 rules_inv)). split.
    - intros Hr. assert (Hl : p ∈ l) by (by apply (ginv_done _ _ _ _ _ _ (proj2 rules_inv)) in Hr as [? _]).
      induction Hr as [p Hp|p q Hp IH Hq]; [by apply root_needed|].
      assert (He : explored po l st p) by (by apply (ginv_done _ _ _ _ _ _ (proj2 rules_inv))).
      destruct (explored_fine p He) as [Hf _]. unfold next in Hq.
      destruct (all_met po (p_requires p)) eqn:Em; [|by apply elem_of_nil in Hq].
      apply elem_of_list_join in Hq as (k & Hq & (d & -> & Hd)%elem_of_list_fmap).
      destruct (fine_met _ _ Hf Em Hd) as [Hpl _]. apply (dcand_spec _ _ R _ _ Hpl) in Hq as [_ Hq].
      eapply nd_depends; [apply IH; apply He|by apply hopeful_met|done..].
    - induction 1 as [j r p Hj Hk Hr Hp Hm|j r p Hj Hk Hr Hc|i p Hi Hp Hn|p d q _ IH Hh Hd Hq Hm].
      + destruct (decide (p ∈ inst)) as [Hpi|Hpi].
        * apply reach_root. right. apply (inst_root_spec po l inst iids Hiids). split; [done|]. exists p. split; [done|]. by left.
        * apply reach_root. left. exists j. split; [done|]. unfold job_root. rewrite Hr.
          assert (Hg : p ∈ wp po r false ∧ pid p ∉ iids.*1).
          { split; [by apply (jcand_spec _ _ R)|]. by rewrite (iids_ids po l R Hinj inst Hinst iids Hiids). }
          by destruct Hk as [-> | ->].
      + apply reach_root. left. exists j. split; [done|]. unfold job_root. rewrite Hr, Hk.
        by apply (best_spec po l R Hinj inst Hinst iids Hiids).
      + apply reach_root. right. apply (inst_root_spec po l inst iids Hiids). eauto.
      + eapply reach_next; [exact IH|].
        assert (He : explored po l st p) by (by apply (ginv_done _ _ _ _ _ _ (proj2 rules_inv))).
        destruct (explored_fine p He) as [Hf _]. apply hopeful_met in Hh; [|done].
        unfold next. rewrite Hh. apply elem_of_list_join. exists (dcand po d).
        split; [|apply elem_of_list_fmap; eauto]. apply (dcand_spec _ _ R); [|done]. by eapply fine_met.
  Qed.

  (** ** Every model gives a valid installation. *)
  Section model.
    Context (f : valuation) (Hf : model f rule_lits).

    Lemma model_requires p d : explored po l st p → chosen f p → d ∈ p_requires p →
      ∃ q, chosen f q ∧ explored po l st q ∧ q ≠ p ∧ dep_meets m d q.
    Proof.
      intros He Hc Hd. assert (Hp : p ∈ l) by apply He. destruct (explored_fine p He) as [Hfine _].
      destruct (all_met po (p_requires p)) eqn:Em.
      - destruct (fine_met _ _ Hfine Em Hd) as [Hpl _].
        assert (H := Hf _ (pkg_in_rules p _ He (or_introl (met_req_clause p _ d Em Hd)))).
        rewrite (dep_clause_true po l R Hinj) in H by done. destruct (H Hc) as (q & Hq & Hne & Hcq).
        exists q. split; [done|]. assert (Hq' := Hq). apply (dcand_spec _ _ R _ _ Hpl) in Hq' as [Hl Hm].
        split; [|done]. apply (ginv_done _ _ _ _ _ _ (proj2 rules_inv)). eapply reach_next.
        { by apply (ginv_done _ _ _ _ _ _ (proj2 rules_inv)) in He. }
        unfold next. rewrite Em. apply elem_of_list_join. exists (dcand po d). split; [done|].
        apply elem_of_list_fmap; eauto.
      - exfalso. assert (H := Hf _ (pkg_in_rules p _ He (or_introl (unmet_req_clause p _ Em)))).
        by rewrite (broken_clause_true po l R) in H by done.
    Qed.
    Lemma model_names p q : explored po l st p → chosen f p → chosen f q → p_name q = p_name p → q = p.
    Proof.
      intros He Hc Hq Hn. destruct (decide (q = p)) as [|Hne]; [done|]. exfalso.
      assert (H : conf_clause po l p (pair_clause po p q)).
      { exists q. split; [done|]. split; [done|]. left. split; [apply Hq|done]. }
      apply (or_intror (A := req_clause po p (p_requires p) (pair_clause po p q))) in H.
      apply (pkg_in_rules p) in H; [|done]. apply Hf in H. rewrite (pair_clause_true po l R) in H by (apply Hc || apply Hq). tauto.
    Qed.
    Lemma model_conflicts p d q : explored po l st p → chosen f p → d ∈ p_conflicts p → chosen f q → q ≠ p →
      ¬ conflict_meets d q.
    Proof.
      intros He Hc Hd Hq Hne Hm. destruct (explored_fine p He) as [_ Hfine].
      assert (H : conf_clause po l p (pair_clause po p q)).
      { exists q. split; [done|]. split; [done|]. right. exists d. split; [done|].
        apply (ccand_spec po l R d q (Hfine d Hd)). split; [apply Hq|done]. }
      apply (or_intror (A := req_clause po p (p_requires p) (pair_clause po p q))) in H.
      apply (pkg_in_rules p) in H; [|done]. apply Hf in H. rewrite (pair_clause_true po l R) in H by (apply Hc || apply Hq). tauto.
    Qed.
    Lemma model_job j : j ∈ jobs → job_ok l inst (λ p, chosen f p ∧ explored po l st p) j ∧ job_ok l inst (chosen f) j.
    Proof.
      intros Hj. assert (Hjf := proj1 rules_inv j Hj). assert (Hc := job_in_rules j). unfold job_clause in Hc.
      unfold job_fine in Hjf. unfold job_ok.
      assert (Hi : ∀ r, j_req j = Some r → j_kind j = JInstall ∨ j_kind j = JSoftUpdate →
        sort_Z (pid <$> wp po r false) ∈ rule_lits → ∃ q, (chosen f q ∧ explored po l st q) ∧ req_meets r q).
      { intros r Hr Hk H. apply Hf in H as (x & Hx & Ht). rewrite elem_of_sort_Z in Hx.
        apply elem_of_list_fmap in Hx as (q & -> & Hq). assert (Hw := Hq). apply (jcand_spec _ _ R) in Hw as [Hl Hm].
        exists q. split; [|done]. split; [by apply (lit_pos po l R)|].
        apply explored_needed. by eapply nd_install. }
      destruct (j_kind j) eqn:Ek, (j_req j) as [r|] eqn:Er; try done.
      - destruct (Hi r) as (q & [? ?] & ?); [done|by left|by apply Hc|]. split; eauto.
      - assert (G : ∀ q, chosen f q → ¬ req_meets r q); [|split; [|done]; intros q [? _]; auto].
        intros q Hq Hm. assert (Hw : q ∈ wp po r false) by (apply (jcand_spec _ _ R); split; [apply Hq|done]).
        assert (H : broken_clause po q ∈ rule_lits) by (apply Hc; eauto).
        apply Hf in H. rewrite (broken_clause_true po l R) in H by apply Hq. done.
      - destruct (Hi r) as (q & [? ?] & ?); [done|by right|by apply Hc|]. split; eauto.
      - assert (G : ∀ q, hard_choice l inst r q → chosen f q ∧ explored po l st q); [|split; intros q Hq; by apply G in Hq as [? ?]].
        intros q Hq. assert (Hb := Hq). apply (best_spec po l R Hinj inst Hinst iids Hiids) in Hb.
        assert (H : sort_Z [pid q] ∈ rule_lits) by (apply Hc; eauto).
        apply Hf in H as (x & Hx & Ht). rewrite elem_of_sort_Z in Hx. apply elem_of_list_singleton in Hx as ->.
        assert (Hl : q ∈ l). { apply best_elem in Hb. by eapply wp_sub. }
        split; [by apply (lit_pos po l R)|]. apply explored_needed. by eapply nd_hard.
    Qed.
    Lemma model_valid : valid l inst m jobs (λ p, chosen f p ∧ explored po l st p).
    Proof.
      split.
      - by intros p [[? _] _].
      - intros j Hj. by apply model_job.
      - intros p d [Hc He] Hd. destruct (model_requires p d He Hc Hd) as (q & ? & ? & ? & ?). eauto.
      - intros p q [Hc He] [Hcq Heq] Hn. by eapply model_names.
      - intros p d q [Hc He] Hd [Hcq Heq] Hne. by apply (model_conflicts p d q).
    Qed.
  End model.

  (** ** Every valid installation gives a model. *)
  Lemma valid_model (S : package → Prop) f : valid l inst m jobs S → (∀ p, p ∈ l → f (pid p) = true ↔ S p) →
    model f rule_lits.
  Proof.
    intros V Hf c Hc. assert (Hch : ∀ p, chosen f p ↔ S p).
    { intros p. unfold RulesSem.chosen. split; [intros [Hp ?]; by apply Hf|]. intros HS.
      assert (Hp := va_sub _ _ _ _ _ V p HS). split; [done|by apply Hf]. }
    apply in_rules, (gi_lits _ _ _ _ _ _ (proj2 rules_inv)) in Hc as [(j & Hj & Hc)|(p & He & [Hc|Hc])].
    - assert (Hok := va_jobs _ _ _ _ _ V j Hj). unfold job_ok in Hok. unfold job_clause in Hc.
      destruct (j_req j) as [r|]; [|by destruct (j_kind j)].
      assert (Hi : (∃ q, S q ∧ req_meets r q) → clause_true f (sort_Z (pid <$> wp po r false))).
      { intros (q & HS & Hm). assert (Hq := va_sub _ _ _ _ _ V q HS). exists (pid q). split.
        - apply elem_of_sort_Z, elem_of_list_fmap. exists q. split; [done|]. by apply (jcand_spec _ _ R).
        - apply (lit_pos po l R); [done|]. by apply Hch. }
      destruct (j_kind j); try done.
      + subst c. auto.
      + destruct Hc as (p & Hp & ->). apply (jcand_spec _ _ R) in Hp as [Hl Hm].
        apply (broken_clause_true po l R); [done|]. rewrite Hch. intros HS. by eapply Hok.
      + subst c. auto.
      + destruct Hc as (p & Hp & ->). assert (Hl : p ∈ l). { apply best_elem in Hp. by eapply wp_sub. }
        exists (pid p). split; [apply elem_of_sort_Z; left|]. apply (lit_pos po l R); [done|]. apply Hch, Hok.
        by apply (best_spec po l R Hinj inst Hinst iids Hiids).
    - assert (Hp : p ∈ l) by apply He. destruct (explored_fine p He) as [Hfine _].
      assert (Hcl : S p → ∀ d, d ∈ p_requires p → ∃ q, S q ∧ q ≠ p ∧ dep_meets m d q).
      { intros HS d Hd. by eapply (va_closed _ _ _ _ _ V). }
      revert Hc Hfine Hcl. generalize (p_requires p) as ds. induction ds as [|d ds IH]; [done|].
      cbn [req_clause req_fine]. intros Hc [Hpl Hfine] Hcl. destruct (dcand po d) as [|q0 cs] eqn:E.
      + subst c. apply (broken_clause_true po l R); [done|]. rewrite Hch. intros HS.
        destruct (Hcl HS d) as (q & HSq & _ & Hm); [left|].
        assert (Hq : q ∈ dcand po d) by (apply (dcand_spec _ _ R _ _ Hpl); split; [by apply (va_sub _ _ _ _ _ V)|done]).
        rewrite E in Hq. by apply elem_of_nil in Hq.
      + destruct Hc as [->|Hc].
        * apply (dep_clause_true po l R Hinj); [done|]. rewrite Hch. intros HS.
          destruct (Hcl HS d) as (q & HSq & Hne & Hm); [left|]. exists q.
          split; [apply (dcand_spec _ _ R _ _ Hpl); split; [by apply (va_sub _ _ _ _ _ V)|done]|]. by rewrite Hch.
        * apply IH; [done|by apply Hfine|]. intros HS d' Hd'. apply Hcl; [done|by right].
    - assert (Hp : p ∈ l) by apply He. destruct (explored_fine p He) as [_ Hfine].
      destruct Hc as (q & Hne & -> & Hc).
      assert (Hq : q ∈ l). { destruct Hc as [[? _]|(d & _ & ?)]; [done|by eapply ccand_sub]. }
      apply (pair_clause_true po l R); [done..|]. rewrite !Hch. intros [HSp HSq].
      destruct Hc as [[_ Hn]|(d & Hd & Hc)].
      + apply Hne. by apply (va_names _ _ _ _ _ V).
      + apply (ccand_spec po l R d q (Hfine d Hd)) in Hc as [_ Hc]. by apply (va_conflicts _ _ _ _ _ V p d q).
  Qed.

  (** A list of packages as a valuation. *)
  Definition val_of (k : list package) : valuation := λ v, bool_decide (v ∈ pid <$> k).
  Lemma val_of_spec k p : (∀ q, q ∈ k → q ∈ l) → p ∈ l → val_of k (pid p) = true ↔ p ∈ k.
  Proof.
    intros Hk Hp. unfold val_of. rewrite bool_decide_eq_true, elem_of_list_fmap. split; [|eauto].
    intros (q & He & Hq). by rewrite (pid_inj po l R Hinj p q) by auto.
  Qed.
  Theorem valid_not_unsat S : valid l inst m jobs S → ¬ ¬ satisfiable rule_lits.
  Proof.
    intros V H. apply (decide_on l S). intros (k & Hk). apply H.
    exists (val_of (filter (λ p, p ∈ l) k)). eapply valid_model; [exact V|].
    intros p Hp. rewrite val_of_spec; [|by intros q [? _]%elem_of_list_filter|done].
    rewrite elem_of_list_filter. rewrite <-(Hk p Hp). tauto.
  Qed.
End main.
