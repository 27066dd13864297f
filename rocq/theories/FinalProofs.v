(** * From the solution of the rules to the state after the transaction. *)
From Verif Require Import PoolProofs PropPool PropConstraints SpecSat ConstraintProofs PropRules SatLearn.
From Verif Require Export SolveProofs PruneProofs TransProofs.

(** What is used of the assignment [a] and of [sol], the list of ids made of it: [a] satisfies the rules and gives each of their
    variables a value; [sol] has the ids of the packages with value True and the negated ids of those with value False.  A run of the
    solver gives it ([run_solved]); so does any other solver (see PropExternal.v). *)
Record solved (po : pool) (l : list package) (st : gst) (a : aset) (sol : list Z) : Prop := {
  so_model : model (asg a) (rule_lits st);
  so_var : ∀ v, is_var (rule_lits st) v → is_Some (aset_value a v);
  so_ids : ∀ i, i ∈ sol ↔ ∃ p, p ∈ l ∧ ((i = pid po p ∧ val po a p = Some true) ∨ (i = - pid po p ∧ val po a p = Some false)) }.
Lemma run_solved (e : env) (He : env_ok e) (po : pool) (l : list package) (R : pool_rep po l) (Hinj : well_formed l)
  (inst : list package) (Hinst : ∀ p, p ∈ inst → p ∈ l)
  (strict : bool) (fuel : nat) (jobs : list job) (ids : list Z) (rules : list rule) (uenv : uc_env) (ust : uc_state)
  (iids : list (Z * package)) (st : gst) (PB : problem e po l inst strict fuel jobs ids rules uenv ust iids st) (n : nat) (a : aset) :
  solve_clauses (logged_policy (uc_policy uenv)) n (ust, [], []) (rule_clauses rules) = Ok (Normal a) →
  solved po l st a (solution_to_ids a).
Proof. intros Hrun. split; [eapply sol_model|eapply sol_var|eapply sol_ids]; eauto. Qed.
Global Hint Resolve run_solved : core.

Section final.
  Context (e : env) (He : env_ok e).
  Context (po : pool) (l : list package) (R : pool_rep po l) (Hinj : well_formed l).
  Context (inst : list package) (Hinst : ∀ p, p ∈ inst → p ∈ l).
  Context (strict : bool) (fuel : nat) (jobs : list job) (ids : list Z) (rules : list rule) (uenv : uc_env) (ust : uc_state).
  Context (iids : list (Z * package)) (st : gst).
  Context (PB : problem e po l inst strict fuel jobs ids rules uenv ust iids st).
  Context (a : aset) (sol : list Z) (SO : solved po l st a sol).
  Local Notation run n := (solve_clauses (logged_policy (uc_policy uenv)) n (ust, [], []) (rule_clauses rules) = Ok (Normal a)).
  Local Notation pid := (pid po).
  Local Notation m := (sem_mods po).
  Local Notation val := (val po a).
  Local Notation about p := (∃ j, j ∈ jobs ∧ job_about l inst j p).
  Local Notation explored := (explored po l st).
  Local Notation rules_ := (rule_lits st).
  Definition inst_set : gset Z := list_to_set (pid <$> inst).
  Definition ilist : list Z := e_ord e 3 inst_set.
  Lemma inst_set_pid p : p ∈ l → pid p ∈ inst_set ↔ p ∈ inst.
  Proof.
    intros Hp. unfold inst_set. rewrite elem_of_list_to_set, elem_of_list_fmap. split; [|eauto].
    intros (q & E & Hq). apply (pid_inj po l R Hinj) in E as ->; [done|done|by apply Hinst].
  Qed.
  Lemma ilist_pid p : p ∈ l → pid p ∈ ilist ↔ p ∈ inst.
  Proof. intros Hp. unfold ilist. rewrite (e_ord_elem e He). by apply inst_set_pid. Qed.
  Lemma ilist_ok i : i ∈ ilist → ∃ p, p ∈ l ∧ i = pid p.
  Proof.
    unfold ilist. rewrite (e_ord_elem e He). unfold inst_set. rewrite elem_of_list_to_set, elem_of_list_fmap.
    intros (p & -> & Hp). eauto.
  Qed.
  Lemma installed_iff p : installed po l ilist p ↔ p ∈ inst.
  Proof. unfold installed. split; [intros [Hp H]; by apply ilist_pid|]. intros Hp. split; [by apply Hinst|]. by apply ilist_pid; [apply Hinst|]. Qed.

  (** ** Decisions *)
  Record decided (dec : list Z) : Prop := {
    dc_lits : ∀ x, x ∈ dec → ∃ p, p ∈ l ∧ (x = pid p ∨ x = - pid p);
    dc_pos : ∀ p, p ∈ l → pid p ∈ dec → val p = Some true;
    dc_neg : ∀ p, p ∈ l → - pid p ∈ dec → val p = Some false;
    dc_roots : ∀ p, p ∈ l → p ∈ inst ∨ about p →
      (val p = Some true → pid p ∈ dec) ∧ (val p = Some false → - pid p ∈ dec) }.
  Local Notation sids := (so_ids _ _ _ _ _ SO).
  Lemma sol_pos p : p ∈ l → pid p ∈ sol ↔ val p = Some true.
  Proof.
    intros Hp. rewrite sids. pose proof (pid_pos po l R p Hp). split.
    - intros (q & Hq & [[E ?]|[E ?]]); pose proof (pid_pos po l R q Hq); [|lia].
      by apply (pid_inj po l R Hinj) in E as ->.
    - intros E. exists p. eauto.
  Qed.
  Lemma sol_neg p : p ∈ l → - pid p ∈ sol ↔ val p = Some false.
  Proof.
    intros Hp. rewrite sids. pose proof (pid_pos po l R p Hp). split.
    - intros (q & Hq & [[E ?]|[E ?]]); pose proof (pid_pos po l R q Hq); [lia|].
      assert (E' : pid p = pid q) by lia. by apply (pid_inj po l R Hinj) in E' as ->.
    - intros E. exists p. eauto.
  Qed.
  Lemma sol_lit i : i ∈ sol → ∃ p, p ∈ l ∧ (i = pid p ∨ i = - pid p).
  Proof. rewrite sids. intros (p & Hp & [[? _]|[? _]]); eauto. Qed.
  Lemma decided_all : decided sol.
  Proof.
    split; [apply sol_lit|intros p Hp; by apply sol_pos|intros p Hp; by apply sol_neg|].
    intros p Hp _. split; [by apply sol_pos|by apply sol_neg].
  Qed.
  Let roots : gset Z := inst_set ∪ list_to_set ids.
  Lemma roots_spec i : i ∈ roots ↔ ∃ p, p ∈ l ∧ i = pid p ∧ (p ∈ inst ∨ about p).
  Proof.
    unfold roots. rewrite elem_of_union, elem_of_list_to_set, (pb_ids _ _ _ _ _ _ _ _ _ _ _ _ _ PB). split.
    - intros [Hi|(p & j & -> & Hj & Hp)].
      + unfold inst_set in Hi. rewrite elem_of_list_to_set, elem_of_list_fmap in Hi. destruct Hi as (p & -> & Hp). exists p. auto.
      + exists p. split; [by eapply job_about_in|]. eauto.
    - intros (p & Hp & -> & [Hi|(j & Hj & Hb)]); [left; by apply inst_set_pid|right; eauto].
  Qed.
  Lemma roots_pid p : p ∈ l → pid p ∈ roots ↔ p ∈ inst ∨ about p.
  Proof.
    intros Hp. rewrite roots_spec. split; [|eauto]. intros (q & Hq & E & H). by apply (pid_inj po l R Hinj) in E as ->.
  Qed.
  Lemma roots_ok i : i ∈ roots → ∃ p, p ∈ l ∧ i = pid p.
  Proof. rewrite roots_spec. intros (p & ? & ? & _). eauto. Qed.
  Lemma decided_pruned X : connected_packages e po fuel sol roots = Ok X → decided (e_ord e 2 X).
  Proof.
    intros H. destruct (connected_spec e He po l R Hinj sol sol_lit roots roots_ok fuel X H) as (n2i & N & _ & _ & H1 & _ & _ & HX).
    assert (Hpos : ∀ i, pulled po l n2i N i → ∃ p, p ∈ l ∧ i = pid p ∧ val p = Some true).
    { intros i Hi. assert (∃ n, n2i !! n = Some i) as [n' Hn'] by (destruct Hi; eauto).
      destruct (H1 _ _ Hn') as (p & Hp & -> & Hin & _). exists p. split; [done|]. split; [done|]. by apply sol_pos. }
    split.
    - intros x. rewrite (e_ord_elem e He), HX. intros [Hx|[Hx _]]; [|by apply sol_lit].
      destruct (Hpos x Hx) as (p & ? & ? & _). eauto.
    - intros p Hp. rewrite (e_ord_elem e He), HX. intros [Hx|[Hx _]]; [|by apply sol_pos].
      destruct (Hpos _ Hx) as (q & Hq & E & ?). by apply (pid_inj po l R Hinj) in E as ->.
    - intros p Hp. rewrite (e_ord_elem e He), HX. intros [Hx|[Hx _]]; [|by apply sol_neg].
      destruct (Hpos _ Hx) as (q & Hq & E & ?). pose proof (pid_pos po l R p Hp). pose proof (pid_pos po l R q Hq). lia.
    - intros p Hp Hr. rewrite !(e_ord_elem e He), !HX. apply roots_pid in Hr; [|done]. pose proof (pid_pos po l R p Hp). split; intros Hv.
      + right. split; [by apply sol_pos|]. by rewrite Z.abs_eq by lia.
      + right. split; [by apply sol_neg|]. by rewrite Z.abs_opp, Z.abs_eq by lia.
  Qed.

  (** ** Variables *)
  Lemma sol_is_var p : p ∈ l → is_var rules_ (pid p) → is_Some (val p).
  Proof. intros _ H. by apply (so_var _ _ _ _ _ SO). Qed.
  Local Notation rspec := (rules_inv po l R Hinj inst Hinst iids (pb_iids _ _ _ _ _ _ _ _ _ _ _ _ _ PB) strict fuel jobs st (pb_st _ _ _ _ _ _ _ _ _ _ _ _ _ PB)).
  Local Notation jin := (job_in_rules po l R Hinj inst Hinst iids (pb_iids _ _ _ _ _ _ _ _ _ _ _ _ _ PB) strict fuel jobs st (pb_st _ _ _ _ _ _ _ _ _ _ _ _ _ PB)).
  Lemma about_var p : about p → is_var rules_ (pid p).
  Proof.
    intros (j & Hj & r & Hr & Hp). assert (Hc := jin j). unfold job_clause in Hc. rewrite Hr in Hc.
    destruct (j_kind j) eqn:Ek; try done.
    - destruct Hp as [Hp Hm]. eexists _, (pid p). split; [by apply Hc|]. rewrite elem_of_sort_Z. split; [|pose proof (pid_pos po l R p Hp); lia].
      apply elem_of_list_fmap. exists p. split; [done|]. by apply (jcand_spec _ _ R).
    - destruct Hp as [Hp Hm]. eexists _, (- pid p). split; [apply Hc; [done|]; exists p; split; [by apply (jcand_spec _ _ R)|done]|].
      rewrite elem_of_sort_Z. split; [left|pose proof (pid_pos po l R p Hp); lia].
    - destruct Hp as [Hp Hm]. eexists _, (pid p). split; [by apply Hc|]. rewrite elem_of_sort_Z. split; [|pose proof (pid_pos po l R p Hp); lia].
      apply elem_of_list_fmap. exists p. split; [done|]. by apply (jcand_spec _ _ R).
    - assert (Hpl : p ∈ l) by (destruct Hp as (l1 & l2 & -> & _); apply elem_of_app; right; left).
      apply (best_spec po l R Hinj inst Hinst iids (pb_iids _ _ _ _ _ _ _ _ _ _ _ _ _ PB)) in Hp.
      eexists _, (pid p). split; [apply Hc; [done|]; by exists p|]. rewrite elem_of_sort_Z. split; [left|pose proof (pid_pos po l R p Hpl); lia].
  Qed.
  Local Notation rl := (pkg_in_rules po l R Hinj inst Hinst iids (pb_iids _ _ _ _ _ _ _ _ _ _ _ _ _ PB) strict fuel jobs st (pb_st _ _ _ _ _ _ _ _ _ _ _ _ _ PB)).
  Lemma requires_var p d : explored p → d ∈ p_requires p → is_var rules_ (pid p).
  Proof.
    intros Hx Hd. assert (Hp : p ∈ l) by apply Hx. pose proof (pid_pos po l R p Hp).
    destruct (all_met po (p_requires p)) eqn:Em.
    - eexists _, (- pid p). split; [exact (rl p _ Hx (or_introl (met_req_clause po p _ d Em Hd)))|].
      unfold dep_clause. rewrite elem_of_sort_Z. split; [left|lia].
    - eexists _, (- pid p). split; [exact (rl p _ Hx (or_introl (unmet_req_clause po p _ Em)))|].
      unfold broken_clause. rewrite elem_of_sort_Z. split; [left|lia].
  Qed.
  Lemma dep_var f p d q : model f rules_ → explored p → chosen po l f p → d ∈ p_requires p → q ∈ l → q ≠ p → dep_meets m d q →
    is_var rules_ (pid q).
  Proof.
    intros Hf Hx Hc Hd Hq Hne Hm. assert (Hp : p ∈ l) by apply Hx. pose proof (pid_pos po l R q Hq).
    destruct (explored_fine po l R Hinj inst Hinst iids (pb_iids _ _ _ _ _ _ _ _ _ _ _ _ _ PB) strict fuel jobs st (pb_st _ _ _ _ _ _ _ _ _ _ _ _ _ PB) p Hx) as [Hfine _].
    destruct (all_met po (p_requires p)) eqn:Em.
    - destruct (fine_met po _ _ Hfine Em Hd) as [Hpl _].
      eexists _, (pid q). split; [exact (rl p _ Hx (or_introl (met_req_clause po p _ d Em Hd)))|].
      unfold dep_clause. rewrite elem_of_sort_Z. split; [|lia]. right. apply elem_of_list_fmap. exists q. split; [done|].
      apply elem_of_list_filter. split; [|by apply (dcand_spec _ _ R _ _ Hpl)]. apply pkg_eq_false. intros E. by apply Hne, Hinj.
    - exfalso. assert (H' := Hf _ (rl p _ Hx (or_introl (unmet_req_clause po p _ Em)))).
      by rewrite (broken_clause_true po l R) in H' by done.
  Qed.
  (** Installed packages are explored. *)
  Lemma explored_iff p : explored p ↔ needed l inst m jobs p.
  Proof. exact (explored_needed po l R Hinj inst Hinst iids (pb_iids _ _ _ _ _ _ _ _ _ _ _ _ _ PB) strict fuel jobs st (pb_st _ _ _ _ _ _ _ _ _ _ _ _ _ PB) p). Qed.
  Lemma inst_explored p : p ∈ inst → explored p.
  Proof. intros Hp. apply explored_iff. eapply nd_installed; [done|by apply Hinst|by left]. Qed.

  (** ** The valuation with the installed packages no rule is about. *)
  Definition gg : valuation := λ v, asg a v || bool_decide (v ∈ pid <$> filter (λ p, val p = None) inst).
  Lemma gg_true p : p ∈ l → chosen po l gg p ↔ val p = Some true ∨ (val p = None ∧ p ∈ inst).
  Proof.
    intros Hp. unfold chosen, gg. rewrite orb_true_iff, bool_decide_eq_true. unfold asg. rewrite bool_decide_eq_true.
    rewrite elem_of_list_fmap. unfold SolveProofs.val. split.
    - intros [_ [?|(q & E & [Hq Hqi]%elem_of_list_filter)]]; [by left|right].
      apply (pid_inj po l R Hinj) in E as ->; [done|done|by apply Hinst].
    - intros [?|[? ?]]; (split; [done|]); [by left|right]. exists p. split; [done|]. by apply elem_of_list_filter.
  Qed.
  Lemma gg_model : model gg rules_.
  Proof.
    intros c Hc. destruct (so_model _ _ _ _ _ SO c Hc) as (x & Hx & Ht).
    exists x. split; [done|].
    assert (Hv : is_Some (aset_value a (Z.abs x))).
    { apply (so_var _ _ _ _ _ SO). exists c, x. done. }
    assert (G : gg (Z.abs x) = asg a (Z.abs x)).
    { unfold gg. destruct (asg a (Z.abs x)) eqn:E; [done|]. cbn [orb]. apply bool_decide_eq_false. intros (q & E' & [Hq _]%elem_of_list_filter)%elem_of_list_fmap.
      unfold SolveProofs.val in Hq. rewrite E', Hq in Hv. by destruct Hv. }
    unfold lit_true in *. destruct (decide (0 < x)).
    - by rewrite Z.abs_eq in G by lia; rewrite G.
    - by rewrite Z.abs_neq in G by lia; rewrite G.
  Qed.
  Local Notation mv f Hf := (model_valid po l R Hinj inst Hinst iids (pb_iids _ _ _ _ _ _ _ _ _ _ _ _ _ PB) strict fuel jobs st (pb_st _ _ _ _ _ _ _ _ _ _ _ _ _ PB) f Hf).
  Local Notation mnames f Hf := (model_names po l R Hinj inst Hinst iids (pb_iids _ _ _ _ _ _ _ _ _ _ _ _ _ PB) strict fuel jobs st (pb_st _ _ _ _ _ _ _ _ _ _ _ _ _ PB) f Hf).
  Local Notation mconf f Hf := (model_conflicts po l R Hinj inst Hinst iids (pb_iids _ _ _ _ _ _ _ _ _ _ _ _ _ PB) strict fuel jobs st (pb_st _ _ _ _ _ _ _ _ _ _ _ _ _ PB) f Hf).
  Local Notation mreq f Hf := (model_requires po l R Hinj inst Hinst iids (pb_iids _ _ _ _ _ _ _ _ _ _ _ _ _ PB) strict fuel jobs st (pb_st _ _ _ _ _ _ _ _ _ _ _ _ _ PB) f Hf).
  Local Notation mjob f Hf := (model_job po l R Hinj inst Hinst iids (pb_iids _ _ _ _ _ _ _ _ _ _ _ _ _ PB) strict fuel jobs st (pb_st _ _ _ _ _ _ _ _ _ _ _ _ _ PB) f Hf).
  Definition E (p : package) : Prop := chosen po l gg p ∧ explored p.
  Lemma E_valid : valid l inst m jobs E.
  Proof. exact (mv gg gg_model). Qed.

  (** ** The operations *)
  Context (dec : list Z) (D : decided dec) (ops : list operation) (rem ins : list package).
  Context (OK : ops_ok po l dec ilist ops rem ins).
  Lemma rem_iff p : RemoveOp p ∈ ops ↔ p ∈ rem.
  Proof.
    rewrite (ok_ops _ _ _ _ _ _ _ OK), elem_of_app, !elem_of_list_fmap. split; [|eauto].
    intros [(y & [= ->] & ?)|(y & [=] & _)]. done.
  Qed.
  Lemma ins_iff p : InstallOp p ∈ ops ↔ p ∈ ins.
  Proof.
    rewrite (ok_ops _ _ _ _ _ _ _ OK), elem_of_app, !elem_of_list_fmap. split; [|eauto].
    intros [(y & [=] & _)|(y & [= ->] & ?)]. done.
  Qed.
  Lemma removed_val p : RemoveOp p ∈ ops → p ∈ inst ∧ val p = Some false.
  Proof.
    rewrite rem_iff, (ok_rem _ _ _ _ _ _ _ OK). intros (Hi & [Hp Hd] & _). split; [by apply installed_iff|]. by apply (dc_neg _ D).
  Qed.
  Lemma install_val p : InstallOp p ∈ ops → p ∈ l ∧ p ∉ inst ∧ val p = Some true.
  Proof.
    rewrite ins_iff, (ok_ins _ _ _ _ _ _ _ OK). intros ([Hp Hd] & Hi & _). split; [done|]. split; [by rewrite <-installed_iff|]. by apply (dc_pos _ D).
  Qed.
  Lemma stand_exists q : q ∈ l → (∃ p, p ∈ inst ∧ twin p q) → ∃ p, p ∈ inst ∧ stands_for po l ilist p q.
  Proof.
    intros Hq (p0 & Hp0 & Ht). destruct (local_spec po l R Hinj ilist ilist_ok) as (loc & Eloc & Hl).
    specialize (Hl q). destruct (local_get loc (key_of q)) as [i|].
    - destruct Hl as (p & Hp & -> & Hs). exists p. split; [|done]. destruct Hs as (_ & i1 & i2 & E & _). apply ilist_pid; [done|].
      rewrite E. apply elem_of_app. right. left.
    - exfalso. apply (Hl p0); [by apply Hinst| |done]. apply ilist_pid; [by apply Hinst|done].
  Qed.
  Lemma bool_split (x : Z) (k1 k2 k3 k4 : list Z) : k1 ++ x :: k2 = k3 ++ x :: k4 → x ∉ k2 → x ∉ k4 → k2 = k4.
  Proof.
    intros H H2 H4. apply app_eq_inv in H as [(k & -> & H)|(k & -> & H)]; destruct k as [|y k].
    - by injection H.
    - cbn in H. injection H as -> ->. destruct H4. apply elem_of_app. right. left.
    - by injection H.
    - cbn in H. injection H as -> ->. destruct H2. apply elem_of_app. right. left.
  Qed.
  Lemma stand_unique p p' q : p ∈ l → p' ∈ l → stands_for po l ilist p q → stands_for po l ilist p' q → p = p'.
  Proof.
    intros Hp Hp' (Ht & i1 & i2 & E1 & H1) (Ht' & i1' & i2' & E2 & H2).
    rewrite E1 in E2. apply app_eq_inv in E2 as [(k & -> & H)|(k & -> & H)]; destruct k as [|y k].
    - injection H as E _. by apply (pid_inj po l R Hinj).
    - cbn in H. injection H as <- E. exfalso. apply (H2 p Hp); [|done]. rewrite E. apply elem_of_app. right. left.
    - injection H as E _. symmetry. by apply (pid_inj po l R Hinj).
    - cbn in H. injection H as <- E. exfalso. apply (H1 p' Hp'); [|done]. rewrite E. apply elem_of_app. right. left.
  Qed.
  Lemma stand_inst p q : p ∈ l → stands_for po l ilist p q → p ∈ inst ∧ twin p q.
  Proof.
    intros Hp (Ht & i1 & i2 & E & _). split; [|done]. apply ilist_pid; [done|]. rewrite E. apply elem_of_app. right. left.
  Qed.
  Lemma twin_dec p q : {twin p q} + {¬ twin p q}.
  Proof. unfold twin. destruct (decide (p_name p = p_name q)), (decide (p_version p = p_version q)); [left|right|right|right]; tauto. Qed.
  Lemma inst_twin_dec q : {∃ p, p ∈ inst ∧ twin p q} + {¬ ∃ p, p ∈ inst ∧ twin p q}.
  Proof.
    clear. induction inst as [|p k IH].
    - right. by intros (p & []%elem_of_nil & _).
    - destruct (twin_dec p q) as [H|H]; [left; exists p; split; [left|done]|]. destruct IH as [IH|IH].
      + left. destruct IH as (p' & ? & ?). exists p'. split; [by right|done].
      + right. intros (p' & [->|Hp']%elem_of_cons & ?); [done|]. eauto.
  Qed.
  Lemma fresh_iff q : fresh po l ilist q ↔ ¬ ∃ p, p ∈ inst ∧ twin p q.
  Proof.
    unfold fresh. split.
    - intros H (p & Hp & Ht). apply (H p); [by apply Hinst| |done]. apply ilist_pid; [by apply Hinst|done].
    - intros H p Hp Hi Ht. apply H. exists p. split; [|done]. by apply ilist_pid.
  Qed.
  (** How [q], decided for, is present. *)
  Definition tau (q q' : package) : Prop :=
    (q' = q ∧ (q ∈ inst ∨ ¬ ∃ p, p ∈ inst ∧ twin p q)) ∨ (q ∉ inst ∧ q' ∈ inst ∧ stands_for po l ilist q' q).
  Lemma tau_total q : q ∈ l → ∃ q', tau q q'.
  Proof.
    intros Hq. destruct (decide (q ∈ inst)) as [Hi|Hi]; [exists q; left; auto|].
    destruct (inst_twin_dec q) as [Ht|Ht]; [|exists q; left; auto].
    destruct (stand_exists q Hq Ht) as (p & Hp & Hs). exists p. by right.
  Qed.
  Lemma tau_fun q q1 q2 : tau q q1 → tau q q2 → q1 = q2.
  Proof.
    intros [[-> H1]|(H1 & Hi1 & S1)] [[-> H2]|(H2 & Hi2 & S2)]; [done|..].
    - destruct H1 as [?|H1]; [done|]. destruct H1. exists q2. split; [done|]. apply S2.
    - destruct H2 as [?|H2]; [done|]. destruct H2. exists q1. split; [done|]. apply S1.
    - eapply stand_unique; [by apply Hinst|by apply Hinst|done|done].
  Qed.
  Lemma tau_twin q q' : tau q q' → twin q' q.
  Proof. intros [[-> _]|(_ & _ & [? _])]; [done|done]. Qed.
  Lemma decided_after q q' : q ∈ l → pid q ∈ dec → tau q q' → after inst ops q'.
  Proof.
    intros Hq Hd [[-> H]|(Hn & Hi & Hs)].
    - assert (Hv := dc_pos _ D q Hq Hd). destruct (decide (q ∈ inst)) as [Hi|Hi].
      + left. split; [done|]. intros [_ Hv']%removed_val. congruence.
      + destruct H as [?|H]; [done|]. right. apply ins_iff, (ok_ins _ _ _ _ _ _ _ OK). split; [done|]. split; [by rewrite installed_iff|].
        by apply fresh_iff.
    - left. split; [done|]. intros (_ & _ & Hno)%rem_iff%(ok_rem _ _ _ _ _ _ _ OK). apply Hno. exists q. split; [done|].
      split; [by rewrite installed_iff|done].
  Qed.
  Lemma decided_present q : q ∈ l → pid q ∈ dec → present inst ops q.
  Proof.
    intros Hq Hd. destruct (tau_total q Hq) as (q' & Ht). exists q'. split; [|by eapply decided_after].
    destruct Ht as [[-> _]|(_ & ? & [? _])]; [by left|right]. done.
  Qed.
  Lemma inst_after p : p ∈ inst → val p ≠ Some false → after inst ops p.
  Proof. intros Hp Hv. left. split; [done|]. by intros [_ ?]%removed_val. Qed.
  Lemma about_present q : about q → val q = Some true → present inst ops q.
  Proof.
    intros Hab Hv. assert (Hq : q ∈ l) by (destruct Hab as (j & _ & ?); by eapply job_about_in).
    apply decided_present; [done|]. by apply (dc_roots _ D); [done|right|].
  Qed.

  (** ** C13 *)
  Lemma keeps_order n (Hrun : run n) S p : valid l inst m jobs S →
    (∀ q, q ∈ inst → ¬ soft jobs q → ¬ vlt (p_version p) (p_version q) → after inst ops q → S q) →
    p ∈ inst → ¬ soft jobs p → S p → RemoveOp p ∉ ops.
  Proof.
    intros V HS Hp Hs HSp Hr. destruct (removed_val p Hr) as [_ Hv]. apply (decide_on l S). intros (k & Hk).
    assert (Hg : ∀ q, q ∈ l → val_of po (filter (λ p, p ∈ l) k) (pid q) = true ↔ S q).
    { intros q Hq. rewrite (val_of_spec po l R Hinj); [|by intros x [? _]%elem_of_list_filter|done].
      rewrite elem_of_list_filter. rewrite <-(Hk q Hq). tauto. }
    assert (Hf : val_of po (filter (λ p, p ∈ l) k) (pid p) = false).
    { eapply (sol_prefers_order e He po l R Hinj inst Hinst strict fuel jobs ids rules uenv ust iids st PB n a Hrun p); [done|done| | |done].
      - eapply valid_model; eauto using pb_iids, pb_st.
      - intros q Hq Hqs Hle Hv'. apply Hg; [by apply Hinst|]. apply HS; [done|done|done|]. apply inst_after; [done|congruence]. }
    apply Hg in HSp; [|by apply Hinst]. congruence.
  Qed.
  Lemma keeps n (Hrun : run n) S p : valid l inst m jobs S → (∀ q, q ∈ inst → ¬ soft jobs q → after inst ops q → S q) →
    p ∈ inst → ¬ soft jobs p → S p → RemoveOp p ∉ ops.
  Proof. intros V HS. apply (keeps_order n Hrun); auto. Qed.
  (** ** C14 *)
  Lemma newest n (Hrun : run n) S p : valid l inst m jobs S → about p → S p →
    (∀ q, q ∈ inst → ¬ soft jobs q → after inst ops q → S q) →
    (∀ q, about q → ¬ vlt (p_version q) (p_version p) → present inst ops q → S q) → present inst ops p.
  Proof.
    intros V Hab HSp HI HC. assert (Hp : p ∈ l) by (destruct Hab as (j & _ & ?); by eapply job_about_in).
    destruct (sol_is_var p Hp (about_var p Hab)) as [[] Hv]; [by apply about_present|]. exfalso.
    apply (decide_on l S). intros (k & Hk).
    assert (Hg : ∀ q, q ∈ l → val_of po (filter (λ p, p ∈ l) k) (pid q) = true ↔ S q).
    { intros q Hq. rewrite (val_of_spec po l R Hinj); [|by intros x [? _]%elem_of_list_filter|done].
      rewrite elem_of_list_filter. rewrite <-(Hk q Hq). tauto. }
    assert (Hf : val_of po (filter (λ p, p ∈ l) k) (pid p) = false).
    { eapply (sol_newest e He po l R Hinj inst Hinst strict fuel jobs ids rules uenv ust iids st PB n a Hrun p); [done| | | |done].
      - eapply valid_model; eauto using pb_iids, pb_st.
      - intros q Hq Hqs Hv'. apply Hg; [by apply Hinst|]. apply HI; [done|done|]. apply inst_after; [done|congruence].
      - intros j q Hj Hq Hnl Hv'. apply Hg; [by eapply job_about_in|]. apply HC; [eauto|done|]. apply about_present; [eauto|done]. }
    apply Hg in HSp; [|done]. congruence.
  Qed.
  (** ** C45 and the jobs *)
  Lemma job_install j r : j ∈ jobs → j_kind j = JInstall ∨ j_kind j = JSoftUpdate → j_req j = Some r →
    ∃ q, q ∈ l ∧ req_meets r q ∧ present inst ops q.
  Proof.
    intros Hj Hk Hr. destruct (mjob gg gg_model j Hj) as [Hok _]. unfold job_ok in Hok. rewrite Hr in Hok.
    assert (Hq : ∃ q, E q ∧ req_meets r q) by (destruct Hk as [Hk|Hk]; rewrite Hk in Hok; exact Hok).
    destruct Hq as (q & [Hc _] & Hm). assert (Hq : q ∈ l) by apply Hc. exists q. split; [done|]. split; [done|].
    assert (Hab : about q) by (exists j; split; [done|]; exists r; split; [done|]; destruct Hk as [-> | ->]; done).
    apply about_present; [done|]. apply gg_true in Hc as [?|[Hn _]]; [done| |done].
    destruct (sol_is_var q Hq (about_var q Hab)). congruence.
  Qed.
  Lemma job_hard j r q : j ∈ jobs → j_kind j = JHardUpdate → j_req j = Some r → hard_choice l inst r q → present inst ops q.
  Proof.
    intros Hj Hk Hr Hq. destruct (mjob gg gg_model j Hj) as [Hok _]. unfold job_ok in Hok. rewrite Hr, Hk in Hok.
    destruct (Hok q Hq) as [Hc _].
    assert (Hab : about q) by (exists j; split; [done|]; exists r; split; [done|]; by rewrite Hk).
    assert (Hql : q ∈ l) by apply Hc.
    apply about_present; [done|]. apply gg_true in Hc as [?|[Hn _]]; [done| |done]. destruct (sol_is_var q Hql (about_var q Hab)). congruence.
  Qed.
  Lemma job_remove j r q : j ∈ jobs → j_kind j = JRemove → j_req j = Some r → q ∈ l → req_meets r q →
    val q = Some false.
  Proof.
    intros Hj Hk Hr Hq Hm. destruct (mjob gg gg_model j Hj) as [_ Hok]. unfold job_ok in Hok. rewrite Hr, Hk in Hok.
    assert (Hab : about q) by (exists j; split; [done|]; exists r; split; [done|]; by rewrite Hk).
    destruct (sol_is_var q Hq (about_var q Hab)) as [[] Hv]; [|done]. exfalso. apply (Hok q); [|done]. apply gg_true; auto.
  Qed.
  (** Twins of installed packages provide the same names. *)
  Lemma job_remove_after j r : (∀ p q, p ∈ inst → q ∈ l → twin p q → p_provides p = p_provides q) →
    j ∈ jobs → j_kind j = JRemove → j_req j = Some r → ∀ q, after inst ops q → ¬ req_meets r q.
  Proof.
    intros Htw Hj Hk Hr q [[Hi Hn]|Hi] Hm.
    - assert (Hql : q ∈ l) by auto. assert (Hv := job_remove j r q Hj Hk Hr Hql Hm). apply Hn, rem_iff, (ok_rem _ _ _ _ _ _ _ OK).
      split; [by apply installed_iff|]. split; [split; [done|]; by apply (dc_roots _ D q Hql (or_introl Hi))|].
      intros (q' & [Hq' Hd] & _ & [Ht _]). assert (Hv' := dc_pos _ D q' Hq' Hd).
      rewrite (job_remove j r q' Hj Hk Hr Hq') in Hv'; [done|]. destruct Hm as [Hpr Hc]. destruct (proj1 (conj Ht I)) as [E1 E2].
      split; [|by rewrite <-E2]. destruct Hpr as [->|Hpr]; [by left|right]. by rewrite <-(Htw q q').
    - destruct (install_val q Hi) as (Hql & _ & Hv). rewrite (job_remove j r q Hj Hk Hr Hql Hm) in Hv. done.
  Qed.

  (** ** Without pruning *)
  Section full.
    Context (Hfull : ∀ p, p ∈ l → pid p ∈ dec ↔ val p = Some true).
    Lemma stand_local0 loc p q : local_packages po ilist = Ok loc → p ∈ l →
      stands_for po l ilist p q ↔ local_get loc (key_of q) = Some (pid p).
    Proof.
      intros Eloc Hp. destruct (local_spec po l R Hinj ilist ilist_ok) as (loc' & E' & Hl). rewrite Eloc in E'. injection E' as <-.
      specialize (Hl q). destruct (local_get loc (key_of q)) as [i|] eqn:Eg.
      - destruct Hl as (p' & Hp' & -> & Hs). split.
        + intros Hs'. by rewrite (stand_unique p p' q).
        + intros [= E']. by apply (pid_inj po l R Hinj) in E' as <-.
      - split; [|done]. intros Hs. exfalso. destruct (stand_inst p q Hp Hs) as [Hi Ht]. apply (Hl p Hp); [|done]. by apply ilist_pid.
    Qed.
    Lemma after_gg q' : after inst ops q' ↔ ∃ q, chosen po l gg q ∧ tau q q'.
    Proof.
      split.
      - intros [[Hi Hn]|Hi].
        + assert (Hq' : q' ∈ l) by auto. destruct (val q') as [[]|] eqn:Hv.
          * exists q'. split; [apply gg_true; auto|]. left. auto.
          * destruct (local_spec po l R Hinj ilist ilist_ok) as (loc & Eloc & _).
            destruct (decide (Exists (λ q, pid q ∈ dec ∧ q ∉ inst ∧ local_get loc (key_of q) = Some (pid q')) l))
              as [(q & Hq & Hd & Hni & Hs)%Exists_exists|Hno].
            -- exists q. split; [apply gg_true; [done|]; left; by apply Hfull|]. right. split; [done|]. split; [done|]. by apply (stand_local0 loc).
            -- exfalso. apply Hn, rem_iff, (ok_rem _ _ _ _ _ _ _ OK). split; [by apply installed_iff|].
               split; [split; [done|]; by apply (dc_roots _ D q' Hq' (or_introl Hi))|]. intros (q & [Hq Hd] & Hni & Hs).
               apply Hno, Exists_exists. exists q. split; [done|]. split; [done|]. rewrite installed_iff in Hni. split; [done|].
               by apply (stand_local0 loc).
          * exists q'. split; [apply gg_true; auto|]. left. auto.
        + apply ins_iff, (ok_ins _ _ _ _ _ _ _ OK) in Hi as ([Hq' Hd] & Hni & Hf). exists q'. split; [apply gg_true; [done|]; left; by apply Hfull|].
          left. split; [done|]. right. by apply fresh_iff.
      - intros (q & Hc & Ht). assert (Hq : q ∈ l) by apply Hc. apply (gg_true q Hq) in Hc as [Hv|[Hv Hi]].
        + eapply decided_after; [exact Hq|by apply Hfull|done].
        + destruct Ht as [[-> _]|[? _]]; [|done]. apply inst_after; [done|congruence].
    Qed.
    Context (H3 : ∀ p q, p ∈ inst → q ∈ l → twin p q →
      p_requires p = p_requires q ∧ p_conflicts p = p_conflicts q ∧ p_provides p = p_provides q).
    Lemma tau_meta0 q q' : q ∈ l → tau q q' → p_requires q' = p_requires q ∧ p_conflicts q' = p_conflicts q ∧ p_provides q' = p_provides q ∧
      p_name q' = p_name q ∧ p_version q' = p_version q ∧ q' ∈ l.
    Proof.
      intros Hq [[-> _]|(_ & Hi & Hs)]; [done|]. destruct Hs as [Ht _]. destruct (H3 q' q Hi Hq Ht) as (? & ? & ?).
      destruct Ht. do 5 (split; [done|]). by apply Hinst.
    Qed.
    Lemma tau_explored q q' : q ∈ l → tau q q' → explored q' → explored q.
    Proof.
      intros Hq [[-> _]|(_ & Hi & Hs)] He'; [done|]. apply explored_iff. eapply nd_installed; [exact Hi|done|].
      destruct Hs as [[Hn _] _]. left. by rewrite Hn.
    Qed.
    Lemma full_needed p' : after inst ops p' → explored p' →
      (∀ d, d ∈ p_requires p' → ∃ q, after inst ops q ∧ q ≠ p' ∧ dep_meets m d q) ∧
      (∀ q, after inst ops q → p_name q = p_name p' → q = p') ∧
      (∀ d q, d ∈ p_conflicts p' → after inst ops q → q ≠ p' → ¬ conflict_meets d q).
    Proof.
      intros (p & Hc & Ht)%after_gg He'. assert (Hp : p ∈ l) by apply Hc. assert (Hex := tau_explored p p' Hp Ht He').
      destruct (tau_meta0 p p' Hp Ht) as (Er & Ec & Epr & En & Ev & Hp').
      split; [|split].
      - intros d Hd. rewrite Er in Hd. destruct (mreq gg gg_model p d Hex Hc Hd) as (q & Hcq & Heq & Hne & Hm).
        assert (Hq : q ∈ l) by apply Hcq. destruct (tau_total q Hq) as (q' & Htq). exists q'. split; [apply after_gg; eauto|].
        destruct (tau_meta0 q q' Hq Htq) as (_ & _ & Epr' & En' & Ev' & _). split.
        + intros ->. apply Hne. apply (mnames gg gg_model p q Hex Hc Hcq). congruence.
        + destruct Hm as [Hpr Hcs]. split; [|by rewrite Ev']. unfold provides in *. by rewrite Epr', En'.
      - intros q' (q & Hcq & Htq)%after_gg Hn. assert (Hq : q ∈ l) by apply Hcq.
        destruct (tau_meta0 q q' Hq Htq) as (_ & _ & _ & En' & _ & _).
        assert (q = p) as -> by (apply (mnames gg gg_model p q Hex Hc Hcq); congruence). by eapply tau_fun.
      - intros d q' Hd (q & Hcq & Htq)%after_gg Hne Hm. assert (Hq : q ∈ l) by apply Hcq.
        destruct (tau_meta0 q q' Hq Htq) as (_ & _ & Epr' & En' & Ev' & _). rewrite Ec in Hd.
        apply (mconf gg gg_model p d q Hex Hc Hd Hcq); [intros ->; apply Hne; by eapply tau_fun|].
        destruct Hm as [Hpr Hcs]. rewrite Ev' in Hcs. split; [|done]. unfold provides in *. by rewrite <-Epr', <-En'.
    Qed.
  End full.

  (** ** Pruning *)
  Section pruned.
    (** A name is only provided by packages of one name; remove jobs are about installed names or all versions. *)
    Context (H1 : ∀ p q nm, p ∈ l → q ∈ l → provides p nm → provides q nm → p_name p = p_name q).
    Context (H2 : removes_known l inst jobs).
    Context (n2i : gmap string Z) (N : gset string).
    Context (HN : ∀ nm, nm ∈ N ↔ ∃ p, p ∈ l ∧ pid p ∈ roots ∧ provides p nm).
    Context (Hn1 : ∀ nm i, n2i !! nm = Some i → ∃ p, p ∈ l ∧ i = pid p ∧ i ∈ sol ∧ provides p nm).
    Context (Hn2 : ∀ nm p, p ∈ l → pid p ∈ sol → provides p nm → is_Some (n2i !! nm)).
    Local Notation pulled := (pulled po l n2i N).
    Lemma E_unique p q : E p → chosen po l gg q → p_name q = p_name p → q = p.
    Proof. intros [Hc Hx] Hq Hn. by apply (mnames gg gg_model). Qed.
    Lemma n2i_pid nm q : q ∈ l → n2i !! nm = Some (pid q) → val q = Some true ∧ provides q nm ∧ chosen po l gg q.
    Proof.
      intros Hq Hi. destruct (Hn1 _ _ Hi) as (p & Hp & E' & Hin & Hpr). apply (pid_inj po l R Hinj) in E' as ->; [|done..].
      apply sol_pos in Hin; [|done]. split; [done|]. split; [done|]. apply gg_true; auto.
    Qed.
    (** The chosen package that provides the name of a root is explored. *)
    Lemma root_explored nm q : nm ∈ N → q ∈ l → val q = Some true → provides q nm → explored q.
    Proof.
      intros (z & Hz & Hr & Hpr)%HN Hq Hv Hpq. assert (Hc : chosen po l gg q) by (apply gg_true; auto).
      assert (Hn : p_name z = p_name q) by (by eapply H1). apply roots_pid in Hr; [|done].
      assert (Hinst' : ∀ i, i ∈ inst → p_name i = p_name q → explored q).
      { intros i Hi Hin. apply explored_iff. eapply nd_installed; [exact Hi|done|]. left. congruence. }
      destruct Hr as [Hi|(j & Hj & r & Hr & Hab)]; [by eapply Hinst'|].
      destruct (mjob gg gg_model j Hj) as [Hok _]. unfold job_ok in Hok. rewrite Hr in Hok.
      destruct (j_kind j) eqn:Ek; try done.
      - destruct Hok as (c & Hc' & Hm). destruct Hab as [_ [Hzr _]]. destruct Hm as [Hcr _].
        assert (Hcl : c ∈ l) by apply Hc'. assert (p_name z = p_name c) by exact (H1 z c _ Hz Hcl Hzr Hcr).
        rewrite (E_unique c q Hc' Hc) by congruence. apply Hc'.
      - destruct (H2 j r Hj Ek Hr) as [(i & Hi & Hir)|Hall].
        2:{ apply proj2 in Hab as Hm. assert (val q = Some false); [|congruence].
            apply (job_remove j r q); [done|done|done|done|]. apply (Hall z q Hz Hq); [|done]. by destruct Hab. }
        apply (Hinst' i Hi). destruct Hab as [_ [Hzr _]].
        transitivity (p_name z); [|done]. exact (H1 i z _ (Hinst i Hi) Hz Hir Hzr).
      - destruct Hok as (c & Hc' & Hm). destruct Hab as [_ [Hzr _]]. destruct Hm as [Hcr _].
        assert (Hcl : c ∈ l) by apply Hc'. assert (p_name z = p_name c) by exact (H1 z c _ Hz Hcl Hzr Hcr).
        rewrite (E_unique c q Hc' Hc) by congruence. apply Hc'.
      - assert (HE := Hok z Hab). rewrite (E_unique z q HE Hc) by congruence. apply HE.
    Qed.
    Lemma pulled_E i : pulled i → ∃ p, p ∈ l ∧ i = pid p ∧ E p ∧ val p = Some true.
    Proof.
      induction 1 as [nm i Hnm Hi|p d i Hp Hpl (p' & Hp' & E' & HE & Hv) Hd Hi].
      - destruct (Hn1 _ _ Hi) as (q & Hq & -> & _ & _). destruct (n2i_pid _ _ Hq Hi) as (Hv & Hpr & Hc).
        exists q. split; [done|]. split; [done|]. split; [|done]. split; [done|]. by eapply root_explored.
      - apply (pid_inj po l R Hinj) in E' as <-; [|done..].
        destruct (Hn1 _ _ Hi) as (q & Hq & -> & _ & _). destruct (n2i_pid _ _ Hq Hi) as (Hvq & Hpr & Hc).
        exists q. split; [done|]. split; [done|]. split; [|done]. destruct HE as [Hcp Hxp].
        destruct (mreq gg gg_model p d Hxp Hcp Hd) as (q0 & Hc0 & Hx0 & _ & [Hpr0 _]).
        rewrite (E_unique q0 q (conj Hc0 Hx0) Hc); [by split|]. eapply H1; [done|apply Hc0|done|done].
    Qed.
    Lemma pulled_pid p : p ∈ l → pulled (pid p) → E p ∧ val p = Some true.
    Proof. intros Hp Hpl. destruct (pulled_E _ Hpl) as (q & Hq & E' & ?). by apply (pid_inj po l R Hinj) in E' as ->. Qed.
    Lemma pulled_closed p d : p ∈ l → pulled (pid p) → d ∈ p_requires p →
      ∃ q, q ∈ l ∧ n2i !! d.1 = Some (pid q) ∧ pulled (pid q) ∧ q ≠ p ∧ dep_meets m d q.
    Proof.
      intros Hp Hpl Hd. destruct (pulled_pid p Hp Hpl) as [[Hc Hx] Hv].
      destruct (mreq gg gg_model p d Hx Hc Hd) as (q0 & Hc0 & Hx0 & Hne & Hm). assert (Hq0 : q0 ∈ l) by apply Hc0.
      assert (Hv0 : val q0 = Some true).
      { assert (Hvar := dep_var gg p d q0 gg_model Hx Hc Hd Hq0 Hne Hm). destruct (sol_is_var q0 Hq0 Hvar) as [b Hb].
        apply gg_true in Hc0 as [?|[? _]]; [done|congruence|done]. }
      exists q0. split; [done|].
      destruct (Hn2 d.1 q0 Hq0) as [i Hi]; [by apply sol_pos|apply Hm|].
      destruct (Hn1 _ _ Hi) as (q & Hq & -> & _ & _). destruct (n2i_pid _ _ Hq Hi) as (Hvq & Hpr & Hcq).
      assert (q = q0) as ->. { apply (E_unique q0 q (conj Hc0 Hx0) Hcq). eapply H1; [done|done|done|apply Hm]. }
      split; [done|]. split; [exact (pulled_dep _ _ _ _ p d _ Hp Hpl Hd Hi)|]. done.
    Qed.
    Lemma pulled_root_val p : p ∈ l → p ∈ inst ∨ about p → val p = Some true → pulled (pid p).
    Proof.
      intros Hp Hr Hv. assert (HpN : p_name p ∈ N).
      { apply HN. exists p. split; [done|]. split; [by apply roots_pid|by left]. }
      assert (Hself : provides p (p_name p)) by (by left).
      assert (HE : E p). { split; [apply gg_true; auto|]. by eapply root_explored. }
      destruct (Hn2 (p_name p) p Hp) as [i Hi]; [by apply sol_pos|done|].
      destruct (Hn1 _ _ Hi) as (q & Hq & -> & _ & _). destruct (n2i_pid _ _ Hq Hi) as (Hvq & Hpr & Hcq).
      assert (q = p) as ->. { apply (E_unique p q HE Hcq). by eapply H1. }
      by eapply pulled_root.
    Qed.
    Definition K (p : package) : Prop := (p ∈ l ∧ pulled (pid p)) ∨ (p ∈ inst ∧ val p = None).
    Lemma K_E p : K p → E p.
    Proof.
      intros [[Hp Hpl]|[Hi Hv]]; [by apply pulled_pid|]. split; [apply gg_true; auto|by apply inst_explored].
    Qed.
    Lemma K_about q : E q → about q → K q.
    Proof.
      intros [Hc Hx] Hab. assert (Hq : q ∈ l) by apply Hc. left. split; [done|]. apply pulled_root_val; [done|by right|].
      destruct (sol_is_var q Hq (about_var q Hab)). apply gg_true in Hc as [?|[? _]]; [done|congruence|done].
    Qed.
    Lemma K_valid : valid l inst m jobs K.
    Proof.
      destruct E_valid as [V1 V2 V3 V4 V5]. split.
      - intros p Hp%K_E. by apply V1.
      - intros j Hj. specialize (V2 j Hj). unfold job_ok in *. destruct (j_req j) as [r|] eqn:Er; [|done].
        destruct (j_kind j) eqn:Ek; [..|done].
        + destruct V2 as (q & HE & Hm). exists q. split; [|done]. apply K_about; [done|]. exists j. split; [done|]. exists r. split; [done|].
          rewrite Ek. split; [by apply V1|done].
        + intros q Hq%K_E. by apply V2.
        + destruct V2 as (q & HE & Hm). exists q. split; [|done]. apply K_about; [done|]. exists j. split; [done|]. exists r. split; [done|].
          rewrite Ek. split; [by apply V1|done].
        + intros q Hq. apply K_about; [by apply V2|]. exists j. split; [done|]. exists r. split; [done|]. by rewrite Ek.
      - intros p d HK Hd. destruct HK as [[Hp Hpl]|[Hi Hv]].
        + destruct (pulled_closed p d Hp Hpl Hd) as (q & Hq & _ & ? & ? & ?). exists q. split; [left; done|done].
        + exfalso. destruct (sol_is_var p (Hinst p Hi) (requires_var p d (inst_explored p Hi) Hd)). congruence.
      - intros p q Hp%K_E Hq%K_E. by apply V4.
      - intros p d q Hp%K_E Hd Hq%K_E. by apply V5.
    Qed.
    Context (Hdec : ∀ i, i ∈ dec ↔ pulled i ∨ (i ∈ sol ∧ Z.abs i ∈ roots)).
    Lemma dec_pulled p : p ∈ l → pid p ∈ dec ↔ pulled (pid p).
    Proof.
      intros Hp. rewrite Hdec. split; [|by left]. intros [?|[Hs Hr]]; [done|]. apply pulled_root_val; [done| |by apply sol_pos].
      pose proof (pid_pos po l R p Hp). rewrite Z.abs_eq in Hr by lia. by apply roots_pid.
    Qed.
    (** What is present: the packages of [K], or the installed packages that stand for them. *)
    Lemma stand_local loc p q : local_packages po ilist = Ok loc → p ∈ l →
      stands_for po l ilist p q ↔ local_get loc (key_of q) = Some (pid p).
    Proof.
      intros Eloc Hp. destruct (local_spec po l R Hinj ilist ilist_ok) as (loc' & Eloc' & Hl). rewrite Eloc in Eloc'. injection Eloc' as <-.
      specialize (Hl q). destruct (local_get loc (key_of q)) as [i|].
      - destruct Hl as (p' & Hp' & -> & Hs). split.
        + intros Hs'. by rewrite (stand_unique p p' q).
        + intros [= E']. by apply (pid_inj po l R Hinj) in E' as <-.
      - split; [|done]. intros Hs. exfalso. destruct (stand_inst p q Hp Hs) as [Hi Ht]. apply (Hl p Hp); [|done]. by apply ilist_pid.
    Qed.
    Lemma after_K q' : after inst ops q' ↔ ∃ q, K q ∧ tau q q'.
    Proof.
      split.
      - intros [[Hi Hn]|Hi].
        + assert (Hq' : q' ∈ l) by auto. destruct (val q') as [[]|] eqn:Hv.
          * exists q'. split; [left; split; [done|]; apply pulled_root_val; auto|]. left. auto.
          * destruct (local_spec po l R Hinj ilist ilist_ok) as (loc & Eloc & _).
            destruct (decide (Exists (λ q, pid q ∈ dec ∧ q ∉ inst ∧ local_get loc (key_of q) = Some (pid q')) l))
              as [(q & Hq & Hd & Hni & Hs)%Exists_exists|Hno].
            -- exists q. split; [left; split; [done|by apply dec_pulled]|]. right. split; [done|]. split; [done|]. by apply (stand_local loc).
            -- exfalso. apply Hn, rem_iff, (ok_rem _ _ _ _ _ _ _ OK). split; [by apply installed_iff|].
               split; [split; [done|]; by apply (dc_roots _ D q' Hq' (or_introl Hi))|]. intros (q & [Hq Hd] & Hni & Hs).
               apply Hno, Exists_exists. exists q. split; [done|]. split; [done|]. rewrite installed_iff in Hni. split; [done|].
               by apply (stand_local loc).
          * exists q'. split; [right; done|]. left. auto.
        + apply ins_iff, (ok_ins _ _ _ _ _ _ _ OK) in Hi as ([Hq' Hd] & Hni & Hf). exists q'. split; [left; split; [done|by apply dec_pulled]|].
          left. split; [done|]. right. by apply fresh_iff.
      - intros (q & [[Hq Hpl]|[Hi Hv]] & Ht).
        + eapply decided_after; [exact Hq|by apply dec_pulled|done].
        + destruct Ht as [[-> _]|[? _]]; [|done]. apply inst_after; [done|congruence].
    Qed.
    (** ** C23: a valid installed set that meets the request *)
    Section idle.
      Context (Hval : valid l inst m jobs (λ p, p ∈ inst)).
      Lemma idle_val n (Hrun : run n) : (∀ p, p ∈ inst → ¬ soft jobs p) → ∀ i, i ∈ inst → val i ≠ Some false.
      Proof.
        intros Hsoft i Hi Hv. pose (g := val_of po (filter (λ p, p ∈ l) inst)).
        assert (Hg : ∀ q, q ∈ l → g (pid q) = true ↔ q ∈ inst).
        { intros q Hq. unfold g. rewrite (val_of_spec po l R Hinj); [|by intros x [? _]%elem_of_list_filter|done].
          rewrite elem_of_list_filter. tauto. }
        assert (Hf : g (pid i) = false).
        { eapply (sol_prefers e He po l R Hinj inst Hinst strict fuel jobs ids rules uenv ust iids st PB n a Hrun i); [done|by apply Hsoft| | |done].
          - eapply valid_model; eauto using pb_iids, pb_st.
          - intros q Hq _ _. apply Hg; [by apply Hinst|done]. }
        assert (Ht : g (pid i) = true) by (apply Hg; [by apply Hinst|done]). congruence.
      Qed.
      Context (Hkeep : ∀ i, i ∈ inst → val i ≠ Some false).
      Lemma idle_E i : i ∈ inst → E i.
      Proof.
        intros Hi. split; [|by apply inst_explored]. apply gg_true; [by apply Hinst|]. destruct (val i) as [[]|] eqn:Ev; [by left| |by right].
        by destruct (Hkeep i Hi).
      Qed.
      Lemma idle_same i q : i ∈ inst → chosen po l gg q → p_name q = p_name i → q ∈ inst.
      Proof. intros Hi Hq Hn. by rewrite (E_unique i q (idle_E i Hi) Hq Hn). Qed.
      Lemma idle_pulled x : pulled x → ∃ p, p ∈ inst ∧ x = pid p.
      Proof.
        induction 1 as [nm x Hnm Hx|p d x Hp Hpl (p' & Hp' & E') Hd Hx].
        - destruct (Hn1 _ _ Hx) as (q & Hq & -> & _ & _). destruct (n2i_pid _ _ Hq Hx) as (Hv & Hpr & Hc).
          exists q. split; [|done]. apply HN in Hnm as (z & Hz & Hr & Hpz). assert (Hn : p_name q = p_name z) by exact (H1 q z _ Hq Hz Hpr Hpz).
          apply roots_pid in Hr as [Hi|(j & Hj & r & Hr & Hab)]; [by apply (idle_same z)| |done].
          assert (Hok := va_jobs _ _ _ _ _ Hval j Hj). unfold job_ok in Hok. rewrite Hr in Hok.
          destruct (j_kind j) eqn:Ek; [| | | |done].
          + destruct Hok as (i & Hi & [Hm _]). apply (idle_same i); [done|done|]. rewrite Hn. destruct Hab as [_ [Hzr _]].
            exact (H1 z i _ Hz (Hinst i Hi) Hzr Hm).
          + destruct (H2 j r Hj Ek Hr) as [(i & Hi & Hir)|Hall].
            2:{ assert (val q = Some false); [|congruence]. apply (job_remove j r q); [done|done|done|done|].
                apply (Hall z q Hz Hq); [|done]. by destruct Hab. }
            apply (idle_same i); [done|done|]. rewrite Hn. destruct Hab as [_ [Hzr _]].
            exact (H1 z i _ Hz (Hinst i Hi) Hzr Hir).
          + destruct Hok as (i & Hi & [Hm _]). apply (idle_same i); [done|done|]. rewrite Hn. destruct Hab as [_ [Hzr _]].
            exact (H1 z i _ Hz (Hinst i Hi) Hzr Hm).
          + apply (idle_same z); [by apply Hok|done|done].
        - apply (pid_inj po l R Hinj) in E' as <-; [|done|by apply Hinst].
          destruct (Hn1 _ _ Hx) as (q & Hq & -> & _ & _). destruct (n2i_pid _ _ Hq Hx) as (Hv & Hpr & Hc).
          exists q. split; [|done]. destruct (va_closed _ _ _ _ _ Hval p d Hp' Hd) as (i & Hi & _ & [Hm _]).
          apply (idle_same i); [done|done|]. exact (H1 q i _ Hq (Hinst i Hi) Hpr Hm).
      Qed.
      Lemma idle_ops : ops = [].
      Proof.
        assert (Hr : rem = []).
        { apply elem_of_nil_inv. intros p Hp. apply rem_iff in Hp. apply removed_val in Hp as [Hi Hv]. by apply (Hkeep p Hi). }
        assert (Hs : ins = []).
        { apply elem_of_nil_inv. intros p Hp.
          apply (ok_ins _ _ _ _ _ _ _ OK) in Hp as ([Hp Hd] & Hni & _). apply dec_pulled in Hd; [|done].
          destruct (idle_pulled _ Hd) as (q & Hq & E'). apply (pid_inj po l R Hinj) in E' as ->; [|done|by apply Hinst].
          apply Hni. by apply installed_iff. }
        rewrite (ok_ops _ _ _ _ _ _ _ OK), Hr, Hs. done.
      Qed.
    End idle.
    (** Installed packages and packages of the same name and version have the same metadata. *)
    Context (H3 : ∀ p q, p ∈ inst → q ∈ l → twin p q →
      p_requires p = p_requires q ∧ p_conflicts p = p_conflicts q ∧ p_provides p = p_provides q).
    Lemma tau_meta q q' : q ∈ l → tau q q' → p_requires q' = p_requires q ∧ p_conflicts q' = p_conflicts q ∧ p_provides q' = p_provides q ∧
      p_name q' = p_name q ∧ p_version q' = p_version q ∧ q' ∈ l.
    Proof.
      intros Hq [[-> _]|(_ & Hi & Hs)]; [done|]. destruct Hs as [Ht _]. destruct (H3 q' q Hi Hq Ht) as (? & ? & ?).
      destruct Ht. do 5 (split; [done|]). by apply Hinst.
    Qed.
    Lemma tau_provides q q' nm : q ∈ l → tau q q' → provides q nm → provides q' nm.
    Proof. intros Hq Ht. destruct (tau_meta q q' Hq Ht) as (_ & _ & E1 & E2 & _). unfold provides. by rewrite E1, E2. Qed.
    Lemma tau_provides' q q' nm : q ∈ l → tau q q' → provides q' nm → provides q nm.
    Proof. intros Hq Ht. destruct (tau_meta q q' Hq Ht) as (_ & _ & E1 & E2 & _). unfold provides. by rewrite E1, E2. Qed.
    Lemma after_valid : valid l inst m jobs (after inst ops).
    Proof.
      destruct K_valid as [V1 V2 V3 V4 V5].
      assert (Hname : ∀ p q p' q', K p → K q → tau p p' → tau q q' → p_name p' = p_name q' → p = q).
      { intros p q p' q' Hp Hq Htp Htq Hn. apply V4; [done|done|].
        destruct (tau_meta p p') as (_ & _ & _ & <- & _); [by apply V1|done|].
        destruct (tau_meta q q') as (_ & _ & _ & <- & _); [by apply V1|done|]. done. }
      assert (Hreq : ∀ r q q', q ∈ l → tau q q' → req_meets r q ↔ req_meets r q').
      { intros r q q' Hq Ht. destruct (tau_meta q q' Hq Ht) as (_ & _ & _ & _ & Ev & _). unfold req_meets. rewrite Ev.
        split; intros [? ?]; (split; [|done]); [by eapply tau_provides|by eapply tau_provides']. }
      split.
      - intros p (q & HK & Ht)%after_K. destruct (tau_meta q p) as (_ & _ & _ & _ & _ & ?); [by apply V1|done|done].
      - intros j Hj. specialize (V2 j Hj). unfold job_ok in *. destruct (j_req j) as [r|] eqn:Er; [|done].
        assert (Hex : (∃ q, K q ∧ req_meets r q) → ∃ q, after inst ops q ∧ req_meets r q).
        { intros (q & HK & Hm). destruct (tau_total q (V1 q HK)) as (q' & Ht). exists q'. split; [apply after_K; eauto|].
          apply (Hreq r q q' (V1 q HK) Ht). done. }
        destruct (j_kind j) eqn:Ek; [..|done].
        + by apply Hex.
        + intros q' (q & HK & Ht)%after_K Hm. apply (V2 q HK). by apply (Hreq r q q' (V1 q HK) Ht).
        + by apply Hex.
        + intros q Hq. specialize (V2 q Hq). destruct (tau_total q (V1 q V2)) as (q' & Ht).
          assert (q' = q) as ->; [|apply after_K; eauto]. destruct Ht as [[-> _]|(Hni & Hi & Hs)]; [done|]. exfalso.
          destruct Hq as (l1 & l2 & El & Hm & Hl1 & Hl2).
          assert (Hql : q ∈ l) by (by apply V1). assert (Hm' : req_meets r q').
          { apply (Hreq r q q' Hql); [by right|done]. }
          assert (Ht : twin q' q) by apply Hs. destruct Ht as [_ Hve].
          assert (Hor : older_or_remote inst q q') by (right; done).
          assert (Hin : q' ∈ l1 ++ q :: l2) by (rewrite <-El; by apply Hinst).
          apply elem_of_app in Hin as [Hin|[->|Hin]%elem_of_cons]; [|done|by apply (Hl2 q')].
          destruct (Hl1 q' Hin Hm') as [Hlt|(_ & Hni' & _)]; [|done]. rewrite Hve in Hlt. unfold vlt in Hlt. lia.
      - intros p' d (p & HK & Ht)%after_K Hd. destruct (tau_meta p p') as (Er & _ & _ & _ & _ & _); [by apply V1|done|]. rewrite Er in Hd.
        destruct (V3 p d HK Hd) as (q & HKq & Hne & Hm). destruct (tau_total q (V1 q HKq)) as (q' & Htq).
        exists q'. split; [apply after_K; eauto|]. split.
        + intros ->. apply Hne. by eapply (Hname q p).
        + destruct (tau_meta q q') as (_ & _ & _ & _ & Ev & _); [by apply V1|done|]. destruct Hm as [Hpr Hc]. split.
          * eapply tau_provides; [by apply V1|done|done].
          * by rewrite Ev.
      - intros p' q' (p & HKp & Htp)%after_K (q & HKq & Htq)%after_K Hn.
        assert (p = q) as -> by (by eapply Hname). by eapply tau_fun.
      - intros p' d q' (p & HKp & Htp)%after_K Hd (q & HKq & Htq)%after_K Hne Hm.
        destruct (tau_meta p p') as (_ & Ec & _); [by apply V1|done|]. rewrite Ec in Hd.
        apply (V5 p d q HKp Hd HKq).
        + intros ->. apply Hne. by eapply tau_fun.
        + destruct (tau_meta q q') as (_ & _ & _ & _ & Ev & _); [by apply V1|done|]. destruct Hm as [Hpr Hc]. split.
          * eapply tau_provides'; [by apply V1|done|done].
          * by rewrite <-Ev.
    Qed.
    (** ** C65: a valid installed set of which nothing is removed *)
    Section still.
      Context (Hval : valid l inst m jobs (λ p, p ∈ inst)) (Hkeep : ∀ i, i ∈ inst → RemoveOp i ∉ ops).
      Lemma still_same i q : i ∈ inst → chosen po l gg q → p_name q = p_name i → tau q i.
      Proof.
        intros Hi Hq Hn. destruct (proj1 (after_K i)) as (z & Hz & Ht); [left; auto|]. assert (Hzn := proj1 (tau_twin _ _ Ht)).
        rewrite (E_unique z q (K_E z Hz) Hq) by congruence. done.
      Qed.
      Lemma still_pulled x : pulled x → ∃ q i, q ∈ l ∧ x = pid q ∧ i ∈ inst ∧ tau q i.
      Proof.
        induction 1 as [nm x Hnm Hx|p d x Hp Hpl (p' & i' & Hp' & E' & Hi' & Ht') Hd Hx].
        - destruct (Hn1 _ _ Hx) as (q & Hq & -> & _ & _). destruct (n2i_pid _ _ Hq Hx) as (Hv & Hpr & Hc).
          exists q. apply HN in Hnm as (z & Hz & Hr & Hpz). assert (Hn : p_name q = p_name z) by exact (H1 q z _ Hq Hz Hpr Hpz).
          apply roots_pid in Hr as [Hi|(j & Hj & r & Hr & Hab)]; [exists z; do 3 (split; [done|]); by apply still_same| |done].
          assert (Hok := va_jobs _ _ _ _ _ Hval j Hj). unfold job_ok in Hok. rewrite Hr in Hok.
          destruct (j_kind j) eqn:Ek; [| | | |done].
          + destruct Hok as (i & Hi & [Hm _]). exists i. do 3 (split; [done|]). apply (still_same i); [done|done|]. rewrite Hn. destruct Hab as [_ [Hzr _]].
            exact (H1 z i _ Hz (Hinst i Hi) Hzr Hm).
          + destruct (H2 j r Hj Ek Hr) as [(i & Hi & Hir)|Hall].
            2:{ assert (val q = Some false); [|congruence]. apply (job_remove j r q); [done|done|done|done|].
                apply (Hall z q Hz Hq); [|done]. by destruct Hab. }
            exists i. do 3 (split; [done|]). apply (still_same i); [done|done|]. rewrite Hn. destruct Hab as [_ [Hzr _]].
            exact (H1 z i _ Hz (Hinst i Hi) Hzr Hir).
          + destruct Hok as (i & Hi & [Hm _]). exists i. do 3 (split; [done|]). apply (still_same i); [done|done|]. rewrite Hn. destruct Hab as [_ [Hzr _]].
            exact (H1 z i _ Hz (Hinst i Hi) Hzr Hm).
          + exists z. do 2 (split; [done|]). assert (Hzi : z ∈ inst) by (by apply Hok). split; [done|]. by apply still_same.
        - apply (pid_inj po l R Hinj) in E' as <-; [|done|done].
          destruct (Hn1 _ _ Hx) as (q & Hq & -> & _ & _). destruct (n2i_pid _ _ Hq Hx) as (Hv & Hpr & Hc).
          exists q. destruct (tau_meta p i' Hp Ht') as (Er & _). rewrite <-Er in Hd.
          destruct (va_closed _ _ _ _ _ Hval i' d Hi' Hd) as (i & Hi & _ & [Hm _]).
          exists i. do 3 (split; [done|]). apply (still_same i); [done|done|]. exact (H1 q i _ Hq (Hinst i Hi) Hpr Hm).
      Qed.
      Lemma still_ops : ops = [].
      Proof.
        assert (Hr : rem = []).
        { apply elem_of_nil_inv. intros p Hp. apply rem_iff in Hp. assert (H := removed_val p Hp). by apply (Hkeep p (proj1 H)). }
        assert (Hs : ins = []).
        { apply elem_of_nil_inv. intros p Hp.
          apply (ok_ins _ _ _ _ _ _ _ OK) in Hp as ([Hp Hd] & Hni & Hf). apply dec_pulled in Hd; [|done].
          destruct (still_pulled _ Hd) as (q & i & Hq & E' & Hi & Ht). apply (pid_inj po l R Hinj) in E' as ->; [|done|done].
          rewrite installed_iff in Hni. apply fresh_iff in Hf. apply Hf. exists i. split; [done|]. by apply tau_twin. }
        rewrite (ok_ops _ _ _ _ _ _ _ OK), Hr, Hs. done.
      Qed.
    End still.
  End pruned.
End final.
