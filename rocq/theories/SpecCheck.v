(** * Checkers for the specification: used to show on concrete cases that hypotheses are met. *)
From Verif Require Import ConstraintProofs PropConstraints PropRules.
From Verif Require Export SpecSolve SolveTotal.

Definition provides_b (p : package) (n : string) : bool := bool_decide (n ∈ p_name p :: (p_provides p).*1).
Lemma provides_b_spec p n : provides_b p n = true ↔ provides p n.
Proof.
  unfold provides_b, provides. rewrite bool_decide_eq_true, elem_of_cons, elem_of_list_fmap. split; (intros [?|H]; [by left|right]).
  - destruct H as (d & -> & Hd). eauto.
  - destruct H as (d & Hd & <-). eauto.
Qed.
Definition vlt_b (a b : version) : bool := ver_ltb a b.
Lemma vlt_b_spec a b : vlt_b a b = true ↔ vlt a b.
Proof. unfold vlt_b, ver_ltb, vlt. rewrite orb_true_iff, andb_true_iff, !Z.ltb_lt, Z.eqb_eq. done. Qed.
Global Instance vlt_dec a b : Decision (vlt a b).
Proof. destruct (vlt_b a b) eqn:E; [left; by apply vlt_b_spec|right; intros H%vlt_b_spec; congruence]. Defined.
Global Instance vle_dec a b : Decision (vle a b).
Proof. unfold vle. apply _. Defined.
Global Instance constr_sem_dec c v : Decision (constr_sem c v).
Proof. destruct c; cbn; apply _. Defined.
Global Instance lower_dec c v : Decision (lower_part c v).
Proof. destruct c; cbn; apply _. Defined.
Global Instance upper_dec c v : Decision (upper_part c v).
Proof. destruct c; cbn; apply _. Defined.
Global Instance relaxed_dec m n c v : Decision (relaxed m n c v).
Proof. unfold relaxed. destruct c; cbn [lower_part upper_part constr_sem]; repeat case_decide; apply _. Defined.

Definition disj_b (P : constr → bool) (ds : list (list cstr)) : bool :=
  match ds with [] => true | _ => existsb (forallb (forallb P)) ds end.
Lemma disj_b_spec P ds : disj_b P ds = true ↔ (ds = [] ∨ ∃ conj, conj ∈ ds ∧ ∀ cs c, cs ∈ conj → c ∈ cs → P c = true).
Proof.
  assert (Hf : ∀ conj, forallb (forallb P) conj = true ↔ ∀ cs c, cs ∈ conj → c ∈ cs → P c = true).
  { intros conj. rewrite forallb_forall. setoid_rewrite forallb_forall. setoid_rewrite <-elem_of_list_In. firstorder. }
  destruct ds as [|d ds]; cbn [disj_b]; [by split; [left|]|].
  rewrite existsb_exists. split.
  - intros (c & Hc & Hf'). right. exists c. apply elem_of_list_In in Hc. split; [done|]. by apply Hf.
  - intros [?|(c & Hc & Hf')]; [done|]. exists c. split; [by apply elem_of_list_In|]. by apply Hf.
Qed.
Definition dep_b (m : modifiers) (d : cdep) (q : package) : bool :=
  provides_b q d.1 && disj_b (λ c, bool_decide (relaxed m d.1 c (p_version q))) d.2.
Definition conflict_b (d : cdep) (q : package) : bool :=
  provides_b q d.1 && disj_b (λ c, bool_decide (constr_sem c (p_version q))) d.2.
Definition req_b (r : requirement) (q : package) : bool :=
  provides_b q (r_name r) && forallb (λ c, bool_decide (constr_sem c (p_version q))) (r_cons r).
Lemma dep_b_spec m d q : dep_b m d q = true ↔ dep_meets m d q.
Proof.
  unfold dep_b, dep_meets. rewrite andb_true_iff, provides_b_spec, disj_b_spec.
  assert (∀ c, bool_decide (relaxed m d.1 c (p_version q)) = true ↔ relaxed m d.1 c (p_version q)) as H by (intros; apply bool_decide_eq_true).
  split; intros [? [?|(conj & ? & Hc)]]; (split; [done|]); [by left| |by left|]; right; exists conj; (split; [done|]); intros cs c ??; apply H; eauto.
Qed.
Lemma conflict_b_spec d q : conflict_b d q = true ↔ conflict_meets d q.
Proof.
  unfold conflict_b, conflict_meets. rewrite andb_true_iff, provides_b_spec, disj_b_spec.
  assert (∀ c, bool_decide (constr_sem c (p_version q)) = true ↔ constr_sem c (p_version q)) as H by (intros; apply bool_decide_eq_true).
  split; intros [? [?|(conj & ? & Hc)]]; (split; [done|]); [by left| |by left|]; right; exists conj; (split; [done|]); intros cs c ??; apply H; eauto.
Qed.
Lemma req_b_spec r q : req_b r q = true ↔ req_meets r q.
Proof.
  unfold req_b, req_meets. rewrite andb_true_iff, provides_b_spec, forallb_forall. setoid_rewrite bool_decide_eq_true. setoid_rewrite <-elem_of_list_In. done.
Qed.

Definition all (l : list package) (P : package → bool) : bool := forallb P l.
Definition any (l : list package) (P : package → bool) : bool := existsb P l.
Lemma all_spec l P : all l P = true → ∀ p, p ∈ l → P p = true.
Proof. unfold all. rewrite forallb_forall. intros H p Hp%elem_of_list_In. auto. Qed.
Lemma any_spec l P : any l P = true → ∃ p, p ∈ l ∧ P p = true.
Proof. unfold any. rewrite existsb_exists. intros (p & Hp%elem_of_list_In & ?). eauto. Qed.
Definition eqp (p q : package) : bool := bool_decide (p = q).

(** ** Sets of packages *)
Definition closed_b (m : modifiers) (k : list package) : bool :=
  all k (λ p, forallb (λ d, any k (λ q, negb (eqp q p) && dep_b m d q)) (p_requires p)).
Lemma closed_b_spec m k : closed_b m k = true → closed_set m (λ p, p ∈ k).
Proof.
  intros H p d Hp Hd. pose proof (all_spec _ _ H p Hp) as H1. cbn beta in H1. rewrite forallb_forall in H1.
  apply elem_of_list_In in Hd. apply H1, any_spec in Hd as (q & Hq & [Hn Hm]%andb_true_iff).
  exists q. split; [done|]. apply negb_true_iff, bool_decide_eq_false in Hn. split; [done|]. by apply dep_b_spec.
Qed.
Definition names_b (k : list package) : bool := bool_decide (NoDup (p_name <$> k)).
Lemma names_b_spec k : names_b k = true → one_version (λ p, p ∈ k).
Proof.
  intros Hn%bool_decide_eq_true p q Hp Hq Hk. apply elem_of_list_lookup in Hp as [i Hi]. apply elem_of_list_lookup in Hq as [j Hj].
  assert (i = j) as ->; [|congruence]. eapply NoDup_lookup; [exact Hn|rewrite list_lookup_fmap, Hi; done|].
  rewrite list_lookup_fmap, Hj. cbn. congruence.
Qed.
Definition conflicts_b (k : list package) : bool :=
  all k (λ p, forallb (λ d, all k (λ q, eqp q p || negb (conflict_b d q))) (p_conflicts p)).
Lemma conflicts_b_spec k : conflicts_b k = true → no_conflict (λ p, p ∈ k).
Proof.
  intros H p d q Hp Hd Hq Hne Hc. pose proof (all_spec _ _ H p Hp) as H1. cbn beta in H1. rewrite forallb_forall in H1.
  apply elem_of_list_In in Hd. apply H1 in Hd. pose proof (all_spec _ _ Hd q Hq) as H2. cbn beta in H2.
  apply orb_true_iff in H2 as [H2%bool_decide_eq_true|H2%negb_true_iff]; [done|]. apply conflict_b_spec in Hc. congruence.
Qed.
Definition job_b (pkgs : list package) (k : list package) (j : job) : bool :=
  match j_req j with
  | None => false
  | Some r => match j_kind j with
    | JInstall | JSoftUpdate => any k (req_b r)
    | JRemove => all k (λ q, negb (req_b r q))
    | JHardUpdate => all pkgs (λ q, negb (req_b r q) || any pkgs (λ p, req_b r p && vlt_b (p_version q) (p_version p)) || bool_decide (q ∈ k))
    | JUpgrade => false end
  end.
Lemma hard_newest pkgs inst r q p : hard_choice pkgs inst r q → p ∈ pkgs → req_meets r p → ¬ vlt (p_version q) (p_version p).
Proof.
  intros (l1 & l2 & -> & Hq & Hb & Ha) Hp Hr Hv. apply elem_of_app in Hp as [Hp|[->|Hp]%elem_of_cons].
  - destruct (Hb p Hp Hr) as [Ho|[Ho _]]; unfold vlt in *; [lia|]. rewrite Ho in Hv. lia.
  - unfold vlt in Hv. lia.
  - apply (Ha p Hp Hr). by left.
Qed.
Lemma job_b_spec pkgs inst k j : job_b pkgs k j = true → job_ok pkgs inst (λ p, p ∈ k) j.
Proof.
  unfold job_b, job_ok. destruct (j_req j) as [r|]; [|done]. destruct (j_kind j); [|intros H q Hq Hr| |intros H q Hq|]; try done.
  - intros (q & Hq & Hr%req_b_spec)%any_spec. eauto.
  - pose proof (all_spec _ _ H q Hq) as H1. cbn beta in H1. apply req_b_spec in Hr. rewrite Hr in H1. done.
  - intros (q & Hq & Hr%req_b_spec)%any_spec. eauto.
  - assert (q ∈ pkgs ∧ req_meets r q) as [Hin Hr]. { destruct Hq as (l1 & l2 & -> & Hr & _). split; [set_solver|done]. }
    pose proof (all_spec _ _ H q Hin) as H1. cbn beta in H1. pose proof Hr as Hr'%req_b_spec. rewrite Hr' in H1. cbn in H1.
    apply orb_true_iff in H1 as [(p & Hp & [Hpr%req_b_spec Hv%vlt_b_spec]%andb_true_iff)%any_spec|H1%bool_decide_eq_true]; [|done].
    by destruct (hard_newest _ _ _ _ _ Hq Hp Hpr).
Qed.
Definition valid_b (pkgs : list package) (m : modifiers) (jobs : list job) (k : list package) : bool :=
  all k (λ p, bool_decide (p ∈ pkgs)) && forallb (job_b pkgs k) jobs && closed_b m k && names_b k && conflicts_b k.
Lemma valid_b_spec pkgs inst m jobs k : valid_b pkgs m jobs k = true → valid pkgs inst m jobs (λ p, p ∈ k).
Proof.
  unfold valid_b. rewrite !andb_true_iff. intros ((((H1 & H2) & H3) & H4) & H5). split.
  - intros p Hp. eapply bool_decide_eq_true, (all_spec _ _ H1 p Hp).
  - intros j Hj. rewrite forallb_forall in H2. apply job_b_spec, H2. by apply elem_of_list_In.
  - by apply closed_b_spec.
  - by apply names_b_spec.
  - by apply conflicts_b_spec.
Qed.

(** ** Assumptions on the metadata *)
Definition single_b (l : list package) : bool :=
  all l (λ p, all l (λ q, bool_decide (p_name p = p_name q) || forallb (λ n, negb (provides_b q n)) (p_name p :: (p_provides p).*1))).
Lemma single_b_spec l : single_b l = true → single_names l.
Proof.
  intros H p q n Hp Hq Hpn Hqn. pose proof (all_spec _ _ (all_spec _ _ H p Hp) q Hq) as H1. cbn beta in H1.
  apply orb_true_iff in H1 as [H1%bool_decide_eq_true|H1]; [done|]. rewrite forallb_forall in H1.
  apply provides_b_spec in Hpn, Hqn. apply bool_decide_eq_true, elem_of_list_In in Hpn. apply H1 in Hpn. by rewrite Hqn in Hpn.
Qed.
Definition same_b (l inst : list package) : bool :=
  all inst (λ p, all l (λ q, negb (bool_decide (p_name p = p_name q ∧ p_version p = p_version q)) ||
    bool_decide (p_requires p = p_requires q ∧ p_conflicts p = p_conflicts q ∧ p_provides p = p_provides q))).
Lemma same_b_spec l inst : same_b l inst = true → same_metadata l inst.
Proof.
  intros H p q Hp Hq Hn Hv. pose proof (all_spec _ _ (all_spec _ _ H p Hp) q Hq) as H1. cbn beta in H1.
  apply orb_true_iff in H1 as [H1%negb_true_iff%bool_decide_eq_false|H1%bool_decide_eq_true]; [|done]. tauto.
Qed.
Definition ranked_b (rank : package → nat) (l : list package) (m : modifiers) : bool :=
  all l (λ p, all l (λ q, eqp q p || negb (existsb (λ d, dep_b m d q) (p_requires p)) || bool_decide (rank q < rank p)%nat)).
Lemma ranked_b_spec rank l m : ranked_b rank l m = true → acyclic l m.
Proof.
  intros H. assert (Hr : ∀ p q, depends l m p q → (rank q < rank p)%nat).
  { intros p q (Hp & Hq & Hne & d & Hd & Hm). pose proof (all_spec _ _ (all_spec _ _ H p Hp) q Hq) as H1. cbn beta in H1.
    rewrite !orb_true_iff in H1. destruct H1 as [[H1%bool_decide_eq_true|H1%negb_true_iff]|H1%bool_decide_eq_true]; [done| |done].
    assert (existsb (λ d, dep_b m d q) (p_requires p) = true); [|congruence].
    apply existsb_exists. exists d. split; [by apply elem_of_list_In|]. by apply dep_b_spec. }
  assert (Ht : ∀ p q, tc (depends l m) p q → (rank q < rank p)%nat).
  { intros p q Hpq. induction Hpq as [p q Hpq|p q r Hpq _ IH]; [auto|]. apply Hr in Hpq. lia. }
  intros p Hp%Ht. lia.
Qed.
Definition plain_b (d : cdep) : bool := (length d.2 <=? 1)%nat.
Definition interp_b (m : modifiers) (p : package) : bool :=
  forallb plain_b (p_requires p) && forallb (λ d, plain_b d && (bool_decide (d.2 = []) || bool_decide (d.1 ∉ targets m))) (p_conflicts p).
Lemma interp_b_spec m l : all l (interp_b m) = true → ∀ p, p ∈ l → interpretable m p.
Proof.
  intros H p Hp. apply (all_spec _ _ H) in Hp. unfold interp_b in Hp. rewrite andb_true_iff, !forallb_forall in Hp. destruct Hp as [H1 H2]. split.
  - intros d Hd%elem_of_list_In. by apply Nat.leb_le, H1.
  - intros d Hd%elem_of_list_In. destruct (proj1 (andb_true_iff _ _) (H2 d Hd)) as [H3 H4]. split; [by apply Nat.leb_le|].
    apply orb_true_iff in H4 as [H4%bool_decide_eq_true|H4%bool_decide_eq_true]; auto.
Qed.
Definition cand_b (l : list package) (j : job) : bool :=
  match j_kind j, j_req j with
  | JUpgrade, _ | _, None => false
  | _, Some r => any l (req_b r)
  end.
Lemma cand_b_spec l js : forallb (cand_b l) js = true → ∀ j, j ∈ js → has_candidate l j.
Proof.
  intros H j Hj%elem_of_list_In. rewrite forallb_forall in H. apply H in Hj. unfold cand_b in Hj. unfold has_candidate.
  destruct (j_kind j); try done; (destruct (j_req j) as [r|]; [|done]); (split; [done|]); exists r; (split; [done|]);
    apply any_spec in Hj as (p & Hp & Hr%req_b_spec); eauto.
Qed.
Definition removes_b (pkgs inst : list package) (js : list job) : bool :=
  forallb (λ j, match j_kind j, j_req j with
    | JRemove, Some r => any inst (λ p, provides_b p (r_name r)) ||
        all pkgs (λ p, all pkgs (λ q, negb (req_b r p) || negb (bool_decide (p_name q = p_name p)) || req_b r q))
    | _, _ => true end) js.
Lemma removes_b_spec pkgs inst js : removes_b pkgs inst js = true → removes_known pkgs inst js.
Proof.
  intros H j r Hj%elem_of_list_In Hk Hr. unfold removes_b in H. rewrite forallb_forall in H. apply H in Hj. rewrite Hk, Hr in Hj.
  apply orb_true_iff in Hj as [Hj|Hj]; [left; apply any_spec in Hj as (p & Hp & Hn%provides_b_spec); eauto|right].
  intros p q Hp Hq Hm Hn. assert (Hx := all_spec _ _ (all_spec _ _ Hj p Hp) q Hq). cbn beta in Hx.
  apply req_b_spec in Hm. rewrite Hm, bool_decide_true in Hx by done. by apply req_b_spec.
Qed.

(** ** A solver set up from repositories, and a run of it. *)
Definition env0 : env := Env (λ _ X, elements X) (λ l, l).
Lemma env0_ok : env_ok env0.
Proof. split; [intros n X|intros l]; reflexivity. Qed.
Definition pool0 (repos : list (list package)) : pool :=
  match pool_of repos None with Ok po => po | _ => pool_empty None end.
Definition ds0 (repos remote : list (list package)) (inst : list package) (pruning strict : bool) : dep_solver :=
  DepSolver (pool0 repos) remote inst pruning strict.
Definition setting_b (repos : list (list package)) (inst : list package) : bool :=
  is_ok (pool_of repos None) && all inst (λ p, bool_decide (p ∈ mjoin repos)) &&
  (bool_decide (NoDup (pkg_key <$> mjoin repos)) && forallb readable_b (mjoin repos)).
Lemma setting_b_spec repos remote inst pr st : setting_b repos inst = true → setting repos (ds0 repos remote inst pr st).
Proof.
  unfold setting_b. rewrite !andb_true_iff. intros [[H1 H2] H3]. split.
  - exists None. cbn. unfold pool0. destruct (pool_of repos None); done.
  - cbn. intros p Hp. eapply bool_decide_eq_true, (all_spec _ _ H2 p Hp).
  - by apply well_formed_check, andb_true_iff.
Qed.
Definition plain_request (rq : request) : bool := forallb (λ j, bool_decide (j_kind j ≠ JUpgrade)) (rq_jobs rq).
Lemma plain_asks ds rq : plain_request rq = true → asks ds rq (rq_jobs rq).
Proof. intros H. left. split; [|done]. unfold plain_request in H. rewrite forallb_forall in H. intros j Hj%elem_of_list_In. by eapply bool_decide_eq_true, H. Qed.
(** The operations of a successful run. *)
Definition ran (r : res (out transaction)) (ops : list operation) : bool :=
  match r with Ok (Normal t) => bool_decide (t_ops t = ops) | _ => false end.
Lemma ran_spec r ops : ran r ops = true → ∃ t, r = Ok (Normal t) ∧ t_ops t = ops.
Proof. unfold ran. destruct r as [[t|]|]; try done. intros ?%bool_decide_eq_true. eauto. Qed.
Definition raised (r : res (out transaction)) (x : exn) : bool :=
  match r with Raise y => bool_decide (y = x) | _ => false end.
Lemma raised_spec r x : raised r x = true → r = Raise x.
Proof. unfold raised. destruct r; [done|]. by intros ->%bool_decide_eq_true. Qed.
(** What is present after the operations, as a list. *)
Definition after_l (inst : list package) (ops : list operation) : list package :=
  filter (λ p, RemoveOp p ∉ ops) inst ++ omap (λ o, match o with InstallOp p => Some p | _ => None end) ops.
Lemma after_l_spec inst ops p : p ∈ after_l inst ops ↔ after inst ops p.
Proof.
  unfold after_l, after. rewrite elem_of_app, elem_of_list_filter, elem_of_list_omap. split.
  - intros [[? ?]|([o|o|o o'] & Ho & E)]; [by left|injection E as ->; by right|done|done].
  - intros [[? ?]|Ho]; [by left|right]. by exists (InstallOp p).
Qed.
