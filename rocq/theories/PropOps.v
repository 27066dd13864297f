(** * Properties C27, C28, C50 at the level of solve: the operations of the returned transaction. *)
From Verif Require Import PoolProofs PropPool PropConstraints SpecSat ConstraintProofs PropRules SatLearn RepositoryProofs PrettyProofs PropTrans.
From Verif Require Export PropSolve.

Section ops.
  Context (e : env) (He : env_ok e) (repos : list (list package)) (ds : dep_solver) (Hset : setting repos ds).
  Context (fuel : nat) (rq : request) (jobs : list job) (Hask : asks ds rq jobs).
  Context (t : transaction) (Hsolve : solve e ds fuel rq = Ok (Normal t)).
  (** Removals of installed packages, then installations of packages that are not installed; nothing twice. *)
  Lemma solve_ops : ∃ rem ins, t_ops t = (RemoveOp <$> rem) ++ (InstallOp <$> ins) ∧ NoDup rem ∧ NoDup ins ∧
    (∀ p, p ∈ rem → p ∈ ds_installed ds) ∧
    (∀ p, p ∈ ins → p ∈ mjoin repos ∧ p ∉ ds_installed ds ∧
       ∀ q, q ∈ ds_installed ds → ¬ (p_name q = p_name p ∧ p_version q = p_version p)) ∧
    (∀ p q d, p ∈ ins → q ∈ ins → q ≠ p → d ∈ p_requires p → dep_meets (rq_mods rq) d q → bef ins q p) ∧
    (∀ p q d, p ∈ rem → q ∈ rem → q ≠ p → d ∈ p_requires p → dep_meets (rq_mods rq) d q → bef rem p q) ∧
    ∃ po, pool_rep po (mjoin repos) ∧ pretty_operations po (t_ops t) = Ok (t_pretty t).
  Proof.
    assert (Hf := solve_found _ He _ _ Hset _ _ _ Hask _ Hsolve). open_found Hf.
    exists rem, ins. pose proof OK as [E1 E2 E3 E4 E5 E6 E7].
    split; [done|]. split; [done|]. split; [done|]. split.
    { intros p Hp. apply (removed_val e He po _ R (sv_keys _ _ Hset) _ (sv_installed _ _ Hset) _ _ _ D _ _ _ OK p).
      rewrite E1, elem_of_app, !elem_of_list_fmap. eauto. }
    split.
    { intros p Hp. destruct (install_val e He po _ R (sv_keys _ _ Hset) _ (sv_installed _ _ Hset) _ _ _ D _ _ _ OK p) as (Hl & Hn & _).
      { rewrite E1, elem_of_app, !elem_of_list_fmap. eauto. }
      split; [done|]. split; [done|]. intros q Hq Ht. apply E5 in Hp as (_ & _ & Hfr).
      apply (fresh_iff e He po _ R (sv_keys _ _ Hset) _ (sv_installed _ _ Hset)) in Hfr. apply Hfr. exists q. split; [done|]. exact Ht. }
    split; [intros p q d Hp Hq Hne Hd Hmt; apply (E6 p q d Hp Hq Hne Hd); by apply (dep_meets_mods _ _ Hm)|].
    split; [intros p q d Hp Hq Hne Hd Hmt; apply (E7 p q d Hp Hq Hne Hd); by apply (dep_meets_mods _ _ Hm)|].
    exists po. split; [done|exact Hpretty].
  Qed.
End ops.

(** ** C27 *)
(** All removals come first; only installed packages are removed, only packages of the pool that are not
    installed, also not as the same release from elsewhere, are installed; nothing occurs twice. *)
Theorem C27_solve : ∀ e repos ds fuel rq jobs t, env_ok e → setting repos ds → asks ds rq jobs →
  solve e ds fuel rq = Ok (Normal t) →
  NoDup (t_ops t) ∧ NoDup (op_package <$> t_ops t) ∧
  (∀ o, o ∈ t_ops t →
     (∃ p, o = RemoveOp p ∧ p ∈ ds_installed ds) ∨
     (∃ p, o = InstallOp p ∧ p ∈ mjoin repos ∧ p ∉ ds_installed ds ∧
        ∀ q, q ∈ ds_installed ds → ¬ (p_name q = p_name p ∧ p_version q = p_version p))) ∧
  (∀ p q, RemoveOp p ∈ t_ops t → InstallOp q ∈ t_ops t → bef (t_ops t) (RemoveOp p) (InstallOp q)).
Proof.
  intros e repos ds fuel rq jobs t He Hset Hask H.
  destruct (solve_ops e He repos ds Hset fuel rq jobs Hask t H) as (rem & ins & E & N1 & N2 & Hr & Hi & _ & _ & _).
  assert (Hp : NoDup (op_package <$> t_ops t)).
  { rewrite E, fmap_app, <-!list_fmap_compose. rewrite (list_fmap_ext _ id rem), (list_fmap_ext _ id ins) by done. rewrite !list_fmap_id.
    apply NoDup_app. split; [done|]. split; [|done]. intros p Hpr%Hr Hpi%Hi. tauto. }
  split; [by eapply NoDup_fmap_1|]. split; [done|]. rewrite E. split.
  - intros o. rewrite elem_of_app, !elem_of_list_fmap. intros [(p & -> & Hx)|(p & -> & Hx)]; [left|right]; exists p; auto.
  - intros p q. rewrite !elem_of_app, !elem_of_list_fmap. intros [(x & [= ->] & Hx)|(x & [=] & _)] [(y & [=] & _)|(y & [= ->] & Hy)].
    apply bef_app; apply elem_of_list_fmap; eauto.
Qed.

(** ** C28 *)
Theorem C28_solve : ∀ e repos ds fuel rq jobs t p q d, env_ok e → setting repos ds → asks ds rq jobs →
  solve e ds fuel rq = Ok (Normal t) → q ≠ p → d ∈ p_requires p → dep_meets (rq_mods rq) d q →
  (InstallOp p ∈ t_ops t → InstallOp q ∈ t_ops t → bef (t_ops t) (InstallOp q) (InstallOp p)) ∧
  (RemoveOp p ∈ t_ops t → RemoveOp q ∈ t_ops t → bef (t_ops t) (RemoveOp p) (RemoveOp q)).
Proof.
  intros e repos ds fuel rq jobs t p q d He Hset Hask H Hne Hd Hm.
  destruct (solve_ops e He repos ds Hset fuel rq jobs Hask t H) as (rem & ins & E & N1 & N2 & Hr & Hi & Oi & Or & _).
  rewrite E. split; rewrite !elem_of_app, !elem_of_list_fmap.
  - intros [(x & [=] & _)|(x & [= ->] & Hx)] [(y & [=] & _)|(y & [= ->] & Hy)]. apply bef_app_r, bef_fmap. by eapply Oi.
  - intros [(x & [= ->] & Hx)|(x & [=] & _)] [(y & [= ->] & Hy)|(y & [=] & _)]. apply bef_app_l, bef_fmap. by eapply Or.
Qed.

Lemma NoDup_mid {A} (x : A) k1 k2 l1 l2 : NoDup (l1 ++ x :: l2) → l1 ++ x :: l2 = k1 ++ x :: k2 → l1 = k1.
Proof.
  revert k1. induction l1 as [|y l1 IH]; intros [|z k1] Hn E; cbn in *; [done| | |].
  - injection E as -> ->. apply NoDup_cons in Hn as [Hn _]. set_solver.
  - injection E as -> <-. apply NoDup_cons in Hn as [Hn _]. set_solver.
  - injection E as -> E. f_equal. apply (IH k1); [by apply NoDup_cons in Hn as [_ ?]|done].
Qed.
(** When the operations are carried out one by one, all dependencies of each package are present at
    the moment it is installed. *)
Theorem C28_dependencies_first : ∀ e repos ds fuel rq jobs t done p later d, env_ok e → setting repos ds → asks ds rq jobs →
  ds_pruning ds = true → single_names (mjoin repos) → same_metadata (mjoin repos) (ds_installed ds) →
  removes_known (mjoin repos) (ds_installed ds) jobs →
  solve e ds fuel rq = Ok (Normal t) →
  t_ops t = done ++ InstallOp p :: later → d ∈ p_requires p →
  ∃ q, after (ds_installed ds) done q ∧ q ≠ p ∧ dep_meets (rq_mods rq) d q.
Proof.
  intros e repos ds fuel rq jobs t o1 p o2 d He Hset Hask Hpr H1 H3 H2 H E Hd.
  assert (V := C16_valid e repos ds fuel rq jobs t He Hset Hask Hpr H1 H3 H2 H).
  assert (Hin : InstallOp p ∈ t_ops t) by (rewrite E; set_solver).
  destruct (va_closed _ _ _ _ _ V p d) as (q & Hq & Hne & Hm); [by right|done|].
  exists q. split; [|done]. destruct Hq as [[Hq Hnr]|Hq].
  - left. split; [done|]. rewrite E in Hnr. set_solver.
  - right. destruct (C28_solve e repos ds fuel rq jobs t p q d He Hset Hask H Hne Hd Hm) as [O _].
    destruct (C27_solve e repos ds fuel rq jobs t He Hset Hask H) as [Hn _].
    destruct (O Hin Hq) as (k1 & k2 & k3 & Ek).
    assert (o1 = k1 ++ InstallOp q :: k2) as ->; [|set_solver].
    eapply NoDup_mid; [rewrite <-E; exact Hn|]. rewrite <-E, Ek, <-app_assoc. done.
Qed.

(** ** C50 *)
(** Under the conditions of C16, and with one installed version of each name, the pretty operations pair
    the removal and the installation of a name and list everything else as it is. *)
Theorem C50_solve : ∀ e repos ds fuel rq jobs t, env_ok e → setting repos ds → asks ds rq jobs →
  ds_pruning ds = true → single_names (mjoin repos) → same_metadata (mjoin repos) (ds_installed ds) →
  removes_known (mjoin repos) (ds_installed ds) jobs → one_version (λ p, p ∈ ds_installed ds) →
  solve e ds fuel rq = Ok (Normal t) →
  NoDup (op_package <$> t_pretty t) ∧
  (∀ p, InstallOp p ∈ t_pretty t ↔ InstallOp p ∈ t_ops t ∧ ∀ q, RemoveOp q ∈ t_ops t → p_name q ≠ p_name p) ∧
  (∀ p, RemoveOp p ∈ t_pretty t ↔ RemoveOp p ∈ t_ops t ∧ ∀ q, InstallOp q ∈ t_ops t → p_name q ≠ p_name p) ∧
  (∀ p q, UpdateOp p q ∈ t_pretty t ↔ InstallOp p ∈ t_ops t ∧ RemoveOp q ∈ t_ops t ∧ p_name q = p_name p).
Proof.
  intros e repos ds fuel rq jobs t He Hset Hask Hpr H1 H3 H2 Hone H.
  assert (V := C16_valid e repos ds fuel rq jobs t He Hset Hask Hpr H1 H3 H2 H).
  destruct (solve_ops e He repos ds Hset fuel rq jobs Hask t H) as (rem & ins & E & N1 & N2 & Hr & Hi & _ & _ & po & R & Hpretty).
  assert (Hri : ∀ x, InstallOp x ∈ t_ops t ↔ x ∈ ins).
  { intros x. rewrite E, elem_of_app, !elem_of_list_fmap. split; [|eauto]. intros [(y & [=] & _)|(y & [= ->] & ?)]. done. }
  assert (Hrr : ∀ x, RemoveOp x ∈ t_ops t ↔ x ∈ rem).
  { intros x. rewrite E, elem_of_app, !elem_of_list_fmap. split; [|eauto]. intros [(y & [= ->] & ?)|(y & [=] & _)]. done. }
  destruct (pretty_spec po (mjoin repos) R (sv_keys _ _ Hset)) with (rem := rem) (ins := ins) as (pretty & Hp & P1 & P2 & P3 & P4).
  - intros p q Hp Hq Hpn. apply (H1 q p (p_name p)); [done|done|done|by left].
  - intros p [Hp|Hp]%elem_of_app; [by apply (sv_installed _ _ Hset), Hr|by apply Hi].
  - apply NoDup_app. split; [done|]. split; [|done]. intros p Hpr'%Hr Hpi%Hi. tauto.
  - intros p q Hp%Hr Hq%Hr. by apply Hone.
  - intros p q Hp Hq Hn. apply (va_names _ _ _ _ _ V); [right; by apply Hri|right; by apply Hri|done].
  - rewrite E, Hp in Hpretty. injection Hpretty as <-. split; [done|]. split; [|split].
    + intros p. rewrite P2, Hri. by setoid_rewrite Hrr.
    + intros p. rewrite P3, Hrr. by setoid_rewrite Hri.
    + intros p q. by rewrite P4, Hri, Hrr.
Qed.
Print Assumptions C27_solve.
Print Assumptions C28_solve.
Print Assumptions C28_dependencies_first.
Print Assumptions C50_solve.
