(** * Two pools that differ in packages nobody speaks of: every function of the dependency solver gives the same. *)
From Verif Require Import PoolProofs PropPool PropConstraints SpecSat ConstraintProofs PropRules SatLearn RepositoryProofs PolicyProofs ReqProofs.
From Verif Require Export SolveMain SatAgree.

(** The names a package's metadata refers to. *)
Definition speaks_of (p : package) (n : string) : Prop :=
  n = p_name p ∨ ∃ d, (d ∈ p_requires p ∨ d ∈ p_conflicts p) ∧ d.1 = n.

(** Two computations have the same outcome, and a result of it has the property [I]. *)
Definition both {A} (I : A → Prop) (c c' : res A) : Prop := c = c' ∧ ∀ a, c = Ok a → I a.
Lemma both_bind {A B} (I : A → Prop) (J : B → Prop) c c' (f f' : A → res B) :
  both I c c' → (∀ a, I a → both J (f a) (f' a)) → both J (c ≫= f) (c' ≫= f').
Proof. intros [<- H] Hf. destruct c as [a|x]; [|split; [done|intros b [=]]]. rewrite !res_bind_ok. by apply Hf, H. Qed.
Lemma both_ok {A} (I : A → Prop) a : I a → both I (Ok a) (Ok a).
Proof. intros H. split; [done|by intros b [= <-]]. Qed.
Lemma both_raise {A} (I : A → Prop) x : both I (Raise x) (Raise x).
Proof. split; [done|intros b [=]]. Qed.
Lemma both_refl {A} (c : res A) : both (λ _, True) c c.
Proof. by split. Qed.
Lemma both_eq {A} (I : A → Prop) (c c' : res A) : both I c c' → c = c'.
Proof. by intros [H _]. Qed.
Lemma both_mono {A} (I J : A → Prop) (c c' : res A) : (∀ a, I a → J a) → both I c c' → both J c c'.
Proof. intros H [E HI]. split; [done|]. intros a Ha. by apply H, HI. Qed.
Lemma both_foldM {A B} (I : B → Prop) (f f' : B → A → res B) xs : (∀ b x, x ∈ xs → I b → both I (f b x) (f' b x)) →
  ∀ b, I b → both I (foldM f xs b) (foldM f' xs b).
Proof.
  induction xs as [|x xs IH]; intros H b Hb; [by apply both_ok|]. cbn [foldM].
  eapply both_bind; [apply H; [left|done]|]. intros b' Hb'. apply IH; [|done]. intros b0 y Hy. apply H. by right.
Qed.
Lemma both_mapM {A B} (I : B → Prop) (f f' : A → res B) xs : (∀ x, x ∈ xs → both I (f x) (f' x)) →
  both (λ ys, ∀ y, y ∈ ys → I y) (mapM_res f xs) (mapM_res f' xs).
Proof.
  induction xs as [|x xs IH]; intros H; [apply both_ok; intros y Hy; by apply elem_of_nil in Hy|]. cbn [mapM_res].
  eapply both_bind; [apply H; left|]. intros y Hy. eapply both_bind; [apply IH; intros z Hz; apply H; by right|].
  intros ys Hys. apply both_ok. intros z [->|Hz]%elem_of_cons; [done|by apply Hys].
Qed.

(** ** The policy *)
Lemma max_from_same ver ver' xs : (∀ y, y ∈ xs → ver y = ver' y) → ∀ b bv, max_from ver xs b bv = max_from ver' xs b bv.
Proof.
  induction xs as [|z xs IH]; intros H b bv; [done|]. cbn. rewrite <-(H z) by left.
  destruct (ver z) as [v|]; [|done]. cbn. rewrite !IH by (intros y Hy; apply H; by right). done.
Qed.
Lemma max_by_version_same ver ver' xs : (∀ y, y ∈ xs → ver y = ver' y) → max_by_version ver xs = max_by_version ver' xs.
Proof.
  intros H. destruct xs as [|z xs]; [done|]. cbn. rewrite <-(H z) by left. destruct (ver z) as [v|]; [|done]. cbn.
  by rewrite (max_from_same ver ver') by (intros y Hy; apply H; by right).
Qed.
Section policy.
  Context (env env' : uc_env) (Known : Z → Prop).
  Context (Eo : uc_order env = uc_order env') (Ep : uc_prefer env = uc_prefer env') (Hv : ∀ v, Known v → uc_version env v = uc_version env' v).
  Context (Ho : ∀ n X, uc_order env n X ≡ₚ elements X) (Hpr : ∀ v, v ∈ uc_prefer env → Known v).
  Lemma best_candidate_same n (ids : gset Z) a : (∀ v, v ∈ ids → Known v) → best_candidate env n ids a = best_candidate env' n ids a.
  Proof.
    intros H. unfold best_candidate. rewrite <-Eo. rewrite (max_by_version_same (uc_version env) (uc_version env')); [done|].
    intros y Hy. apply Hv, H. rewrite Ho in Hy. set_solver.
  Qed.
  Lemma refresh_same a cls p : refresh env a cls p = refresh env' a cls p.
  Proof. unfold refresh. by rewrite Ep. Qed.
  Lemma refresh_known a cls p : (∀ c k, c ∈ cls → k ∈ c → Known (Z.abs k)) →
    (∀ v, v ∈ uc_decision (refresh env a cls p).1 → Known v) ∧ (∀ v, v ∈ uc_all (refresh env a cls p).1 → Known v) ∧
    uc_requirements (refresh env a cls p).1 = uc_requirements p.
  Proof.
    intros H. unfold refresh. destruct (consume_changelog a) as [ch a']. cbn.
    assert (G : ∀ v (cls' : list (list Z)), (∀ c, c ∈ cls' → c ∈ cls) → v ∈ Z.abs <$> mjoin cls' → Known v).
    { intros v cls' Hs (k & -> & (c & Hk & Hc)%elem_of_list_join)%elem_of_list_fmap. eapply H; [by apply Hs|done]. }
    split; [|split; [|done]].
    - intros v [Hv1 _]%elem_of_difference. apply elem_of_list_to_set in Hv1. eapply G; [|exact Hv1]. by intros c [_ Hc]%elem_of_list_filter.
    - intros v [Hv1|Hv1]%elem_of_union; apply elem_of_list_to_set in Hv1; [by eapply G|by apply Hpr].
  Qed.
  Lemma uc_policy_same p a cls : (∀ c k, c ∈ cls → k ∈ c → Known (Z.abs k)) → (∀ v, v ∈ uc_requirements p → Known v) →
    (∀ v, v ∈ uc_decision p → Known v) → uc_policy env p a cls = uc_policy env' p a cls.
  Proof.
    intros Hc Hr Hd. unfold uc_policy. rewrite <-!refresh_same.
    set (X := if decide (a_new a = ∅) then (p, a) else refresh env a cls p).
    assert (HX : (∀ v, v ∈ uc_requirements X.1 → Known v) ∧ (∀ v, v ∈ uc_decision X.1 → Known v)).
    { unfold X. case_decide; [done|]. destruct (refresh_known a cls p Hc) as (H1 & H2 & H3). split; [by rewrite H3|done]. }
    clearbody X. destruct X as [p1 a1]. cbn [fst] in HX. destruct HX as [Hr1 Hd1].
    assert (best_sorted env a1 = best_sorted env' a1) as <- by (unfold best_sorted; by rewrite Ep).
    destruct (best_sorted env a1) as [v|]; [done|].
    rewrite <-(best_candidate_same (uc_clock p1) (uc_requirements p1) a1 Hr1).
    destruct (best_candidate env (uc_clock p1) (uc_requirements p1) a1) as [[c un]|ex]; [|done]. rewrite !res_bind_ok.
    destruct c as [v|]; [done|].
    rewrite <-(best_candidate_same (uc_clock (tick p1)) (uc_decision (tick p1)) a1 Hd1).
    destruct (best_candidate env (uc_clock (tick p1)) (uc_decision (tick p1)) a1) as [[c un2]|ex]; [|done]. rewrite !res_bind_ok.
    destruct c as [v|]; [done|].
    destruct (refresh_known a1 cls (set_decision un2 (tick (tick p1))) Hc) as (H1 & H2 & _). rewrite <-refresh_same.
    destruct (refresh env a1 cls (set_decision un2 (tick (tick p1)))) as [p5 a5]. cbn [fst] in H1, H2.
    rewrite <-(best_candidate_same (uc_clock p5) (uc_decision p5) a5 H1).
    destruct (best_candidate env (uc_clock p5) (uc_decision p5) a5) as [[c un3]|ex]; [|done]. rewrite !res_bind_ok.
    destruct c as [v|]; [done|].
    by rewrite <-(best_candidate_same (uc_clock (tick p5)) (uc_all (tick p5)) a5 H2).
  Qed.
  Lemma logged_same q a cls : (∀ c k, c ∈ cls → k ∈ c → Known (Z.abs k)) → (∀ v, v ∈ uc_requirements q.1.1 → Known v) →
    (∀ v, v ∈ uc_decision q.1.1 → Known v) → logged_policy (uc_policy env) q a cls = logged_policy (uc_policy env') q a cls.
  Proof.
    intros Hc Hr Hd. unfold logged_policy. destruct q as [[q s] ch]. destruct (get_changelog a) as [c a'].
    by rewrite (uc_policy_same q a' cls).
  Qed.
End policy.

Section pools.
  Context (po po' : pool) (l x : list package) (R : pool_rep po l) (R' : pool_rep po' (l ++ x)) (Em : po_mods po' = po_mods po).
  Context (Hinj : well_formed l).
  Context (K : package → Prop) (Nm : string → Prop).
  Context (HKl : ∀ p, K p → p ∈ l) (HKn : ∀ p n, K p → speaks_of p n → Nm n)
    (HNx : ∀ n q, Nm n → q ∈ x → ¬ provides q n) (HNK : ∀ n q, Nm n → q ∈ l → provides q n → K q).
  Local Notation pid := (pid po).
  Definition Kid (i : Z) : Prop := ∃ p, K p ∧ i = pid p.

  Lemma by_name_same n : Nm n → by_name (l ++ x) n = by_name l n.
  Proof.
    intros Hn. rewrite by_name_app. destruct (by_name x n) as [|q k] eqn:E; [by rewrite app_nil_r|].
    exfalso. assert (H : q ∈ by_name x n) by (rewrite E; left). apply elem_of_by_name in H as [Hq Hp]. by apply (HNx n q).
  Qed.
  Lemma what_provides_both r b : Nm (r_name r) → both (λ ps, ∀ p, p ∈ ps → K p) (what_provides po r b) (what_provides po' r b).
  Proof.
    intros Hn. split.
    - rewrite (rep_what_provides _ _ R), (rep_what_provides _ _ R'), by_name_same by done. unfold pool_modify. by rewrite Em.
    - intros ps H p Hp. apply (rep_what_provides_elem _ _ R _ _ _ _ H) in Hp as (Hl & Hpr & _). by eapply HNK.
  Qed.
  Lemma package_id_both p : K p → both Kid (package_id po p) (package_id po' p).
  Proof.
    intros Hp. rewrite (pid_ok po l R p) by auto. split; [|intros i [= <-]; by exists p].
    symmetry. apply (rep_package_id _ _ R'). pose proof (pid_ok po l R p (HKl p Hp)) as H. apply (rep_package_id _ _ R) in H.
    destruct H as (k & q & Ei & Hk & Hkey & Hlast). exists k, q. split; [done|].
    split; [by apply lookup_app_l_Some|]. split; [done|]. intros k' q' Hlt Hk'.
    apply lookup_app_Some in Hk' as [Hk'|[_ Hk']]; [by apply (Hlast k')|].
    intros E. apply (HNx (p_name p) q'); [apply (HKn p); [done|by left]|by eapply elem_of_list_lookup_2|].
    left. unfold pkg_key in E. by injection E.
  Qed.
  Lemma pid_same p : K p → RulesProofs.pid po' p = pid p.
  Proof. intros Hp. unfold RulesProofs.pid. by destruct (package_id_both p Hp) as [<- _]. Qed.
  Lemma ids_both ps : (∀ p, p ∈ ps → K p) → both (λ is, ∀ i, i ∈ is → Kid i) (mapM_res (package_id po) ps) (mapM_res (package_id po') ps).
  Proof. intros H. apply both_mapM. intros p Hp. by apply package_id_both, H. Qed.
  Lemma id_to_package_both i : Kid i → both K (id_to_package po i) (id_to_package po' i).
  Proof.
    intros (p & Hp & ->). assert (H := pid_package po l R Hinj p (HKl p Hp)). rewrite H. split; [|by intros a [= <-]].
    symmetry. apply (rep_id_to_package _ _ R') . apply (rep_id_to_package _ _ R) in H as [H1 H2]. split; [done|]. by apply lookup_app_l_Some.
  Qed.
  Lemma version_same i : Kid i → pkg_id_to_version po i = pkg_id_to_version po' i ∧ is_Some (pkg_id_to_version po i).
  Proof.
    intros Hi. destruct (id_to_package_both i Hi) as [E _]. destruct Hi as (p & Hp & ->).
    rewrite (pid_package po l R Hinj p (HKl p Hp)) in E. unfold pkg_id_to_version. unfold id_to_package in E.
    destruct (zdict_get (po_i2p po') (pid p)) as [q|]; [|discriminate E]. injection E as ->.
    pose proof (version_pid po l R Hinj q (HKl q Hp)) as Hv. unfold pkg_id_to_version in Hv. rewrite Hv. cbn. eauto.
  Qed.
  Lemma name_requirement_name cls n r : name_requirement cls n = Ok r → dist_name (of_s n) → r_name r = n.
  Proof. intros E H. rewrite (name_requirement_ok cls n H) in E. by injection E as <-. Qed.

  (** ** Rules *)
  Definition rule_ok (r : rule) : Prop := ∀ y, y ∈ ru_lits r → Kid (Z.abs y).
  Definition RI (st : gst) : Prop := ∀ r, r ∈ g_rules st → rule_ok r.
  Lemma Kid_abs i : Kid i → Kid (Z.abs i) ∧ Kid (Z.abs (- i)).
  Proof. intros H. rewrite Z.abs_opp. assert (Z.abs i = i) as ->; [|done]. destruct H as (p & Hp & ->). pose proof (pid_pos po l R p (HKl p Hp)). lia. Qed.
  Lemma mk_rule_ok ls t c : (∀ y, y ∈ ls → Kid (Z.abs y)) → rule_ok (mk_rule ls t c).
  Proof. intros H y Hy. apply H. unfold mk_rule in Hy. cbn in Hy. by rewrite elem_of_sort_Z in Hy. Qed.
  Lemma add_rule_RI st r : RI st → rule_ok r → RI (add_rule st r).
  Proof.
    intros H Hr. unfold add_rule. destruct (existsb _ _); [done|]. intros r' [Hr'| ->%elem_of_list_singleton]%elem_of_app; [by apply H|done].
  Qed.
  Section gen.
    Context (iids : list (Z * package)) (strict : bool) (Hii : ∀ ip, ip ∈ iids → K ip.2).
    Local Notation work := (package * option (list requirement))%type.
    Lemma dependency_rule_both p ps c : K p → (∀ q, q ∈ ps → K q) → both rule_ok (dependency_rule po p ps c) (dependency_rule po' p ps c).
    Proof.
      intros Hp Hps. unfold dependency_rule. eapply both_bind; [by apply package_id_both|]. intros i Hi.
      eapply both_bind; [apply ids_both; intros q [_ Hq]%elem_of_list_filter; by apply Hps|]. intros is His. apply both_ok, mk_rule_ok.
      intros y [->|Hy]%elem_of_cons; [by apply Kid_abs|by apply Kid_abs, His].
    Qed.
    Lemma remove_rule_both p t c : K p → both rule_ok (remove_rule po p t c) (remove_rule po' p t c).
    Proof.
      intros Hp. unfold remove_rule. eapply both_bind; [by apply package_id_both|]. intros i Hi. apply both_ok, mk_rule_ok.
      intros y ->%elem_of_list_singleton. by apply Kid_abs.
    Qed.
    Lemma one_of_both ps t c : (∀ q, q ∈ ps → K q) → both rule_ok (one_of_rule po ps t c) (one_of_rule po' ps t c).
    Proof.
      intros Hp. unfold one_of_rule. eapply both_bind; [by apply ids_both|]. intros is Hi. apply both_ok, mk_rule_ok.
      intros y Hy. by apply Kid_abs, Hi.
    Qed.
    Lemma requires_both p rs : K p → ∀ ds acc st, (∀ d, d ∈ ds → Nm d.1) → (∀ w, w ∈ acc → K w.1) → RI st →
      both (λ sw : gst * list work, RI sw.1 ∧ ∀ w, w ∈ sw.2 → K w.1) (requires_rules po strict p rs ds acc st) (requires_rules po' strict p rs ds acc st).
    Proof.
      intros Hp ds. induction ds as [|d ds IH]; intros acc st Hd Ha Hst; [by apply both_ok|]. cbn [requires_rules].
      destruct (from_constraints RInstall d) as [r|ex] eqn:E; [rewrite !res_bind_ok|apply both_raise].
      assert (Hr : Nm (r_name r)). { destruct (from_constraints_spec RInstall d r E) as (_ & _ & ->). apply Hd. left. }
      eapply both_bind; [by apply what_provides_both|]. intros ps Hps.
      assert (G : both (λ sw : gst * list work, RI sw.1 ∧ ∀ w, w ∈ sw.2 → K w.1)
          (ru ← dependency_rule po p ps (Rules.combine rs r); requires_rules po strict p rs ds (acc ++ ((λ q, (q, Rules.combine rs r)) <$> ps)) (add_rule st ru))
          (ru ← dependency_rule po' p ps (Rules.combine rs r); requires_rules po' strict p rs ds (acc ++ ((λ q, (q, Rules.combine rs r)) <$> ps)) (add_rule st ru))).
      { eapply both_bind; [by apply dependency_rule_both|]. intros ru Hru. apply IH.
        - intros d' Hd'. apply Hd. by right.
        - intros w [Hw|(q & -> & Hq)%elem_of_list_fmap]%elem_of_app; [by apply Ha|by apply Hps].
        - by apply add_rule_RI. }
      destruct ps as [|q qs]; [|exact G]. eapply both_bind; [apply both_refl|]. intros _ _.
      eapply both_bind; [by apply remove_rule_both|]. intros ru Hru. apply both_ok. split; [by apply add_rule_RI|].
      intros w Hw. by apply elem_of_nil in Hw.
    Qed.
    Lemma add_conflicts_both p t c qs st : K p → (∀ q, q ∈ qs → K q) → RI st →
      both RI (add_conflicts po p t c qs st) (add_conflicts po' p t c qs st).
    Proof.
      intros Hp Hqs Hst. unfold add_conflicts. apply both_foldM; [|done]. intros st0 q Hq Hst0.
      apply (both_bind (λ o, match o with Some ru => rule_ok ru | None => True end)).
      - unfold conflicts_rule. destruct (pkg_eq p q); [by apply both_ok|]. eapply both_bind; [by apply package_id_both|]. intros i Hi.
        eapply both_bind; [by apply package_id_both, Hqs|]. intros j Hj. apply both_ok, mk_rule_ok.
        intros y [->| ->%elem_of_list_singleton]%elem_of_cons; by apply Kid_abs.
      - intros [ru|] Hru; apply both_ok; [by apply add_rule_RI|done].
    Qed.
    Lemma conflicts_both p rs st : K p → RI st → both RI (conflicts_rules po strict p rs st) (conflicts_rules po' strict p rs st).
    Proof.
      intros Hp Hst. unfold conflicts_rules. apply (both_bind RI).
      - unfold same_name_rules. destruct (name_requirement RConflict (p_name p)) as [r|ex] eqn:E; [rewrite !res_bind_ok|apply both_raise].
        eapply both_bind; [apply what_provides_both|].
        { rewrite (name_requirement_name _ _ _ E); [apply (HKn p); [done|by left]|]. by apply (wf_names _ Hinj), HKl. }
        intros ps Hps. apply add_conflicts_both; [done| |done]. intros q [_ Hq]%elem_of_list_filter. by apply Hps.
      - intros st1 Hst1. unfold declared_conflicts. apply both_foldM; [|done]. intros st2 d Hd Hst2.
        destruct (from_constraints RConflict d) as [r|ex] eqn:E; [rewrite !res_bind_ok|apply both_raise].
        assert (Hr : Nm (r_name r)). { destruct (from_constraints_spec RConflict d r E) as (_ & _ & ->). apply (HKn p); [done|]. right. exists d. auto. }
        eapply both_bind; [by apply what_provides_both|]. intros ps Hps. eapply both_bind; [apply both_refl|]. intros _ _. by apply add_conflicts_both.
    Qed.
    Lemma rules_loop_both : ∀ fuel queue st, (∀ w, w ∈ queue → K w.1) → RI st →
      both RI (package_rules_loop po strict fuel queue st) (package_rules_loop po' strict fuel queue st).
    Proof.
      induction fuel as [|fuel IH]; intros [|[p rs] queue] st Hq Hst; cbn [package_rules_loop]; try by apply both_ok. { apply both_raise. }
      assert (Hp : K p) by (apply (Hq (p, rs)); left).
      eapply both_bind; [by apply package_id_both|]. intros i Hi. case_decide.
      { apply IH; [|done]. intros w Hw. apply Hq. by right. }
      eapply both_bind; [apply requires_both; [done| | |done]|].
      { intros d Hd. apply (HKn p); [done|]. right. exists d. auto. } { intros w Hw. by apply elem_of_nil in Hw. }
      intros [st1 more] [Hst1 Hmore]. cbn in Hst1, Hmore. eapply both_bind; [by apply conflicts_both|]. intros st2 Hst2.
      apply IH; [|done]. intros w [Hw|Hw]%elem_of_app; [apply Hq; by right|by apply Hmore].
    Qed.
    Lemma package_rules_both fuel p rs st : K p → RI st → both RI (package_rules po strict fuel p rs st) (package_rules po' strict fuel p rs st).
    Proof. intros Hp Hst. apply rules_loop_both; [|done]. by intros w ->%elem_of_list_singleton. Qed.
    Lemma update_lt_same p q : K p → K q → update_lt po iids p q = update_lt po' iids p q.
    Proof.
      intros Hp Hq. unfold update_lt, is_installed_id. destruct (package_id_both p Hp) as [<- _], (package_id_both q Hq) as [<- _]. done.
    Qed.
    Lemma max_first_in {A} (lt : A → A → bool) xs : ∀ y, max_first lt y xs ∈ y :: xs.
    Proof.
      induction xs as [|z xs IH]; intros y; [left|]. unfold max_first in *. cbn [foldl]. specialize (IH (if lt y z then z else y)).
      apply elem_of_cons in IH as [->|H]; [|right; by right]. destruct (lt y z); [right; left|left].
    Qed.
    Lemma job_rules_both fuel j st : (∀ r, j_req j = Some r → Nm (r_name r)) → RI st →
      both RI (job_rules po iids strict fuel j st) (job_rules po' iids strict fuel j st).
    Proof.
      intros Hj Hst. unfold job_rules.
      assert (Hin : ∀ r, j_req j = Some r → both RI (install_job_rules po iids strict fuel r st) (install_job_rules po' iids strict fuel r st)).
      { intros r Hr. unfold install_job_rules. eapply both_bind; [apply what_provides_both; auto|]. intros ps Hps.
        destruct ps as [|q qs]; [apply both_raise|]. apply (both_bind RI).
        - apply both_foldM; [|done]. intros st1 p Hp Hst1. eapply both_bind; [by apply package_id_both, Hps|]. intros i Hi.
          case_decide; [by apply both_ok|]. apply package_rules_both; [by apply Hps|done].
        - intros st1 Hst1. eapply both_bind; [by apply one_of_both|]. intros ru Hru. apply both_ok. by apply add_rule_RI. }
      assert (Hrm : ∀ r, j_req j = Some r → both RI (remove_job_rules po r st) (remove_job_rules po' r st)).
      { intros r Hr. unfold remove_job_rules. eapply both_bind; [apply what_provides_both; auto|]. intros ps Hps.
        apply both_foldM; [|done]. intros st1 p Hp Hst1. eapply both_bind; [apply remove_rule_both; by apply Hps|]. intros ru Hru. apply both_ok. by apply add_rule_RI. }
      assert (Hup : ∀ r, j_req j = Some r → both RI (update_job_rules po iids strict fuel r st) (update_job_rules po' iids strict fuel r st)).
      { intros r Hr. unfold update_job_rules. eapply both_bind; [apply what_provides_both; auto|]. intros ps Hps.
        destruct ps as [|q qs]; [by apply both_ok|]. cbn zeta.
        rewrite <-(max_first_ext (update_lt po iids) (update_lt po' iids) qs q) by (intros; apply update_lt_same; auto).
        assert (Hb : K (max_first (update_lt po iids) q qs)) by (apply Hps, max_first_in).
        eapply both_bind; [by apply package_rules_both|]. intros st1 Hst1. eapply both_bind; [by apply package_id_both|]. intros i Hi.
        apply both_ok, add_rule_RI; [done|]. apply mk_rule_ok. intros y ->%elem_of_list_singleton. by apply Kid_abs. }
      destruct (j_kind j), (j_req j); auto; apply both_raise.
    Qed.
    Lemma iter_rules_both fuel jobs : (∀ j r, j ∈ jobs → j_req j = Some r → Nm (r_name r)) →
      both RI (iter_rules po iids strict fuel jobs) (iter_rules po' iids strict fuel jobs).
    Proof.
      intros Hj. unfold iter_rules. apply (both_bind RI).
      - apply both_foldM; [|intros r Hr; by apply elem_of_nil in Hr]. intros st j Hjin Hst. apply job_rules_both; [|done]. intros r Hr. by eapply Hj.
      - intros st0 Hst0. apply both_foldM; [|done]. intros st ip Hip Hst. specialize (Hii ip Hip).
        assert (Hn : Nm (p_name ip.2)) by (apply (HKn ip.2); [done|by left]).
        apply (both_bind RI); [|intros st1 Hst1; by apply package_rules_both].
        unfold installed_package_rules, name_to_packages. rewrite (pr_byname _ _ R), (pr_byname _ _ R'), by_name_same by done.
        apply both_foldM; [|done]. intros st1 q Hq Hst1. apply package_rules_both; [|done].
        assert (Hq' : q ∈ by_name l (p_name ip.2)) by (by destruct (by_name l (p_name ip.2))).
        apply elem_of_by_name in Hq' as [Hql Hqp]. by eapply HNK.
    Qed.
  End gen.

  (** ** What the policy is given *)
  Lemma job_ids_both inst acc j : (∀ p, p ∈ inst → K p) → (∀ r, j_req j = Some r → Nm (r_name r)) →
    (∀ i, i ∈ acc.1 → Kid i) →
    both (λ acc : list Z * list package, ∀ i, i ∈ acc.1 → Kid i) (job_ids po inst acc j) (job_ids po' inst acc j).
  Proof.
    intros Hi Hj Ha. unfold job_ids.
    assert (G : ∀ k r, j_req j = Some r → both (λ acc : list Z * list package, ∀ i, i ∈ acc.1 → Kid i)
      (ps ← what_provides po r false;
       match ps with [] => Raise NoPackageFound | p :: rest =>
         ids ← mapM_res (package_id po) (if decide (k = JHardUpdate) then [max_first (installed_lt inst) p rest] else p :: rest);
         Ok (acc.1 ++ ids, acc.2 ++ (if decide (k = JSoftUpdate) then filter (λ q, pkg_in q inst = true) (p :: rest) else [])) end)
      (ps ← what_provides po' r false;
       match ps with [] => Raise NoPackageFound | p :: rest =>
         ids ← mapM_res (package_id po') (if decide (k = JHardUpdate) then [max_first (installed_lt inst) p rest] else p :: rest);
         Ok (acc.1 ++ ids, acc.2 ++ (if decide (k = JSoftUpdate) then filter (λ q, pkg_in q inst = true) (p :: rest) else [])) end)).
    { intros k r Hr. eapply both_bind; [apply what_provides_both; auto|]. intros ps Hps. destruct ps as [|p rest]; [apply both_raise|].
      eapply both_bind; [apply ids_both|].
      - case_decide; [|done]. intros q ->%elem_of_list_singleton. apply Hps, max_first_in.
      - intros is His. apply both_ok. cbn. intros i [H|H]%elem_of_app; [by apply Ha|by apply His]. }
    destruct (j_kind j), (j_req j) as [r|]; try apply both_raise; by apply G.
  Qed.
  Lemma installed_ids_both inst : (∀ p, p ∈ inst → K p) →
    both (λ iids, ∀ ip, ip ∈ iids → K ip.2) (installed_ids po inst) (installed_ids po' inst).
  Proof.
    intros Hi. unfold installed_ids. apply both_foldM; [|intros ip Hip; by apply elem_of_nil in Hip].
    intros d p Hp Hd. eapply both_bind; [by apply package_id_both, Hi|]. intros i _. apply both_ok.
    clear - Hd Hp Hi. induction d as [|[j q] d IH]; cbn.
    - intros ip ->%elem_of_list_singleton. by apply Hi.
    - destruct (j =? i); intros ip [->|Hip]%elem_of_cons; [by apply Hi|apply Hd; by right|apply (Hd (j, q)); left|].
      apply IH; [|done]. intros ip' Hip'. apply Hd. by right.
  Qed.
  Lemma id_ver_lt_same i j : Kid i → Kid j → id_ver_lt po i j = id_ver_lt po' i j.
  Proof. intros Hi Hj. unfold id_ver_lt. by destruct (version_same i Hi) as [<- _], (version_same j Hj) as [<- _]. Qed.
  Lemma elem_of_insert_by {A} (lt : A → A → bool) a xs y : y ∈ insert_by lt a xs ↔ y = a ∨ y ∈ xs.
  Proof.
    induction xs as [|z xs IH]; cbn; [by rewrite elem_of_list_singleton, elem_of_nil; tauto|].
    destruct (lt _ _); rewrite !elem_of_cons, ?IH; tauto.
  Qed.
  Lemma insert_by_same {A} (lt lt' : A → A → bool) a xs : (∀ y, y ∈ xs → lt a y = lt' a y ∧ lt y a = lt' y a) → insert_by lt a xs = insert_by lt' a xs.
  Proof.
    induction xs as [|z xs IH]; intros H; [done|]. cbn. rewrite IH by (intros y Hy; apply H; by right).
    destruct (H z) as [E1 E2]; [left|]. rewrite ?E1, ?E2. done.
  Qed.
  Lemma elem_of_sort_by' {A} (lt : A → A → bool) xs y : y ∈ sort_by lt xs ↔ y ∈ xs.
  Proof. induction xs as [|z xs IH]; cbn; [done|]. rewrite elem_of_insert_by, elem_of_cons, IH. done. Qed.
  Lemma sort_by_same {A} (lt lt' : A → A → bool) xs : (∀ y z, y ∈ xs → z ∈ xs → lt y z = lt' y z) → sort_by lt xs = sort_by lt' xs.
  Proof.
    induction xs as [|a xs IH]; intros H; [done|]. change (insert_by lt a (sort_by lt xs) = insert_by lt' a (sort_by lt' xs)). rewrite IH by (intros y z Hy Hz; apply H; by right).
    apply insert_by_same. intros y Hy%elem_of_sort_by'. split; apply H; first [left|by right].
  Qed.
  Lemma preferred_both e inst so : env_ok e → (∀ p, p ∈ inst → K p) →
    both (λ is, ∀ i, i ∈ is → Kid i) (preferred_ids e po inst so) (preferred_ids e po' inst so).
  Proof.
    intros He Hi. unfold preferred_ids. eapply both_bind; [apply ids_both; intros p [_ Hp]%elem_of_list_filter; by apply Hi|].
    intros is His. assert (Hin : ∀ i, i ∈ e_pkgs e (fromkeys is) → Kid i).
    { intros i H. apply His. rewrite (proj2 He) in H. by rewrite elem_of_fromkeys in H. }
    rewrite <-(sort_by_same (id_ver_lt po) (id_ver_lt po')) by (intros; apply id_ver_lt_same; auto).
    apply both_ok. intros i H%elem_of_sort_by'. by apply Hin.
  Qed.


  (** ** Pruning *)
  Lemma get_names_both i : Kid (Z.abs i) → both (λ _, True) (get_names po i) (get_names po' i).
  Proof. intros Hi. unfold get_names. eapply both_bind; [by apply id_to_package_both|]. intros p _. by apply both_ok. Qed.
  Lemma root_names_both roots : (∀ i, i ∈ roots → Kid (Z.abs i)) → both (λ _, True) (root_names po roots) (root_names po' roots).
  Proof.
    intros H. unfold root_names. apply both_foldM; [|done]. intros acc i Hi _. eapply both_bind; [by apply get_names_both, H|]. intros ns _. by apply both_ok.
  Qed.
  Definition n2i_ok (m : gmap string Z) : Prop := ∀ n i, m !! n = Some i → Kid i.
  Lemma name_to_id_both sol : (∀ i, i ∈ sol → Kid (Z.abs i)) → both n2i_ok (name_to_id po sol) (name_to_id po' sol).
  Proof.
    intros H. unfold name_to_id. apply both_foldM; [|intros n i; by rewrite lookup_empty].
    intros m i Hi Hm. eapply both_bind; [by apply get_names_both, H|]. intros ns _. apply both_ok. case_decide as Hpos; [|done].
    assert (Hk : Kid i) by (rewrite <-(Z.abs_eq i) by lia; by apply H). clear - Hm Hk. revert m Hm.
    induction ns as [|n ns IH]; intros m Hm; cbn; [done|]. apply IH. intros n' i'. destruct (decide (n = n')) as [->|].
    - rewrite lookup_insert. by intros [= <-].
    - rewrite lookup_insert_ne by done. apply Hm.
  Qed.
  Lemma neighbor_both n2i i : n2i_ok n2i → Kid i →
    both (λ X : gset Z, ∀ j, j ∈ X → Kid j) (neighborfunc po n2i i) (neighborfunc po' n2i i).
  Proof.
    intros Hn Hi. unfold neighborfunc. eapply both_bind; [by apply id_to_package_both|]. intros p _.
    apply (both_bind (λ is, ∀ j, j ∈ is → Kid j)).
    - apply both_mapM. intros d _. destruct (n2i !! d.1) as [j|] eqn:E; [apply both_ok; by eapply Hn|apply both_raise].
    - intros is His. apply both_ok. intros j Hj%elem_of_list_to_set. by apply His.
  Qed.
  Lemma connected_loop_both ord n2i : (∀ n (X : gset Z), ord n X ≡ₚ elements X) → n2i_ok n2i → ∀ fuel (queue visited : gset Z),
    (∀ j, j ∈ queue → Kid j) → (∀ j, j ∈ visited → Kid j) →
    both (λ X : gset Z, ∀ j, j ∈ X → Kid j) (connected_loop ord (neighborfunc po n2i) fuel queue visited)
      (connected_loop ord (neighborfunc po' n2i) fuel queue visited).
  Proof.
    intros Hord Hn fuel. induction fuel as [|fuel IH]; intros queue visited Hq Hv; cbn [connected_loop]; [apply both_raise|].
    destruct (ord (S fuel) queue) as [|node rest] eqn:E; [by apply both_ok|].
    assert (Hnode : node ∈ queue). { apply elem_of_elements. rewrite <-(Hord (S fuel)), E. left. }
    eapply both_bind; [apply neighbor_both; [done|by apply Hq]|]. intros ns Hns.
    assert (Hv' : ∀ j, j ∈ {[node]} ∪ visited → Kid j).
    { intros j [->%elem_of_singleton|Hj]%elem_of_union; [by apply Hq|by apply Hv]. }
    apply IH; [|done]. intros j [[Hj _]%elem_of_difference|[Hj _]%elem_of_difference]%elem_of_union; [by apply Hq|by apply Hns].
  Qed.
  Lemma connected_both e fuel sol (roots : gset Z) : env_ok e → (∀ i, i ∈ sol → Kid (Z.abs i)) → (∀ i, i ∈ roots → Kid i) →
    both (λ X : gset Z, ∀ y, y ∈ X → Kid (Z.abs y)) (connected_packages e po fuel sol roots) (connected_packages e po' fuel sol roots).
  Proof.
    intros He Hs Hr. unfold connected_packages. eapply both_bind; [apply root_names_both|].
    { intros i Hi. rewrite (proj1 He), elem_of_elements in Hi. by apply Kid_abs, Hr. }
    intros rnames _. eapply both_bind; [by apply name_to_id_both|]. intros n2i Hn. cbn zeta.
    assert (Hsr : ∀ i, i ∈ (list_to_set (filter (λ ni, ni.1 ∈ rnames) (map_to_list n2i)).*2 : gset Z) → Kid i).
    { intros i Hi%elem_of_list_to_set. apply elem_of_list_fmap in Hi as ([n j] & -> & [_ Hj]%elem_of_list_filter).
      apply elem_of_map_to_list in Hj. by eapply Hn. }
    apply (both_bind (λ X : gset Z, ∀ j, j ∈ X → Kid j)).
    - apply both_foldM; [|set_solver]. intros incl i Hi Hincl. apply connected_loop_both; [apply He|done| |done].
      intros j ->%elem_of_singleton. apply Hsr. by rewrite (proj1 He), elem_of_elements in Hi.
    - intros incl Hincl. eapply both_bind; [apply both_refl|]. intros _ _. apply both_ok.
      intros y [Hy|Hy]%elem_of_union; [by apply Kid_abs, Hincl|]. apply elem_of_list_to_set, elem_of_list_filter in Hy as [_ Hy]. by apply Hs.
  Qed.

  (** ** Transactions *)
  Lemma package_key_both i : Kid i → both (λ _, True) (package_key po i) (package_key po' i).
  Proof. intros Hi. unfold package_key. eapply both_bind; [by apply id_to_package_both|]. intros p _. by apply both_ok. Qed.
  Lemma lit_edges_both closed idmap p : K p → both (λ _, True) (lit_edges po closed idmap p) (lit_edges po' closed idmap p).
  Proof.
    intros Hp. unfold lit_edges. apply both_foldM; [|done]. intros acc d Hd _.
    destruct (from_constraints RInstall d) as [r|ex] eqn:E; [rewrite !res_bind_ok|apply both_raise].
    assert (Hr : Nm (r_name r)). { destruct (from_constraints_spec RInstall d r E) as (_ & _ & ->). apply (HKn p); [done|]. right. exists d. auto. }
    eapply both_bind; [by apply what_provides_both|]. intros ps Hps. eapply both_bind; [by apply ids_both|]. intros is _. by apply both_ok.
  Qed.
  Lemma lit_graph_both lits closed : (∀ y, y ∈ lits → Kid (Z.abs y)) → both (λ _, True) (lit_graph po lits closed) (lit_graph po' lits closed).
  Proof.
    intros H. unfold lit_graph. cbn zeta. apply (both_bind (λ ps : list (Z * package), ∀ lp, lp ∈ ps → K lp.2)).
    - apply both_mapM. intros y Hy. rewrite elem_of_fromkeys in Hy. eapply both_bind; [by apply id_to_package_both, H|]. intros p Hp. by apply both_ok.
    - intros ps Hps. apply both_foldM; [|done]. intros g lp Hlp _. eapply both_bind; [by apply lit_edges_both, Hps|]. intros es _. by apply both_ok.
  Qed.
  Lemma remove_first_sub y xs z : z ∈ remove_first y xs → z ∈ xs.
  Proof. induction xs as [|w xs IH]; cbn; [done|]. case_decide; [by right|]. intros [->|Hz]%elem_of_cons; [left|right; auto]. Qed.
  Lemma install_loop_both loc is : (∀ i, i ∈ is → Kid i) → ∀ rem ops, (∀ i, i ∈ rem → Kid i) → (∀ o, o ∈ ops → K (op_package o)) →
    both (λ ro : list Z * list operation, (∀ i, i ∈ ro.1 → Kid i) ∧ ∀ o, o ∈ ro.2 → K (op_package o))
      (install_loop po loc is rem ops) (install_loop po' loc is rem ops).
  Proof.
    induction is as [|i is IH]; intros His rem ops Hrem Hops; cbn [install_loop]; [by apply both_ok|].
    assert (Hi : Kid i) by (apply His; left). assert (His' : ∀ i, i ∈ is → Kid i) by (intros j Hj; apply His; by right).
    eapply both_bind; [by apply package_key_both|]. intros k _. cbn zeta. case_decide.
    - eapply both_bind; [by apply id_to_package_both|]. intros p Hp. apply IH; [done|done|].
      intros o [Ho| ->%elem_of_list_singleton]%elem_of_app; [by apply Hops|done].
    - apply IH; [done| |done]. case_decide; [|done]. intros j Hj%remove_first_sub. by apply Hrem.
  Qed.
  Lemma od_set_keys d p o q : q ∈ (od_set d p o).*1 → q ∈ d.*1 ∨ q = p.
  Proof.
    induction d as [|[q' o'] d IH]; cbn; [intros ->%elem_of_list_singleton; by right|].
    destruct (pkg_eq q' p); cbn; rewrite !elem_of_cons; [tauto|]. intros [->|H]; [tauto|]. destruct (IH H); tauto.
  Qed.
  Lemma pretty_both ops : (∀ o, o ∈ ops → K (op_package o)) → both (λ _, True) (pretty_operations po ops) (pretty_operations po' ops).
  Proof.
    intros H. unfold pretty_operations. cbn zeta.
    set (d0 := foldl (λ d o, od_set d (op_package o) [o]) [] ops).
    assert (Hd0 : ∀ q, q ∈ d0.*1 → K q).
    { unfold d0. assert (G : ∀ d, (∀ q, q ∈ d.*1 → K q) → ∀ q, q ∈ (foldl (λ d o, od_set d (op_package o) [o]) d ops).*1 → K q).
      { revert H. induction ops as [|o ops IH]; intros H d Hd q; cbn; [apply Hd|]. apply IH; [intros o' Ho'; apply H; by right|].
        intros q' [Hq'| ->]%od_set_keys; [by apply Hd|apply H; left]. }
      apply G. intros q Hq. by apply elem_of_nil in Hq. }
    clearbody d0. apply (both_bind (λ _, True)); [|intros d1 _; apply both_refl].
    apply both_foldM; [|done]. intros d p Hp _. apply elem_of_reverse, Hd0 in Hp. destruct (od_get d p); [|by apply both_ok].
    apply (both_bind (λ _, True)); [|intros qs _; apply both_refl].
    unfold find_other_providers. destruct (name_requirement RInstall (p_name p)) as [r|ex] eqn:E; [rewrite !res_bind_ok|apply both_raise].
    eapply both_bind; [apply what_provides_both|intros ps _; by apply both_ok].
    rewrite (name_requirement_name _ _ _ E); [apply (HKn p); [done|by left]|]. by apply (wf_names _ Hinj), HKl.
  Qed.
  Lemma transaction_both dec inst : (∀ y, y ∈ dec → Kid (Z.abs y)) → (∀ i, i ∈ inst → Kid i) →
    mk_transaction po dec inst = mk_transaction po' dec inst.
  Proof.
    intros Hd Hi. eapply (both_eq (λ _, True)). unfold mk_transaction. apply (both_bind (λ ops, ∀ o, o ∈ ops → K (op_package o))).
    - unfold safe_operations. apply (both_bind (λ _, True)).
      { unfold local_packages. eapply both_mono; [|apply (both_mapM (λ _, True))]; [done|]. intros i Hii.
        eapply both_bind; [by apply package_key_both, Hi|]. intros k _. by apply both_ok. }
      intros loc _. eapply both_bind; [by apply lit_graph_both|]. intros g _. eapply both_bind; [apply both_refl|]. intros groups _. cbn zeta.
      case_decide as Hl; [rewrite !res_bind_ok|apply both_raise]. rewrite Forall_forall in Hl. unfold split_lits.
      eapply both_bind; [apply install_loop_both|].
      + intros i [[H1 H2] H3]%elem_of_list_filter. apply Hl, Hd in H3. by rewrite Z.abs_eq in H3 by lia.
      + intros i (y & -> & [[H1 H2] H3]%elem_of_list_filter)%elem_of_list_fmap. apply Hl, Hd in H3. by rewrite Z.abs_neq in H3 by lia.
      + intros o Ho. by apply elem_of_nil in Ho.
      + intros [rem ops] [Hrem Hops]. cbn in Hrem, Hops. apply (both_bind (λ ops, ∀ o, o ∈ ops → K (op_package o))).
        * apply both_mapM. intros i Hir. rewrite elem_of_reverse in Hir. eapply both_bind; [apply id_to_package_both; by apply Hrem|]. intros p Hp. by apply both_ok.
        * intros rops Hrops. apply both_ok. intros o [Ho|Ho]%elem_of_app; auto.
    - intros ops Hops. eapply both_bind; [by apply pretty_both|]. intros pr _. by apply both_ok.
  Qed.
End pools.
