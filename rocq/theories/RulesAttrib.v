(** * Every generated rule carries a correct explanation. *)
From Verif Require Import PoolProofs PropPool PropConstraints SpecSat ConstraintProofs.
From Verif Require Export RulesSem SpecReport.

Lemma insert_Z_sorted x l : StronglySorted Z.le l → StronglySorted Z.le (insert_Z x l).
Proof.
  induction 1 as [|y l Hs IH Hy]; cbn; [by repeat constructor|]. destruct (Z.ltb_spec x y).
  - constructor; [by constructor|]. constructor; [lia|]. eapply Forall_impl; [exact Hy|]. cbn. lia.
  - constructor; [done|]. apply Forall_forall. intros z Hz. rewrite insert_Z_perm in Hz.
    apply elem_of_cons in Hz as [-> |Hz]; [done|]. rewrite Forall_forall in Hy. auto.
Qed.
Lemma sort_Z_sorted l : StronglySorted Z.le (sort_Z l).
Proof.
  unfold sort_Z. induction l as [|x l IH]; cbn; [constructor|]. by apply insert_Z_sorted.
Qed.

Section attrib.
  Context (po : pool) (l : list package) (R : pool_rep po l) (Hinj : well_formed l).
  Context (inst : list package) (Hinst : ∀ p, p ∈ inst → p ∈ l).
  Context (iids : list (Z * package)) (Hiids : ∀ ip, ip ∈ iids ↔ ∃ p, p ∈ inst ∧ ip = (pid po p, p)).
  Context (strict : bool) (jobs : list job).
  Local Notation pid := (pid po).
  Local Notation m := (sem_mods po).
  Local Notation led := (led_to l m jobs).
  Local Notation expl := (explained po l inst m jobs).

  (** The invariant: all rules are explained, and their literals sorted. *)
  Definition Ex (st : gst) : Prop := ∀ ru, ru ∈ g_rules st → expl ru ∧ StronglySorted Z.le (ru_lits ru).
  Lemma ex_add st a t c : Ex st → expl (mk_rule a t c) → Ex (add_rule st (mk_rule a t c)).
  Proof.
    intros H1 H2 r. unfold add_rule. destruct (existsb _ _); [apply H1|]. cbn [g_rules].
    intros [?|H]%elem_of_app; [auto|]. apply elem_of_list_singleton in H as ->. split; [done|apply sort_Z_sorted].
  Qed.

  Definition chain (reqs : option (list requirement)) (p : package) : Prop :=
    match reqs with None => True | Some rs => led rs p end.
  Lemma chain_because reqs p r : chain reqs p → because l m jobs p r (default [] (combine reqs r)).
  Proof. destruct reqs as [rs|]; cbn; intros H; [right; eauto|by left]. Qed.

  Lemma has_pid p : p ∈ l → has_id po p (pid p).
  Proof. apply (pid_ok _ _ R). Qed.
  Lemma has_id_pid p i : p ∈ l → has_id po p i → i = pid p.
  Proof. intros Hp. unfold has_id. rewrite (pid_ok _ _ R) by done. congruence. Qed.

  Lemma requires_explained p reqs : p ∈ l → chain reqs p → ∀ ds acc st st' more,
    (∀ d, d ∈ ds → d ∈ p_requires p) → (∀ w, w ∈ acc → w.1 ∈ l ∧ chain w.2 w.1) → Ex st →
    requires_rules po strict p reqs ds acc st = Ok (st', more) →
    Ex st' ∧ ∀ w, w ∈ more → w.1 ∈ l ∧ chain w.2 w.1.
  Proof.
    intros Hp Hc. induction ds as [|d ds IH]; intros acc st st' more Hsub Hacc Hst; cbn [requires_rules].
    { intros [= <- <-]. done. }
    intros (r & Hr & H)%mbind_ok. apply mbind_ok in H as (cs & Hcs & H).
    assert (Hd : dcand po d = cs). { unfold dcand, wp. by rewrite Hr, Hcs. }
    destruct (from_constraints_spec _ _ _ Hr) as (Hpl & _).
    assert (Hin : d ∈ p_requires p) by (apply Hsub; left).
    assert (Hq : ∀ q, q ∈ cs ↔ q ∈ l ∧ dep_meets m d q).
    { intros q. rewrite <-Hd. by apply (dcand_spec _ _ R). }
    destruct cs as [|q0 cs].
    - apply mbind_ok in H as (_ & _ & H). apply mbind_ok in H as (ru & Hru & H). injection H as <- <-.
      unfold remove_rule in Hru. rewrite (pid_ok _ _ R p Hp) in Hru. injection Hru as <-.
      split; [|by intros ? ?%elem_of_nil]. apply ex_add; [done|].
      exists p, (pid p), d, r. split_and!; [done|by apply has_pid|done|done|by apply chain_because| |done].
      intros (q & Hql). by apply Hq, elem_of_nil in Hql.
    - remember (q0 :: cs) as cs'. apply mbind_ok in H as (ru & Hru & H).
      unfold dependency_rule in Hru. rewrite (pid_ok _ _ R p Hp) in Hru. cbn [mbind res_bind] in Hru.
      rewrite (pids_ok _ _ R) in Hru.
      2:{ intros x [_ Hx]%elem_of_list_filter. by apply Hq in Hx as [? _]. }
      injection Hru as <-. apply IH in H; [done|..].
      + intros d' Hd'. apply Hsub. by right.
      + intros w [Hw|Hw]%elem_of_app; [auto|]. apply elem_of_list_fmap in Hw as (q & -> & Hw). cbn [fst snd].
        apply Hq in Hw as [Hw1 Hw2]. split; [done|]. destruct reqs as [rs|]; cbn; [|done].
        by eapply led_dep.
      + apply ex_add; [done|]. exists p, (pid p), d, r.
        split_and!; [done|by apply has_pid|done|done|by apply chain_because| |].
        { exists q0. apply Hq. subst. left. }
        eexists. split; [apply sort_Z_perm|]. intros x. rewrite elem_of_list_fmap.
        setoid_rewrite elem_of_list_filter. split.
        * intros (q & -> & Hne & [Hql Hm]%Hq). exists q.
          split_and!; [done| |done|by apply has_pid]. by apply (pkg_eq_ne _ Hinj) in Hne.
        * intros (q & Hql & Hne & Hm & Hi). exists q. split; [by apply has_id_pid|].
          split; [by apply (pkg_eq_ne _ Hinj)|]. apply Hq. done.
  Qed.

  Lemma add_conflicts_explained p t comb : p ∈ l → ∀ qs st st',
    (∀ q, q ∈ qs → q ∈ l ∧ (q ≠ p → expl (mk_rule [- pid p; - pid q] t comb))) → Ex st →
    add_conflicts po p t comb qs st = Ok st' → Ex st'.
  Proof.
    intros Hp. unfold add_conflicts. intros qs st st' Hqs Hst.
    apply (foldM_inv _ (λ _ st, Ex st)); [done|]. intros _ q s s' Hs Hq.
    destruct (Hqs q Hq) as [Hql He]. intros (o & Ho & H)%mbind_ok. unfold conflicts_rule in Ho.
    destruct (pkg_eq p q) eqn:E.
    - injection Ho as <-. injection H as <-. done.
    - rewrite (pid_ok _ _ R p Hp) in Ho. cbn [mbind res_bind] in Ho. rewrite (pid_ok _ _ R q Hql) in Ho.
      injection Ho as <-. injection H as <-. apply ex_add; [done|]. apply He.
      intros ->. apply (pkg_eq_ne _ Hinj) in E; done.
  Qed.

  Lemma pair_lits p q t comb : ru_lits (mk_rule [- pid p; - pid q] t comb) ≡ₚ [- pid p; - pid q].
  Proof. apply sort_Z_perm. Qed.

  Lemma conflicts_explained p reqs st st' : p ∈ l → chain reqs p → Ex st →
    conflicts_rules po strict p reqs st = Ok st' → Ex st'.
  Proof.
    intros Hp Hc Hst. unfold conflicts_rules, same_name_rules. intros (st1 & H1 & H2)%mbind_ok.
    destruct (same_name_cand _ _ R p Hp) as (ps & Hps & Hsp). rewrite (name_req _ Hinj _ p Hp) in H1. cbn [mbind res_bind] in H1.
    rewrite Hps in H1. cbn [mbind res_bind] in H1.
    apply add_conflicts_explained in H1; [|done| |done].
    - revert H2. unfold declared_conflicts. apply (foldM_inv _ (λ _ st, Ex st)); [done|].
      intros _ d s s' Hs Hd (r & Hr & H)%mbind_ok. apply mbind_ok in H as (cs & Hcs & H).
      apply mbind_ok in H as (_ & _ & H).
      assert (Hcd : ccand po d = cs). { unfold ccand, wp. by rewrite Hr, Hcs. }
      assert (Hok : conf_ok po d) by (exists r, cs; done).
      revert H. apply add_conflicts_explained; [done| |done].
      intros q Hq. rewrite <-Hcd in Hq. apply (ccand_spec _ _ R) in Hq as [Hql Hm]; [|done].
      split; [done|]. intros Hne. exists p, (pid p), d, r, q, (pid q).
      split_and!; [done|done|by apply has_pid|by apply has_pid|by intros ->|done|done|done|by apply chain_because|].
      apply pair_lits.
    - intros q [[Hne Hn] Hq]%elem_of_list_filter. apply Hsp in Hq as [Hql _]. split; [done|].
      intros Hne'. exists p, (pid p), q, (pid q).
      split_and!; [done|done|by apply has_pid|by apply has_pid|by intros ->|done|by apply chain_because|].
      apply pair_lits.
  Qed.

  Lemma loop_explained : ∀ fuel queue st st', (∀ w, w ∈ queue → w.1 ∈ l ∧ chain w.2 w.1) → Ex st →
    package_rules_loop po strict fuel queue st = Ok st' → Ex st'.
  Proof.
    induction fuel as [|fuel IH]; intros queue st st' Hq Hst;
      (destruct queue as [|[p reqs] queue]; cbn [package_rules_loop]; [by intros [= <-]|]); [done|].
    destruct (Hq (p, reqs)) as [Hp Hc]; [left|]. cbn [fst snd] in *.
    rewrite (pid_ok _ _ R p Hp). cbn [mbind res_bind]. case_decide.
    - apply IH; [|done]. intros w Hw. apply Hq. by right.
    - intros ([st1 more] & H1 & H2)%mbind_ok. apply mbind_ok in H2 as (st2 & H2 & H3).
      apply requires_explained in H1 as [H1 Hm]; [|done|done|done|by intros ? ?%elem_of_nil|done].
      apply conflicts_explained in H2; [|done|done|done].
      revert H3. apply IH; [|done]. intros w [Hw|Hw]%elem_of_app; [|auto]. apply Hq. by right.
  Qed.
  Lemma package_rules_explained fuel p reqs st st' : p ∈ l → chain reqs p → Ex st →
    package_rules po strict fuel p reqs st = Ok st' → Ex st'.
  Proof.
    intros Hp Hc Hst. apply loop_explained; [|done]. intros w ->%elem_of_list_singleton. done.
  Qed.

  Lemma wp_meets r p : p ∈ wp po r false ↔ p ∈ l ∧ req_meets r p.
  Proof. apply (jcand_spec _ _ R). Qed.

  Lemma job_rules_explained fuel j st st' : j ∈ jobs → Ex st →
    job_rules po iids strict fuel j st = Ok st' → Ex st'.
  Proof.
    intros Hj Hst.
    assert (Hchain : ∀ r p, j_req j = Some r → p ∈ wp po r false → chain (Some [r]) p).
    { intros r p Hr [Hp Hm]%wp_meets. cbn. by eapply led_job. }
    assert (Hinstall : ∀ r, j_kind j = JInstall ∨ j_kind j = JSoftUpdate → j_req j = Some r →
      install_job_rules po iids strict fuel r st = Ok st' → Ex st').
    { intros r Hk Hr. unfold install_job_rules. rewrite (jcand_ok _ _ R). cbn [mbind res_bind].
      destruct (wp po r false) as [|p0 ps] eqn:E; [done|]. rewrite <-E. clear E.
      intros (st1 & H1 & H2)%mbind_ok. apply mbind_ok in H2 as (ru & Hru & [= <-]).
      unfold one_of_rule in Hru. rewrite (pids_ok _ _ R) in Hru by (intros p [? _]%wp_meets; done).
      injection Hru as <-. apply ex_add.
      - revert H1. apply (foldM_inv _ (λ _ st, Ex st)); [done|]. intros _ p s s' Hs Hp.
        rewrite (pid_ok _ _ R) by by apply wp_meets in Hp as [? _]. cbn [mbind res_bind]. case_decide; [by intros [= <-]|].
        apply package_rules_explained; [by apply wp_meets in Hp as [? _]|auto|done].
      - exists j, r. split_and!; [done|done|done|done|]. intros x. cbn [mk_rule ru_lits].
        rewrite elem_of_sort_Z, elem_of_list_fmap. split.
        + intros (p & -> & [Hp Hm]%wp_meets). exists p. split_and!; [done|done|by apply has_pid].
        + intros (p & Hp & Hm & Hi). exists p. split; [by apply has_id_pid|]. by apply wp_meets. }
    unfold job_rules. destruct (j_kind j) eqn:Ek; destruct (j_req j) as [r|] eqn:Er; try done; eauto.
    - (* remove *)
      unfold remove_job_rules. rewrite (jcand_ok _ _ R). cbn [mbind res_bind].
      apply (foldM_inv _ (λ _ st, Ex st)); [done|]. intros _ p s s' Hs Hp. apply wp_meets in Hp as [Hp Hm].
      intros (ru & Hru & [= <-])%mbind_ok. unfold remove_rule in Hru. rewrite (pid_ok _ _ R) in Hru by done.
      injection Hru as <-. apply ex_add; [done|]. exists j, r, p, (pid p).
      split_and!; [done..|by apply has_pid|done].
    - (* hard update *)
      unfold update_job_rules. rewrite (jcand_ok _ _ R). cbn [mbind res_bind].
      destruct (wp po r false) as [|p0 ps] eqn:E; [by intros [= <-]|].
      assert (Hb : best po iids r = Some (max_first (update_lt po iids) p0 ps)) by (unfold best; by rewrite E).
      pose proof (best_elem _ _ _ _ Hb) as Hbe.
      revert Hb Hbe. generalize (max_first (update_lt po iids) p0 ps). intros b Hb Hbe.
      assert (Hbl : b ∈ l) by by apply wp_meets in Hbe as [? _].
      intros (st1 & H1 & H2)%mbind_ok. rewrite (pid_ok _ _ R) in H2 by done. injection H2 as <-.
      apply ex_add.
      + revert H1. apply package_rules_explained; [done|auto|done].
      + exists j, r, b, (pid b). split_and!; [done..| |by apply has_pid|done].
        by apply (best_spec _ _ R Hinj _ Hinst _ Hiids).
  Qed.

  Theorem iter_rules_explained fuel st : iter_rules po iids strict fuel jobs = Ok st → Ex st.
  Proof.
    unfold iter_rules. intros (st1 & H1 & H2)%mbind_ok.
    assert (E1 : Ex st1).
    { revert H1. apply (foldM_inv _ (λ _ st, Ex st)); [by intros ? ?%elem_of_nil|].
      intros _ j s s' Hs Hj. by apply job_rules_explained. }
    revert H2. apply (foldM_inv _ (λ _ st, Ex st)); [done|]. intros _ ip s s' Hs Hip (s1 & H1' & H2)%mbind_ok.
    revert H2. apply package_rules_explained; [|done|].
    { by apply (iids_pkgs _ _ _ Hinst _ Hiids). }
    revert H1'. apply (foldM_inv _ (λ _ st, Ex st)); [done|]. intros _ q t t' Ht Hq.
    apply package_rules_explained; [|done|done]. by apply (name_packages_spec _ _ R) in Hq as [? _].
  Qed.

  (** Hence the first requirement of a rule is that of a job. *)
  Lemma led_head rs p : led rs p → ∃ j r, j ∈ jobs ∧ j_req j = Some r ∧ head rs = Some r.
  Proof.
    induction 1 as [j r p Hj Hr Hp Hm|rs p d r q H IH Hd Hf Hq Hm]; [eauto|].
    destruct IH as (j & r' & Hj & Hr & Hh). exists j, r'. split_and!; [done..|].
    destruct rs; [done|]. done.
  Qed.
  Lemma explained_head ru r : expl ru → head (ru_reqs ru) = Some r → ∃ j, j ∈ jobs ∧ j_req j = Some r.
  Proof.
    assert (Hb : ∀ p q reqs, because l m jobs p q reqs → head reqs = Some r → ∃ j, j ∈ jobs ∧ j_req j = Some r).
    { intros p q reqs [-> |(rs & Hl & ->)]; [done|]. destruct (led_head _ _ Hl) as (j & r' & Hj & Hr & Hh).
      destruct rs; [done|]. cbn in *. intros [= <-]. injection Hh as ->. eauto. }
    unfold explained. destruct (ru_reason ru).
    - intros (j & r' & Hj & _ & Hr & -> & _) [= <-]. eauto.
    - intros (j & r' & p & i & Hj & _ & Hr & -> & _) [= <-]. eauto.
    - intros (j & r' & p & i & Hj & _ & Hr & -> & _) [= <-]. eauto.
    - intros (p & i & d & r' & _ & _ & _ & _ & H & _). by eapply Hb.
    - intros (p & i & d & r' & q & k & _ & _ & _ & _ & _ & _ & _ & _ & H & _). by eapply Hb.
    - intros (p & i & q & k & _ & _ & _ & _ & _ & _ & H & _). by eapply Hb.
    - intros (p & i & d & r' & _ & _ & _ & _ & H & _). by eapply Hb.
  Qed.
End attrib.
