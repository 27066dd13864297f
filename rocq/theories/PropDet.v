(** * Property C59: does the answer of solve depend on the order in which Python iterates over sets? *)
From Verif Require Import PoolProofs PropPool PropConstraints SpecSat ConstraintProofs PropRules SatLearn RepositoryProofs PolicySimProofs PropPolicy SortUniq PropLimits.
From Verif Require Export PropSolve.

(** ** The verdict does not. *)
Theorem C59_verdict : ∀ e e' repos ds fuel fuel' rq jobs t c k s, env_ok e → env_ok e' → setting repos ds → asks ds rq jobs →
  solve e ds fuel rq = Ok (Normal t) → solve e' ds fuel' rq ≠ Ok (Unsat c k s).
Proof.
  intros e e' repos ds fuel fuel' rq jobs t c k s He He' Hset Hask H1 H2.
  eapply (C15_unsat e'); [done|done|done|exact H2|]. by eapply (C15_sat e).
Qed.

(** ** Sorting the preferred packages *)
Lemma id_ver_irrefl po x : id_ver_lt po x x = false.
Proof. unfold id_ver_lt. destruct (pkg_id_to_version po x); [apply PolicyProofs.ver_ltb_irrefl|done]. Qed.
Section sort.
  Context (po : pool).
  (** Ids without a version are incomparable to all others, so we compare through a total key. *)
  Definition vkey (i : Z) : version := default (V 0 0) (pkg_id_to_version po i).
  Definition key_lt (i j : Z) : bool := ver_ltb (vkey i) (vkey j).
  Lemma key_lt_ok i j : is_Some (pkg_id_to_version po i) → is_Some (pkg_id_to_version po j) → id_ver_lt po i j = key_lt i j.
  Proof. intros [v Hv] [w Hw]. unfold id_ver_lt, key_lt, vkey. by rewrite Hv, Hw. Qed.
  Lemma insert_ext x l : is_Some (pkg_id_to_version po x) → (∀ y, y ∈ l → is_Some (pkg_id_to_version po y)) →
    insert_by (id_ver_lt po) x l = insert_by key_lt x l.
  Proof.
    intros Hx Hl. induction l as [|y l IH]; [done|]. cbn. rewrite key_lt_ok; [|apply Hl; left|done].
    rewrite IH; [done|]. intros z Hz. apply Hl. by right.
  Qed.
  Lemma sort_ext l : (∀ y, y ∈ l → is_Some (pkg_id_to_version po y)) → sort_by (id_ver_lt po) l = sort_by key_lt l.
  Proof.
    induction l as [|x l IH]; intros Hl; [done|].
    change (insert_by (id_ver_lt po) x (sort_by (id_ver_lt po) l) = insert_by key_lt x (sort_by key_lt l)). rewrite IH by (intros y Hy; apply Hl; by right).
    apply insert_ext; [apply Hl; left|]. intros y Hy%elem_of_sort_by. apply Hl. by right.
  Qed.
  Lemma sort_ver_perm l k : l ≡ₚ k → (∀ y, y ∈ l → is_Some (pkg_id_to_version po y)) →
    (∀ x y, x ∈ l → y ∈ l → pkg_id_to_version po x = pkg_id_to_version po y → x = y) →
    sort_by (id_ver_lt po) l = sort_by (id_ver_lt po) k.
  Proof.
    intros Hp Hs Hd. rewrite !sort_ext; [|intros y Hy; apply Hs; by rewrite Hp|done].
    assert (∀ a b, key_lt a b = true ↔ upstream (vkey a) < upstream (vkey b) ∨ upstream (vkey a) = upstream (vkey b) ∧ build (vkey a) < build (vkey b)) as E
      by (intros; apply PolicyProofs.ver_ltb_lt).
    assert (∀ a b, key_lt a b = false ↔ ¬ (upstream (vkey a) < upstream (vkey b) ∨ upstream (vkey a) = upstream (vkey b) ∧ build (vkey a) < build (vkey b))) as E'.
    { intros a b. rewrite <- E. by destruct (key_lt a b). }
    apply sort_by_perm_eq; [intros a; rewrite E'; lia|intros a b; rewrite E, E'; lia|intros a b c; rewrite !E'; lia|done|].
    intros x y Hx Hy [H1 H2]. apply Hd; [done|done|]. destruct (Hs x Hx) as [v Hv], (Hs y Hy) as [w Hw]. rewrite Hv, Hw. f_equal.
    rewrite E' in H1, H2. unfold vkey in H1, H2. rewrite Hv, Hw in H1, H2. cbn in H1, H2. destruct v, w; cbn in *. f_equal; lia.
  Qed.
End sort.

(** Packages with different versions. *)
Definition versions_differ (P : package → Prop) : Prop :=
  ∀ p q, P p → P q → p_version p = p_version q → p = q.

Section preferred.
  Context (po : pool) (l : list package) (R : pool_rep po l) (Hinj : well_formed l).
  Context (inst : list package) (Hinst : ∀ p, p ∈ inst → p ∈ l) (Hv : versions_differ (λ p, p ∈ inst)).
  Lemma preferred_same e e' so : env_ok e → env_ok e' → preferred_ids e po inst so = preferred_ids e' po inst so.
  Proof.
    intros [_ He] [_ He']. unfold preferred_ids.
    rewrite (pids_ok po l R) by (intros p [_ Hp]%elem_of_list_filter; auto). cbn [mbind res_bind]. f_equal.
    assert (∀ x, x ∈ fromkeys (pid po <$> filter (λ p, pkg_in p so = false) inst) → ∃ p, p ∈ inst ∧ x = pid po p) as Hx.
    { intros x Hx. rewrite elem_of_fromkeys in Hx. apply elem_of_list_fmap in Hx as (p & -> & [_ Hp]%elem_of_list_filter). eauto. }
    apply sort_ver_perm.
    - by rewrite He, He'.
    - intros y Hy. rewrite He in Hy. destruct (Hx y Hy) as (p & Hp & ->). rewrite (version_pid po l R Hinj) by auto. eauto.
    - intros x y Hx1 Hy1. rewrite He in Hx1, Hy1. destruct (Hx x Hx1) as (p & Hp & ->), (Hx y Hy1) as (q & Hq & ->).
      rewrite !(version_pid po l R Hinj) by auto. intros [= E]. f_equal. by apply Hv.
  Qed.
End preferred.

(** ** Hash seeds.  Integers hash to themselves, so that sets of ids are read in the same order in every run of the
    same program; sets of packages are not.  If installed packages have different versions the answer is the same. *)
Theorem C59_hash_seed : ∀ e e' repos ds fuel rq jobs, env_ok e → env_ok e' → setting repos ds → asks ds rq jobs →
  e_ord e = e_ord e' → versions_differ (λ p, p ∈ ds_installed ds) →
  solve e ds fuel rq = solve e' ds fuel rq.
Proof.
  intros e e' repos ds fuel rq jobs He He' [[m0 Hpool] Hinst Hinj] Hask Eo Hv.
  destruct (convert_spec _ _ _ Hask) as (rq' & Erq & Em & Ej). unfold solve. rewrite Erq. cbn [mbind res_bind].
  assert (Hpo : pool_of repos (po_mods (solve_pool (ds_pool ds) rq')) = Ok (solve_pool (ds_pool ds) rq')) by (eapply pool_of_mods; exact Hpool).
  destruct (pool_of_rep _ _ _ Hpo) as [R _].
  assert (create_rules e (solve_pool (ds_pool ds) rq') (ds_installed ds) (ds_strict ds) fuel rq' =
          create_rules e' (solve_pool (ds_pool ds) rq') (ds_installed ds) (ds_strict ds) fuel rq') as ->.
  { unfold create_rules. destruct (foldM _ _ _) as [[ids so]|]; cbn [mbind res_bind]; [|done].
    destruct (installed_ids _ _); cbn [mbind res_bind]; [|done].
    by rewrite (preferred_same _ _ R Hinj _ Hinst Hv e e' so He He'), Eo. }
  unfold connected_packages. rewrite Eo. done.
Qed.
(** If two have the same version it may differ, even if nothing else is unusual: reading the installed packages in
    the opposite order makes the solver remove the other one. *)
Definition seed_inst (n : string) : package := Pkg n (V 1 0) [] [] [] (Some "i").
Definition seed_remote (v : Z) (n : string) : package := Pkg "C" (V v 0) [] [(n, [])] [] (Some "r").
Definition seed_repos : list (list package) := [[seed_remote 1 "A"; seed_remote 2 "B"]; [seed_inst "A"; seed_inst "B"]].
Definition seed_ds : dep_solver := ds0 seed_repos [[seed_remote 1 "A"; seed_remote 2 "B"]] [seed_inst "A"; seed_inst "B"] true false.
Definition env1 : env := Env (λ _ X, elements X) (λ l, reverse l).
Lemma env1_ok : env_ok env1.
Proof. split; [done|]. intros l. cbn. apply reverse_Permutation. Qed.
Theorem C59_refuted : ∃ e e' repos ds rq jobs t t', env_ok e ∧ env_ok e' ∧ e_ord e = e_ord e' ∧ setting repos ds ∧ asks ds rq jobs ∧
  ds_pruning ds = true ∧ single_names (mjoin repos) ∧ same_metadata (mjoin repos) (ds_installed ds) ∧
  one_version (λ p, p ∈ ds_installed ds) ∧ jobs = [want "C"] ∧
  solve e ds 60 rq = Ok (Normal t) ∧ solve e' ds 60 rq = Ok (Normal t') ∧
  t_ops t = [RemoveOp (seed_inst "B"); InstallOp (seed_remote 2 "B")] ∧
  t_ops t' = [RemoveOp (seed_inst "A"); InstallOp (seed_remote 1 "A")].
Proof.
  assert (∃ t, solve env0 seed_ds 60 (ask [want "C"]) = Ok (Normal t) ∧ t_ops t = [RemoveOp (seed_inst "B"); InstallOp (seed_remote 2 "B")]) as (t & H1 & H2) by run.
  assert (∃ t, solve env1 seed_ds 60 (ask [want "C"]) = Ok (Normal t) ∧ t_ops t = [RemoveOp (seed_inst "A"); InstallOp (seed_remote 1 "A")]) as (t' & H3 & H4) by run.
  exists env0, env1, seed_repos, seed_ds, (ask [want "C"]), [want "C"], t, t'.
  split; [exact env0_ok|]. split; [exact env1_ok|]. split; [done|]. split; [run|]. split; [run|]. split; [done|].
  split; [run|]. split; [run|]. split; [run|]. split; [reflexivity|]. split; [exact H1|]. split; [exact H3|]. split; [exact H2|exact H4].
Qed.

(** ** Any order.  If no two packages of the pool have the same version, the order in which any set is read does not
    matter: two runs that end give the same transaction, operation by operation. *)
Section versions.
  Context (po : pool) (l : list package) (R : pool_rep po l) (Hinj : well_formed l) (Hnd : NoDup (p_version <$> l)).
  Lemma nd_differ : versions_differ (λ p, p ∈ l).
  Proof.
    intros p q [i Hi]%elem_of_list_lookup [j Hj]%elem_of_list_lookup E.
    assert (i = j) as <-; [|congruence].
    eapply NoDup_lookup; [exact Hnd| |]; rewrite list_lookup_fmap; [by rewrite Hi|by rewrite Hj, E].
  Qed.
  Lemma zdict_lookup i p : zdict_get (po_i2p po) i = Some p → ∃ k, i = Z.of_nat k + 1 ∧ l !! k = Some p.
  Proof.
    rewrite (pr_i2p _ _ R).
    assert (∀ (f : nat → nat) xs, zdict_get (imap (λ k p, (Z.of_nat (f k) + 1, p)) xs) i = Some p → ∃ k, i = Z.of_nat (f k) + 1 ∧ xs !! k = Some p) as G.
    { intros f xs. revert f. induction xs as [|x xs IH]; intros f; cbn; [done|].
      destruct (Z.eqb_spec (Z.of_nat (f 0%nat) + 1) i) as [<-|Hne].
      - intros [= ->]. by exists 0%nat.
      - intros (k & Hk & Hl)%(IH (f ∘ S)). by exists (S k). }
    intros H. apply (G id) in H as (k & ? & ?). eauto.
  Qed.
  Lemma ids_differ : distinct_versions (pkg_id_to_version po).
  Proof.
    intros x y v. unfold pkg_id_to_version.
    destruct (zdict_get (po_i2p po) x) as [p|] eqn:Hx; [|done]. destruct (zdict_get (po_i2p po) y) as [q|] eqn:Hy; [|done].
    intros [= H1] [= H2]. apply zdict_lookup in Hx as (i & -> & Hi). apply zdict_lookup in Hy as (j & -> & Hj).
    assert (i = j) as <-; [|done]. eapply NoDup_lookup; [exact Hnd| |]; rewrite list_lookup_fmap; [by rewrite Hi|by rewrite Hj; cbn; congruence].
  Qed.

  (** *** Transactions *)
  Context (dec dec' : list Z) (Hdec : ∀ x, x ∈ dec → ∃ p, p ∈ l ∧ (x = pid po p ∨ x = - pid po p)) (Hcons : ∀ x, x ∈ dec → - x ∉ dec).
  Context (Hd : ∀ x, x ∈ dec ↔ x ∈ dec').
  Context (inst inst' : list Z) (Hinst : ∀ i, i ∈ inst → ∃ p, p ∈ l ∧ i = pid po p) (Hi : ∀ x, x ∈ inst ↔ x ∈ inst').
  Let Hdec' : ∀ x, x ∈ dec' → ∃ p, p ∈ l ∧ (x = pid po p ∨ x = - pid po p).
  Proof. intros x Hx%Hd. auto. Qed.
  Let Hcons' : ∀ x, x ∈ dec' → - x ∉ dec'.
  Proof. intros x Hx%Hd Hy%Hd. exact (Hcons x Hx Hy). Qed.
  Let Hinst' : ∀ i, i ∈ inst' → ∃ p, p ∈ l ∧ i = pid po p.
  Proof. intros x Hx%Hi. auto. Qed.

  Lemma graph_same g g' : lit_graph po dec true = Ok g → lit_graph po dec' true = Ok g' → g = g'.
  Proof.
    intros [_ G]%(lit_graph_inv po l R Hinj dec Hdec Hcons) [_ G']%(lit_graph_inv po l R Hinj dec' Hdec' Hcons').
    assert (∀ a b, dec_edge po l dec a b ↔ dec_edge po l dec' a b) as He by (intros a b; unfold dec_edge; by rewrite !Hd).
    apply map_eq. intros a. destruct (g !! a) as [s|] eqn:E, (g' !! a) as [s'|] eqn:E'; [| | |done].
    - f_equal. apply set_eq. intros b. rewrite (gk_edges _ _ _ _ G a s b E), (gk_edges _ _ _ _ G' a s' b E'), He. done.
    - assert (a ∈ dec) as H by (apply (gk_nodes _ _ _ _ G); eauto). apply Hd, (gk_nodes _ _ _ _ G') in H as [? ?]. congruence.
    - assert (a ∈ dec') as H by (apply (gk_nodes _ _ _ _ G'); eauto). apply Hd, (gk_nodes _ _ _ _ G) in H as [? ?]. congruence.
  Qed.
  Lemma split_same lits : split_lits inst lits = split_lits inst' lits.
  Proof.
    unfold split_lits. f_equal; [f_equal|]; apply list_filter_iff; intros x; by rewrite Hi.
  Qed.
  Lemma loc_same loc loc' q : local_packages po inst = Ok loc → local_packages po inst' = Ok loc' →
    local_get loc (key_of q) = local_get loc' (key_of q).
  Proof.
    intros E E'. destruct (local_spec po l R Hinj inst Hinst) as (k & Ek & S). rewrite E in Ek. injection Ek as <-.
    destruct (local_spec po l R Hinj inst' Hinst') as (k' & Ek' & S'). rewrite E' in Ek'. injection Ek' as <-.
    specialize (S q). specialize (S' q). destruct (local_get loc _), (local_get loc' _); [| | |done].
    - destruct S as (p & Hp & -> & [[_ T] _]), S' as (p' & Hp' & -> & [[_ T'] _]). do 2 f_equal. apply nd_differ; [done|done|congruence].
    - destruct S as (p & Hp & -> & [T (i1 & i2 & E2 & _)]). destruct (S' p Hp); [|done]. apply Hi. rewrite E2. set_solver.
    - destruct S' as (p & Hp & -> & [T (i1 & i2 & E2 & _)]). destruct (S p Hp); [|done]. apply Hi. rewrite E2. set_solver.
  Qed.
  Lemma loop_same loc loc' is : (∀ q, local_get loc (key_of q) = local_get loc' (key_of q)) → ∀ rem ops,
    install_loop po loc is rem ops = install_loop po loc' is rem ops.
  Proof.
    intros H. induction is as [|i is IH]; intros rem ops; [done|]. cbn [install_loop].
    destruct (package_key po i) as [k|] eqn:E; cbn [mbind res_bind]; [|done].
    assert (∃ q, k = key_of q) as [q ->].
    { unfold package_key in E. apply mbind_ok in E as (q & _ & [= <-]). by exists q. }
    rewrite H. case_decide; [|apply IH]. destruct (id_to_package po i); cbn [mbind res_bind]; [|done]. apply IH.
  Qed.
  Lemma transaction_same t t' : mk_transaction po dec inst = Ok t → mk_transaction po dec' inst' = Ok t' → t = t'.
  Proof.
    unfold mk_transaction. intros (ops & H1 & H2)%mbind_ok (ops' & H1' & H2')%mbind_ok.
    assert (ops = ops') as <-.
    { unfold safe_operations in H1, H1'. apply mbind_ok in H1 as (loc & El & H1). apply mbind_ok in H1' as (loc' & El' & H1').
      apply mbind_ok in H1 as (g & Eg & H1). apply mbind_ok in H1' as (g' & Eg' & H1').
      rewrite <-(graph_same _ _ Eg Eg') in H1'.
      apply mbind_ok in H1 as (gs & Egs & H1). apply mbind_ok in H1' as (gs' & Egs' & H1'). rewrite Egs in Egs'. injection Egs' as <-.
      apply mbind_ok in H1 as ([] & _ & H1). apply mbind_ok in H1' as ([] & _ & H1').
      rewrite <-split_same in H1'. destruct (split_lits inst (ordered_lits gs)) as [rem ins].
      rewrite <-(loop_same loc loc') in H1' by (intros q; by apply loc_same). rewrite H1 in H1'. by injection H1'. }
    rewrite H2 in H2'. by injection H2'.
  Qed.
End versions.

Section run.
  Context (e e' : env) (He : env_ok e) (He' : env_ok e').
  Context (po : pool) (l : list package) (R : pool_rep po l) (Hinj : well_formed l) (Hnd : NoDup (p_version <$> l)).
  (** *** The solver *)
  Lemma run_same prefer fuel ust rules : 
    agree (solve_clauses (logged_policy (uc_policy (UcEnv (pkg_id_to_version po) (e_ord e) prefer))) fuel (ust, [], []) rules)
          (solve_clauses (logged_policy (uc_policy (UcEnv (pkg_id_to_version po) (e_ord e') prefer))) fuel (ust, [], []) rules).
  Proof.
    set (u := UcEnv _ (e_ord e) _). set (u' := UcEnv _ (e_ord e') _).
    assert (same_env u u') as Hu.
    { apply same_env_distinct; try done; [apply He|apply He'|]. by eapply ids_differ. }
    eapply agree_of, (solve_clauses_sim eq) with (RP := λ p q, RT (λ _ _, True) (inner p) (inner q)).
    - by intros ??? ->.
    - apply logged_sim; [done|]. intros p q a b cls HP RA. apply uc_policy_sim; try done.
      intros. apply (se_order _ _ Hu).
    - done.
    - by split; [split|].
  Qed.
  (** *** Pruning *)
  Lemma pruned_same fuel sol roots X X' : (∀ i, i ∈ sol → ∃ p, p ∈ l ∧ (i = pid po p ∨ i = - pid po p)) →
    (∀ i, i ∈ roots → ∃ p, p ∈ l ∧ i = pid po p) →
    connected_packages e po fuel sol roots = Ok X → connected_packages e' po fuel sol roots = Ok X' → X = X'.
  Proof.
    intros Hsol Hroots (n & N & E & H1 & H2 & H3 & H4 & HX)%(connected_spec e He po l R Hinj sol Hsol roots Hroots fuel X)
      (n' & N' & E' & H1' & H2' & H3' & H4' & HX')%(connected_spec e' He' po l R Hinj sol Hsol roots Hroots fuel X').
    rewrite E in E'. injection E' as <-. assert (N = N') as <- by (apply set_eq; intros x; by rewrite H1, H1').
    apply set_eq. intros x. by rewrite HX, HX'.
  Qed.
End run.

Theorem C59_any_order : ∀ e e' repos ds fuel rq jobs o o', env_ok e → env_ok e' → setting repos ds → asks ds rq jobs →
  NoDup (p_version <$> mjoin repos) →
  solve e ds fuel rq = Ok o → solve e' ds fuel rq = Ok o' →
  match o, o' with
  | Normal t, Normal t' => t = t'
  | Unsat c k s, Unsat c' k' s' => c = c' ∧ k = k' ∧ s_heap s = s_heap s' ∧ s_ctrails s = s_ctrails s' ∧ s_reasons s = s_reasons s'
  | _, _ => False
  end.
Proof.
  intros e e' repos ds fuel rq jobs o o' He He' Hset Hask Hnd H H'.
  pose proof Hset as [[m0 Hpool] Hinst Hinj]. destruct (convert_spec _ _ _ Hask) as (rq' & Erq & Em & Ej).
  unfold solve in H, H'. rewrite Erq in H, H'. cbn [mbind res_bind] in H, H'.
  set (po := solve_pool (ds_pool ds) rq') in *.
  assert (Hpo : pool_of repos (po_mods po) = Ok po) by (eapply pool_of_mods; exact Hpool).
  destruct (pool_of_rep _ _ _ Hpo) as [R _].
  assert (versions_differ (λ p, p ∈ ds_installed ds)) as Hv.
  { intros p q Hp Hq. by apply (nd_differ (mjoin repos) Hnd); apply Hinst. }
  apply mbind_ok in H as ([[[ids rules] uenv] ust] & Hcr & H). apply mbind_ok in H' as ([[[ids' rules'] uenv'] ust'] & Hcr' & H').
  destruct (create_rules_spec e He po _ R Hinj _ Hinst _ _ _ _ _ _ _ Hcr) as (iids & st & PB).
  destruct (create_rules_spec e' He' po _ R Hinj _ Hinst _ _ _ _ _ _ _ Hcr') as (iids' & st' & PB').
  assert (ids = ids' ∧ rules = rules' ∧ ust = ust' ∧ ∃ pr, uenv = UcEnv (pkg_id_to_version po) (e_ord e) pr ∧ uenv' = UcEnv (pkg_id_to_version po) (e_ord e') pr)
    as (<- & <- & <- & pr & -> & ->).
  { unfold create_rules in Hcr, Hcr'.
    apply mbind_ok in Hcr as ([i1 s1] & E1 & Hcr). rewrite E1 in Hcr'. cbn [mbind res_bind] in Hcr'.
    apply mbind_ok in Hcr as (i2 & E2 & Hcr). rewrite E2 in Hcr'. cbn [mbind res_bind] in Hcr'.
    rewrite (preferred_same _ _ R Hinj _ Hinst Hv e' e s1 He' He) in Hcr'.
    apply mbind_ok in Hcr as (pr & E3 & Hcr). rewrite E3 in Hcr'. cbn [mbind res_bind] in Hcr'.
    apply mbind_ok in Hcr as (st0 & E4 & Hcr). rewrite E4 in Hcr'. cbn [mbind res_bind] in Hcr'.
    injection Hcr as <- <- <- <-. injection Hcr' as <- <- <- <-. repeat split; eauto. }
  pose proof (run_same e e' He He' po _ R Hnd pr fuel ust (rule_clauses rules)) as Hag.
  apply mbind_ok in H as (o1 & Hrun & H). apply mbind_ok in H' as (o2 & Hrun' & H'). rewrite Hrun, Hrun' in Hag.
  destruct o1 as [a|c k s], o2 as [a'|c' k' s']; cbn in Hag; try done.
  2: { injection H as <-. injection H' as <-. done. }
  destruct Hag as [_ Ea].
  assert (solution_to_ids a = solution_to_ids a') as Es by (unfold solution_to_ids; by rewrite Ea).
  rewrite <-Es in H'.
  apply mbind_ok in H as (iids1 & Hii & H). apply mbind_ok in H' as (iids2 & Hii' & H').
  rewrite (pids_ok po _ R) in Hii, Hii' by done. injection Hii as <-. injection Hii' as <-.
  apply mbind_ok in H as (dec & Hdec & H). apply mbind_ok in H as (t & Ht & H). injection H as <-.
  apply mbind_ok in H' as (dec' & Hdec' & H'). apply mbind_ok in H' as (t' & Ht' & H'). injection H' as <-.
  assert (Hcd : decided po (mjoin repos) (ds_installed ds) (rq_jobs rq') a dec).
  { destruct (ds_pruning ds).
    - apply mbind_ok in Hdec as (X & HX & [= <-]). eapply decided_pruned; eauto.
    - injection Hdec as <-. eapply decided_all; eauto. }
  assert (∀ x, x ∈ dec ↔ x ∈ dec') as Hd.
  { destruct (ds_pruning ds).
    - apply mbind_ok in Hdec as (X & HX & [= <-]). apply mbind_ok in Hdec' as (X' & HX' & [= <-]).
      assert (X = X') as <-.
      { eapply (pruned_same e e' He He' po _ R Hinj); [| |exact HX|exact HX'].
        - exact (sol_lit po _ _ _ _ (run_solved e He po _ R Hinj _ Hinst _ _ _ _ _ _ _ _ _ PB _ _ Hrun)).
        - eapply (roots_ok e po _ R Hinj _ Hinst _ _ _ _ _ _ _ _ _ PB). }
      intros x. by rewrite (e_ord_elem e He), (e_ord_elem e' He').
    - injection Hdec as <-. injection Hdec' as <-. done. }
  eapply (transaction_same po _ R Hinj Hnd dec dec'); [| |exact Hd| | |exact Ht|exact Ht'].
  - apply (dc_lits _ _ _ _ _ _ Hcd).
  - rename Hcd into D. intros x Hx Hnx. destruct (dc_lits _ _ _ _ _ _ D x Hx) as (p & Hp & [-> | ->]).
    + assert (H1 := dc_pos _ _ _ _ _ _ D p Hp Hx). assert (H2 := dc_neg _ _ _ _ _ _ D p Hp Hnx). congruence.
    + rewrite Z.opp_involutive in Hnx. assert (H1 := dc_pos _ _ _ _ _ _ D p Hp Hnx). assert (H2 := dc_neg _ _ _ _ _ _ D p Hp Hx). congruence.
  - exact (ilist_ok e He po _ _ Hinst).
  - intros x. by rewrite (e_ord_elem e He), (e_ord_elem e' He').
Qed.
(** A pool that meets the hypotheses of C59_hash_seed and C59_any_order. *)
Definition dist_remote : list package := [seed_remote 1 "A"; seed_remote 2 "B"].
Definition dist_inst : list package := [Pkg "A" (V 3 0) [] [] [] (Some "i"); Pkg "B" (V 4 0) [] [] [] (Some "i")].
Definition dist_ds : dep_solver := ds0 [dist_remote; dist_inst] [dist_remote] dist_inst true false.
Theorem C59_example : setting [dist_remote; dist_inst] dist_ds ∧ asks dist_ds (ask [want "C"]) [want "C"] ∧
  NoDup (p_version <$> mjoin [dist_remote; dist_inst]) ∧ versions_differ (λ p, p ∈ dist_inst) ∧
  (∃ t, solve env0 dist_ds 60 (ask [want "C"]) = Ok (Normal t) ∧ t_ops t = [RemoveOp (Pkg "B" (V 4 0) [] [] [] (Some "i")); InstallOp (seed_remote 2 "B")]) ∧
  (∃ t, solve env1 dist_ds 60 (ask [want "C"]) = Ok (Normal t) ∧ t_ops t = [RemoveOp (Pkg "B" (V 4 0) [] [] [] (Some "i")); InstallOp (seed_remote 2 "B")]).
Proof.
  assert (NoDup (p_version <$> mjoin [dist_remote; dist_inst])) as Hnd by (apply (bool_decide_unpack _); vm_compute; exact I).
  split; [run|]. split; [run|]. split; [exact Hnd|]. split; [|split; run].
  intros p q Hp Hq. apply (nd_differ _ Hnd); cbn; set_solver.
Qed.
Print Assumptions C59_verdict. Print Assumptions C59_hash_seed. Print Assumptions C59_refuted. Print Assumptions C59_any_order.
