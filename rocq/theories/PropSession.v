(** * Property C66: programs that make many calls on one pool. *)
From Verif Require Import PoolProofs PropPool SolveProofs PropLimits.
From Verif Require Export SessionProofs.

(** ** The answer of solve is that of a pool made now of the same repositories, for the request as it is now. *)
Lemma fresh_pool h w m : happens world0 h w → adds_ok h → (∀ n, ¬ looked_up h.*1 m n) →
  ∃ po, pool_of (added h.*1) None = Ok po ∧ po_p2i (w_pool w) = po_p2i po ∧ po_i2p (w_pool w) = po_i2p po ∧
  (∀ x r b, x = None ∨ x = Some m → what_provides (set_mods (w_pool w) x) r b = what_provides (set_mods po x) r b) ∧
  (∀ s, name_to_packages (w_pool w) s = name_to_packages po s).
Proof.
  intros Hh Hok Hno. destruct (history_pool _ _ Hh Hok) as (po & Hpo & T). exists po. split; [done|].
  split; [apply T|]. split; [apply T|]. split.
  - intros x r b Hx. eapply twin_what; [exact T|]. intros n Hr H0 m' ->. destruct Hx as [|[= ->]]; [done|].
    intros Hn. apply (Hno n). split; [done|]. split; [done|]. intros p Hp Hpr.
    destruct (pool_of_rep _ _ _ Hpo) as [R _]. rewrite (pr_byname _ _ R) in H0.
    assert (p ∈ by_name (mjoin (added h.*1)) n) as Hb.
    { unfold by_name. apply elem_of_list_join. eexists. split; [|apply elem_of_list_fmap; exists p; split; [reflexivity|done]].
      apply elem_of_list_fmap. exists n. split; [done|]. apply elem_of_list_filter. split; [done|]. by apply provides_names. }
    destruct (by_name _ n); [by apply elem_of_nil in Hb|done].
  - intros s. unfold name_to_packages. apply (twin_default (λ n, NameToPackages n ∈ h.*1)). exact (tw_names _ _ _ T).
Qed.
Lemma set_mods_eta po m : set_mods (set_mods po m) = set_mods po.
Proof. done. Qed.

Theorem C66_fresh : ∀ h w e fuel remote inst pruning strict k w' a,
  happens world0 h w → step w (Solve e fuel remote inst pruning strict k) = Some (w', a) →
  adds_ok h → (∀ n, ¬ looked_up h.*1 (rq_mods (request_of h.*1 k)) n) →
  ∃ po, pool_of (added h.*1) None = Ok po ∧
    a = to_answer ASolved (solve e (fresh h.*1 po remote inst pruning strict) fuel (request_of h.*1 k)).
Proof.
  intros h w e fuel remote inst pr st k w' a Hh Hs Hok Hno.
  destruct (fresh_pool _ _ _ Hh Hok Hno) as (po & Hpo & E1 & E2 & E3 & E4). exists po. split; [done|].
  pose proof (history_built _ _ Hh) as B. cbn [step] in Hs.
  destruct (solver_now _ _ _ _ _) as [ds|] eqn:Eds; cbn in Hs; [|done].
  destruct (request_now w k) as [[x rq]|] eqn:Erq; cbn in Hs; [|done]. injection Hs as <- <-.
  apply (solver_now_spec _ _ _ _ _ _ _ B) in Eds as ->. apply (request_now_spec _ _ _ _ _ B) in Erq as [_ ->].
  f_equal. apply solve_like; [exact E1|exact E2| |exact E4].
  intros m r b ->. unfold pool_now, solve_pool. cbn [po_mods set_mods]. rewrite !set_mods_eta. apply E3.
  destruct (decide _); auto.
Qed.
Theorem C66_fresh_hint : ∀ h w e fuel remote inst pruning strict k w' a,
  happens world0 h w → step w (SolveWithHint e fuel remote inst pruning strict k) = Some (w', a) →
  adds_ok h → (∀ n, ¬ looked_up h.*1 (rq_mods (request_of h.*1 k)) n) →
  ∃ po, pool_of (added h.*1) None = Ok po ∧
    a = to_answer AHint (solve_with_hint e (fresh h.*1 po remote inst pruning strict) fuel (request_of h.*1 k)).
Proof.
  intros h w e fuel remote inst pr st k w' a Hh Hs Hok Hno.
  destruct (fresh_pool _ _ _ Hh Hok Hno) as (po & Hpo & E1 & E2 & E3 & E4). exists po. split; [done|].
  pose proof (history_built _ _ Hh) as B. cbn [step] in Hs.
  destruct (solver_now _ _ _ _ _) as [ds|] eqn:Eds; cbn in Hs; [|done].
  destruct (request_now w k) as [[x rq]|] eqn:Erq; cbn in Hs; [|done]. injection Hs as <- <-.
  apply (solver_now_spec _ _ _ _ _ _ _ B) in Eds as ->. apply (request_now_spec _ _ _ _ _ B) in Erq as [_ ->].
  f_equal. apply hint_like; [exact E1|exact E2| |exact E4].
  intros m r b ->. unfold pool_now, solve_pool. cbn [po_mods set_mods]. rewrite !set_mods_eta. apply E3.
  destruct (decide _); auto.
Qed.

(** ** Queries, solves (of whatever outcome) and assignments to [pool.modifiers] do not change what later solves
    answer, in whatever state they start. *)
Definition harmless (c : call) : Prop :=
  match c with
  | SetPoolModifiers _ | WhatProvides _ _ | PackageId _ | IdToPackage _ | Solve _ _ _ _ _ _ _ | SolveWithHint _ _ _ _ _ _ _ => True
  | _ => False
  end.
Definition is_solve (c : call) : Prop :=
  match c with Solve _ _ _ _ _ _ _ | SolveWithHint _ _ _ _ _ _ _ => True | _ => False end.
Lemma harmless_step w c w' a : harmless c → step w c = Some (w', a) →
  w_mods w' = w_mods w ∧ w_reqs w' = w_reqs w ∧ w_repos w' = w_repos w ∧ w_pool w' = w_pool w.
Proof.
  intros Hc H. destruct c as [m0|a1 a2|a1 ps|a1|k c|ps|r p|r|m0|r b|n|p|i|e fuel remote inst pr st k|e fuel remote inst pr st k]; try done;
    cbn [step] in H.
  - destruct m0 as [x|]; [destruct (w_mods w !! x); cbn in H; [|done]|]; by injection H as <- <-.
  - by injection H as <- <-.
  - by injection H as <- <-.
  - by injection H as <- <-.
  - destruct (solver_now _ _ _ _ _) as [ds|]; cbn in H; [|done]. destruct (request_now _ _) as [[x rq]|]; cbn in H; [|done].
    injection H as <- <-. unfold after_solve. by destruct (convert_upgrade _ _ _).
  - destruct (solver_now _ _ _ _ _) as [ds|]; cbn in H; [|done]. destruct (request_now _ _) as [[x rq]|]; cbn in H; [|done].
    injection H as <- <-. unfold after_solve. by destruct (convert_upgrade _ _ _).
Qed.
Lemma harmless_happens h : ∀ w w', (∀ c a, (c, a) ∈ h → harmless c) → happens w h w' →
  w_mods w' = w_mods w ∧ w_reqs w' = w_reqs w ∧ w_repos w' = w_repos w ∧ w_pool w' = w_pool w.
Proof.
  induction h as [|[c a] h IH]; intros w w' Hc; cbn [happens]; [by intros ->|].
  intros (w1 & H1 & H2). apply harmless_step in H1 as (E1 & E2 & E3 & E4); [|eapply Hc; left].
  apply IH in H2 as (F1 & F2 & F3 & F4); [|intros c' a' Hin; eapply Hc; by right].
  repeat split; congruence.
Qed.
Lemma same_answer w w' c a : is_solve c → w_mods w' = w_mods w → w_reqs w' = w_reqs w → w_repos w' = w_repos w → w_pool w' = w_pool w →
  (∃ w1, step w c = Some (w1, a)) → ∃ w2, step w' c = Some (w2, a).
Proof.
  destruct w as [ms rs re po pm], w' as [ms' rs' re' po' pm']. cbn. intros Hc -> -> -> -> (w1 & H).
  assert (G : ∀ remote inst pr st ds, solver_now (World ms rs re po pm) remote inst pr st = Some ds →
    ∃ ds', solver_now (World ms rs re po pm') remote inst pr st = Some ds' ∧
    ∀ e fuel rq, solve e ds fuel rq = solve e ds' fuel rq ∧ solve_with_hint e ds fuel rq = solve_with_hint e ds' fuel rq).
  { intros remote inst pr st ds. unfold solver_now. cbn [w_repos]. destruct (mapM _ _); cbn; [|done].
    destruct (re !! inst); cbn; [|done]. intros [= <-]. eexists. split; [reflexivity|]. intros e fuel rq.
    split; [apply solve_like|apply hint_like]; try done; intros m r x ->; done. }
  destruct c; try done; cbn [step] in H |- *.
  - destruct (solver_now _ _ _ _ _) as [ds|] eqn:Eds; cbn in H; [|done]. destruct (G _ _ _ _ _ Eds) as (ds' & -> & Hs). cbn.
    change (request_now (World ms rs re po pm') k) with (request_now (World ms rs re po pm) k).
    destruct (request_now _ k) as [[x rq]|]; cbn in H |- *; [|done]. injection H as <- <-.
    destruct (Hs e fuel rq) as [-> _]. eauto.
  - destruct (solver_now _ _ _ _ _) as [ds|] eqn:Eds; cbn in H; [|done]. destruct (G _ _ _ _ _ Eds) as (ds' & -> & Hs). cbn.
    change (request_now (World ms rs re po pm') k) with (request_now (World ms rs re po pm) k).
    destruct (request_now _ k) as [[x rq]|]; cbn in H |- *; [|done]. injection H as <- <-.
    destruct (Hs e fuel rq) as [_ ->]. eauto.
Qed.
Theorem C66_undisturbed : ∀ w h w' c a, happens w h w' → (∀ c' a', (c', a') ∈ h → harmless c') → is_solve c →
  (∃ w1, step w c = Some (w1, a)) ↔ (∃ w2, step w' c = Some (w2, a)).
Proof.
  intros w h w' c a Hh Hc Hs. apply harmless_happens in Hh as (E1 & E2 & E3 & E4); [|done].
  split; apply same_answer; done.
Qed.

(** ** The id of a package is its id for ever, even if a later add_repository fails. *)
Lemma zdict_app l k i p : zdict_get l i = Some p → zdict_get (l ++ k) i = Some p.
Proof. induction l as [|[j q] l IH]; cbn; [done|]. destruct (j =? i); auto. Qed.
Lemma add_eff_ids ps : ∀ po i p, zdict_get (po_i2p po) i = Some p → zdict_get (po_i2p (add_repository_eff po ps).1) i = Some p.
Proof.
  induction ps as [|q ps IH]; intros po i p H; cbn [add_repository_eff]; [done|].
  unfold pool_add_eff. destruct (provide_loop _ _ _) as [b [x|]]; cbn [fst].
  - cbn. by apply zdict_app.
  - apply IH. cbn. by apply zdict_app.
Qed.
Theorem C66_ids_stable : ∀ w h w' i p, happens w h w' →
  step w (IdToPackage i) = Some (w, APackage p) → step w' (IdToPackage i) = Some (w', APackage p).
Proof.
  intros w h w' i p Hh H. assert (zdict_get (po_i2p (w_pool w)) i = Some p) as Hi.
  { cbn [step] in H. unfold pool_now, id_to_package in H. cbn in H. destruct (zdict_get _ _); cbn in H; congruence. }
  assert (zdict_get (po_i2p (w_pool w')) i = Some p) as Hi'.
  2:{ cbn [step]. unfold pool_now, id_to_package. cbn. by rewrite Hi'. }
  clear H. revert w Hh Hi. induction h as [|[c a] h IH]; intros w; cbn [happens]; [by intros ->|].
  intros (w1 & H1 & H2) Hi. apply (IH _ H2). clear IH H2.
  assert (Hcase : (∃ r, c = AddRepository r) ∨ (∃ n, c = NameToPackages n) ∨
                  ((∀ r, c ≠ AddRepository r) ∧ (∀ n, c ≠ NameToPackages n))) by (destruct c; naive_solver).
  destruct Hcase as [(r & ->)|[(n & ->)|[Ha Hn]]].
  - cbn [step] in H1. destruct (w_repos w !! r) as [re|]; cbn in H1; [|done].
    pose proof (add_eff_ids (repo_iter re) _ _ _ Hi) as G. destruct (add_repository_eff _ _) as [po x]. by injection H1 as <- <-.
  - cbn [step] in H1. unfold name_to_packages_eff in H1. by injection H1 as <- <-.
  - by rewrite (plain_pool _ _ _ _ H1 Ha Hn).
Qed.

(** ** Ids and packages correspond after any history, even if add_repository failed in between: the ids in use are
    1..n, the id of a package leads back to an equal package, and the package of an id has an id. *)
Definition ids_ok (po : pool) : Prop :=
  (∃ n, po_next po = Z.of_nat n + 1 ∧ (po_i2p po).*1 = Z.of_nat <$> seq 1 n) ∧
  (∀ p i, pdict_get (po_p2i po) p = Some i → ∃ q, zdict_get (po_i2p po) i = Some q ∧ pkg_key q = pkg_key p) ∧
  (∀ i q, zdict_get (po_i2p po) i = Some q → is_Some (pdict_get (po_p2i po) q)).
Lemma zdict_key l i : is_Some (zdict_get l i) ↔ i ∈ l.*1.
Proof.
  induction l as [|[j r] l IH]; cbn.
  { split; [by intros [? [=]]|by intros ?%elem_of_nil]. }
  rewrite elem_of_cons. destruct (j =? i) eqn:E.
  - apply Z.eqb_eq in E as ->. naive_solver.
  - rewrite IH. apply Z.eqb_neq in E. naive_solver.
Qed.
Lemma zdict_last l k i p : i ∉ l.*1 → zdict_get (l ++ [(i, p)]) k = if decide (k = i) then Some p else zdict_get l k.
Proof.
  induction l as [|[j q] l IH]; cbn.
  - intros _. destruct (i =? k) eqn:E, (decide (k = i)) as [|]; try done; lia.
  - rewrite not_elem_of_cons. intros [H1 H2]. destruct (j =? k) eqn:Ek; [|by apply IH].
    destruct (decide (k = i)); [lia|done].
Qed.
Lemma ids_ok_range po n : po_next po = Z.of_nat n + 1 → (po_i2p po).*1 = Z.of_nat <$> seq 1 n →
  ∀ i, i ∈ (po_i2p po).*1 ↔ 1 ≤ i < po_next po.
Proof.
  intros Hn -> i. rewrite elem_of_list_fmap. setoid_rewrite elem_of_seq. split; [intros (k & -> & H); lia|].
  intros H. exists (Z.to_nat i). lia.
Qed.
Lemma ids_ok_add po p : ids_ok po → ids_ok (pool_add_eff po p).1.
Proof.
  intros ((n & Hn & Hs) & Hp & Hi). unfold pool_add_eff. destruct (provide_loop _ _ _) as [b x]. cbn [fst].
  assert (Hnone : po_next po ∉ (po_i2p po).*1) by (rewrite (ids_ok_range _ _ Hn Hs); lia).
  split; [|split]; cbn [po_next po_p2i po_i2p].
  - exists (S n). split; [lia|]. rewrite fmap_app, Hs, seq_S, fmap_app. cbn. do 2 f_equal. lia.
  - intros q i. rewrite pdict_get_set, (zdict_last _ _ _ _ Hnone). destruct (decide (pkg_key p = pkg_key q)) as [E|E].
    + intros [= <-]. destruct (decide _); [|done]. eauto.
    + intros H. destruct (Hp _ _ H) as (r & Hr & Hk). destruct (decide (i = po_next po)) as [->|]; [|eauto].
      destruct Hnone. apply zdict_key. eauto.
  - intros i q. rewrite (zdict_last _ _ _ _ Hnone), pdict_get_set. destruct (decide (i = po_next po)) as [->|].
    + intros [= ->]. destruct (decide _); [eauto|done].
    + intros H. destruct (decide _); [eauto|by eapply Hi].
Qed.
Lemma ids_ok_repo ps : ∀ po, ids_ok po → ids_ok (add_repository_eff po ps).1.
Proof.
  induction ps as [|p ps IH]; intros po H; cbn [add_repository_eff]; [done|].
  apply (ids_ok_add po p) in H. destruct (pool_add_eff po p) as [po' [x|]]; cbn [fst] in H |- *; [done|auto].
Qed.
Lemma history_ids h : ∀ w w', ids_ok (w_pool w) → happens w h w' → ids_ok (w_pool w').
Proof.
  induction h as [|[c a] h IH]; intros w w' Hok; cbn [happens]; [by intros <-|].
  intros (w1 & H1 & H2). apply (IH w1); [|done]. clear IH H2.
  assert (Hcase : (∃ r, c = AddRepository r) ∨ (∃ n, c = NameToPackages n) ∨
                  ((∀ r, c ≠ AddRepository r) ∧ (∀ n, c ≠ NameToPackages n))) by (destruct c; naive_solver).
  destruct Hcase as [(r & ->)|[(n & ->)|[Ha Hn]]].
  - cbn [step] in H1. destruct (w_repos w !! r) as [re|]; cbn in H1; [|done].
    pose proof (ids_ok_repo (repo_iter re) _ Hok) as G. destruct (add_repository_eff _ _) as [po x]. by injection H1 as <- <-.
  - cbn [step] in H1. unfold name_to_packages_eff in H1. by injection H1 as <- <-.
  - by rewrite (plain_pool _ _ _ _ H1 Ha Hn).
Qed.
Theorem C66_ids_match : ∀ h w, happens world0 h w →
  (∃ n : nat, ∀ i, (∃ p, step w (IdToPackage i) = Some (w, APackage p)) ↔ 1 ≤ i ≤ Z.of_nat n) ∧
  (∀ p i, step w (PackageId p) = Some (w, AId i) → ∃ q, step w (IdToPackage i) = Some (w, APackage q) ∧ same q p) ∧
  (∀ i q, step w (IdToPackage i) = Some (w, APackage q) → ∃ j, step w (PackageId q) = Some (w, AId j)).
Proof.
  intros h w H. apply history_ids in H as ((n & Hn & Hs) & Hp & Hi).
  2:{ split; [by exists 0%nat|]. split; intros ? ?; done. }
  assert (Hid : ∀ i q, step w (IdToPackage i) = Some (w, APackage q) ↔ zdict_get (po_i2p (w_pool w)) i = Some q).
  { intros i q. cbn [step]. unfold pool_now, id_to_package. cbn. destruct (zdict_get _ _); cbn; split; congruence. }
  assert (Hpk : ∀ p i, step w (PackageId p) = Some (w, AId i) ↔ pdict_get (po_p2i (w_pool w)) p = Some i).
  { intros p i. cbn [step]. unfold pool_now, package_id. cbn. destruct (pdict_get _ _); cbn; split; congruence. }
  split; [|split].
  - exists n. intros i. setoid_rewrite Hid. pose proof (zdict_key (po_i2p (w_pool w)) i) as G.
    rewrite (ids_ok_range _ _ Hn Hs) in G. unfold is_Some in G. rewrite G. lia.
  - intros p i Hpi%Hpk. destruct (Hp _ _ Hpi) as (q & Hq & E). exists q. split; [by apply Hid|done].
  - intros i q Hq%Hid. destruct (Hi _ _ Hq) as [j Hj]. exists j. by apply Hpk.
Qed.

(** ** What the pool answers depends on the last solve *)
Lemma add_jobs_ok ps : ∀ rq, (∀ j, j ∈ rq_jobs rq → j_kind j = JInstall) →
  ∃ rq', foldM (λ rq p, add_job rq (Some (upgrade_requirement p)) JInstall) ps rq = Ok rq'.
Proof.
  induction ps as [|p ps IH]; intros rq H; cbn [foldM]; [eauto|]. unfold add_job at 2.
  assert (existsb (λ j, bool_decide (j_kind j = JUpgrade)) (rq_jobs rq) = false) as E.
  { apply not_true_iff_false. intros (j & Hj & Hk)%existsb_exists. apply elem_of_list_In, H in Hj.
    apply bool_decide_eq_true in Hk. congruence. }
  rewrite E, orb_false_l, (bool_decide_eq_false_2 (JInstall = JUpgrade)), andb_false_r by done. cbn [mk_job mbind res_bind].
  apply IH. cbn. intros j [Hj|Hj]%elem_of_app; [auto|]. by apply elem_of_list_singleton in Hj as ->.
Qed.
Lemma convert_ok rq remote inst : ∃ rq', convert_upgrade rq remote inst = Ok rq'.
Proof.
  unfold convert_upgrade. destruct (rq_jobs rq) as [|j [|? ?]]; [eauto| |eauto]. destruct (decide _); [|eauto].
  apply add_jobs_ok. intros k Hk. by apply elem_of_nil in Hk.
Qed.
Lemma mods_grow w c w' a : step w c = Some (w', a) → (length (w_mods w) ≤ length (w_mods w'))%nat.
Proof.
  intros H. destruct c as [m0|a1 a2|a1 ps|a1|k c|ps|r p|r|m0|r b|n|p|i|e fuel remote inst pr st k|e fuel remote inst pr st k];
    cbn [step] in H.
  - injection H as <- <-. cbn. rewrite app_length. lia.
  - destruct (w_mods w !! a1); cbn in H; [|done]. destruct (w_mods w !! a2); cbn in H; [|done]. injection H as <- <-. cbn. by rewrite insert_length.
  - destruct (w_mods w !! a1); cbn in H; [|done]. injection H as <- <-. cbn. by rewrite insert_length.
  - destruct (w_mods w !! a1); cbn in H; [|done]. by injection H as <- <-.
  - destruct (request_now w k) as [[x rq]|]; cbn in H; [|done]. destruct (do_call rq c); injection H as <- <-; cbn; by rewrite ?insert_length.
  - by injection H as <- <-.
  - destruct (w_repos w !! r); cbn in H; [|done]. by injection H as <- <-.
  - destruct (w_repos w !! r); cbn in H; [|done]. destruct (add_repository_eff _ _). by injection H as <- <-.
  - destruct m0 as [x|]; [destruct (w_mods w !! x); cbn in H; [|done]|]; by injection H as <- <-.
  - by injection H as <- <-.
  - destruct (name_to_packages_eff _ _). by injection H as <- <-.
  - by injection H as <- <-.
  - by injection H as <- <-.
  - destruct (solver_now _ _ _ _ _) as [ds|]; cbn in H; [|done]. destruct (request_now _ _) as [[x rq]|]; cbn in H; [|done].
    injection H as <- <-. unfold after_solve. by destruct (convert_upgrade _ _ _).
  - destruct (solver_now _ _ _ _ _) as [ds|]; cbn in H; [|done]. destruct (request_now _ _) as [[x rq]|]; cbn in H; [|done].
    injection H as <- <-. unfold after_solve. by destruct (convert_upgrade _ _ _).
Qed.
Lemma request_now_addr calls w k a rq : built calls w → request_now w k = Some (a, rq) → (a < length (w_mods w))%nat.
Proof.
  intros B. unfold request_now. destruct (w_reqs w !! k) as [[x js]|] eqn:E; cbn; [|done].
  destruct (w_mods w !! x) as [m|] eqn:Em; cbn; [|done]. intros [= <- <-]. by eapply lookup_lt_Some.
Qed.
Lemma history_pmods h : ∀ w, happens world0 h w → w_pmods w = refers_to (reverse h.*1) ∧
  (∀ a, w_pmods w = Some a → (a < length (w_mods w))%nat).
Proof.
  induction h as [|[c a] h IH] using rev_ind; intros w; [cbn [happens]; intros E0; rewrite <- E0; split; [reflexivity|intros ? Hx; cbn in Hx; discriminate Hx]|].
  rewrite happens_app. cbn [happens]. intros (w1 & H1 & (w2 & H2 & E2)). subst w2. destruct (IH _ H1) as [IH1 IH2].
  pose proof (history_built _ _ H1) as B. pose proof (mods_grow _ _ _ _ H2) as Hg.
  rewrite fmap_app. cbn [fmap list_fmap fst]. rewrite reverse_snoc.
  assert (Hs : ∀ ds k x rq, request_now w1 k = Some (x, rq) → w_pmods (after_solve w1 ds x rq) =
            (a ← modifiers_of (reverse (reverse h.*1)) k; if decide (targets (names_in (reverse h.*1) a) = ∅) then None else Some a) ∧
            (x < length (w_mods (after_solve w1 ds x rq)))%nat).
  { intros ds k x rq Erq. unfold after_solve. destruct (convert_ok rq (ds_remote ds) (ds_installed ds)) as [rq' ->]. cbn [w_pmods w_mods].
    split; [|by eapply request_now_addr].
    destruct (request_now_spec _ _ _ _ _ B Erq) as [Em ->]. rewrite reverse_involutive, Em. cbn. by rewrite Em. }
  destruct c as [m0|a1 a2|a1 ps|a1|k c|ps|r p|r|m0|r b|n|p|i|e fuel remote inst pr st k|e fuel remote inst pr st k]; cbn [step] in H2; cbn [refers_to].
  - injection H2 as <- <-. cbn in *. split; [done|]. intros x Hx%IH2. lia.
  - destruct (w_mods w1 !! a1); cbn in H2; [|done]. destruct (w_mods w1 !! a2); cbn in H2; [|done]. injection H2 as <- <-. cbn in *. split; [done|]. intros x Hx%IH2. lia.
  - destruct (w_mods w1 !! a1); cbn in H2; [|done]. injection H2 as <- <-. cbn in *. split; [done|]. intros x Hx%IH2. lia.
  - destruct (w_mods w1 !! a1); cbn in H2; [|done]. by injection H2 as <- <-.
  - destruct (request_now w1 k) as [[x rq]|]; cbn in H2; [|done]. destruct (do_call rq c); injection H2 as <- <-; cbn in *; (split; [done|]); intros z Hz%IH2; lia.
  - by injection H2 as <- <-.
  - destruct (w_repos w1 !! r); cbn in H2; [|done]. by injection H2 as <- <-.
  - destruct (w_repos w1 !! r); cbn in H2; [|done]. destruct (add_repository_eff _ _). by injection H2 as <- <-.
  - destruct m0 as [x|]; [destruct (w_mods w1 !! x) eqn:Ex; cbn in H2; [|done]|]; injection H2 as <- <-; cbn in *; (split; [done|]); [|done].
    intros z [= <-]. by eapply lookup_lt_Some.
  - by injection H2 as <- <-.
  - destruct (name_to_packages_eff _ _). by injection H2 as <- <-.
  - by injection H2 as <- <-.
  - by injection H2 as <- <-.
  - destruct (solver_now _ _ _ _ _) as [ds|]; cbn in H2; [|done]. destruct (request_now _ _) as [[x rq]|] eqn:Erq; cbn in H2; [|done].
    injection H2 as <- <-. destruct (Hs ds k x rq Erq) as [E1 E2]. split; [exact E1|]. intros z Hz. rewrite E1 in Hz.
    destruct (request_now_spec _ _ _ _ _ B Erq) as [Em _]. rewrite reverse_involutive, Em in Hz. cbn in Hz. destruct (decide _); [done|].
    injection Hz as <-. exact E2.
  - destruct (solver_now _ _ _ _ _) as [ds|]; cbn in H2; [|done]. destruct (request_now _ _) as [[x rq]|] eqn:Erq; cbn in H2; [|done].
    injection H2 as <- <-. destruct (Hs ds k x rq Erq) as [E1 E2]. split; [exact E1|]. intros z Hz. rewrite E1 in Hz.
    destruct (request_now_spec _ _ _ _ _ B Erq) as [Em _]. rewrite reverse_involutive, Em in Hz. cbn in Hz. destruct (decide _); [done|].
    injection Hz as <-. exact E2.
Qed.
Theorem C66_what_provides : ∀ h w r b w' a, happens world0 h w → step w (WhatProvides r b) = Some (w', a) → adds_ok h →
  (∀ m n, pool_modifiers h.*1 = Some m → ¬ looked_up h.*1 m n) →
  ∃ po, pool_of (added h.*1) (pool_modifiers h.*1) = Ok po ∧ a = to_answer APackages (what_provides po r b).
Proof.
  intros h w r b w' a Hh Hs Hok Hno. destruct (history_pmods _ _ Hh) as [P1 P2]. pose proof (history_built _ _ Hh) as B.
  assert (E : (w_pmods w ≫= λ a, w_mods w !! a) = pool_modifiers h.*1).
  { unfold pool_modifiers. rewrite <-P1. destruct (w_pmods w) as [x|]; [|done]. cbn.
    destruct (lookup_lt_is_Some_2 (w_mods w) x) as [m Hm]; [by apply P2|]. rewrite Hm. f_equal. by apply (bu_mods _ _ B). }
  injection Hs as <- <-. unfold pool_now. rewrite E.
  destruct (pool_modifiers h.*1) as [m|] eqn:Em.
  - destruct (fresh_pool _ _ m Hh Hok) as (po & Hpo & _ & _ & E3 & _); [by intros n; apply Hno|].
    exists (set_mods po (Some m)). split; [by eapply pool_of_mods|]. f_equal. apply E3. by right.
  - destruct (fresh_pool _ _ no_mods Hh Hok) as (po & Hpo & _ & _ & E3 & _). { intros n (_ & Hn & _). set_solver. }
    exists (set_mods po None). split; [by eapply pool_of_mods|]. f_equal. apply E3. by left.
Qed.

(** ** Non-vacuity and limits *)
Fixpoint play (w : world) (calls : list call) : option (list (call * answer) * world) :=
  match calls with
  | [] => Some ([], w)
  | c :: calls => match step w c with
                  | Some (w1, a) => match play w1 calls with Some (h, w') => Some ((c, a) :: h, w') | None => None end
                  | None => None
                  end
  end.
Lemma play_spec calls : ∀ w h w', play w calls = Some (h, w') → happens w h w' ∧ h.*1 = calls.
Proof.
  induction calls as [|c calls IH]; intros w h w'; cbn [play]; [intros [= <- <-]; done|].
  destruct (step w c) as [[w1 a]|] eqn:E; [|done]. destruct (play w1 calls) as [[h1 w2]|] eqn:E1; [|done].
  intros [= <- <-]. apply IH in E1 as [H1 H2]. cbn [happens]. split; [eauto|]. cbn. by rewrite H2.
Qed.
Definition installs (a : answer) (ps : list package) : bool :=
  match a with ASolved (Normal t) => bool_decide (t_ops t = InstallOp <$> ps) | _ => false end.
Definition add_failed (x : call * answer) : bool :=
  match x with (AddRepository _, ARaise _) => true | _ => false end.
Definition ends_with (calls : list call) (c : call) (f : answer → bool) : bool :=
  match play world0 calls with
  | Some (h, w) => negb (existsb add_failed h) && match step w c with Some (_, a) => f a | None => false end
  | None => false
  end.
Lemma ends_with_spec calls c f : ends_with calls c f = true →
  ∃ h w w' a, happens world0 h w ∧ h.*1 = calls ∧ adds_ok h ∧ step w c = Some (w', a) ∧ f a = true.
Proof.
  unfold ends_with. destruct (play world0 calls) as [[h w]|] eqn:E; [|done]. apply play_spec in E as [H1 H2].
  intros [Hn H]%andb_true_iff. destruct (step w c) as [[w' a]|] eqn:Es; [|done]. exists h, w, w', a. split; [done|]. split; [done|].
  split; [|done]. intros r x Hin. apply negb_true_iff, not_true_iff_false in Hn. apply Hn, existsb_exists.
  eexists. split; [by apply elem_of_list_In|done].
Qed.
Lemma installs_spec a ps : installs a ps = true → ∃ t, a = ASolved (Normal t) ∧ t_ops t = InstallOp <$> ps.
Proof. unfold installs. destruct a as [| | | |[t|? ? ?]| |]; try (intros E; discriminate E). intros H%bool_decide_eq_true. eauto. Qed.

Definition s_pkg (n : string) (v : Z) (rq cf pv : list cdep) : package := Pkg n (V v 0) rq cf pv (Some "r").
Definition s_req (n : string) (cs : list constr) : requirement := Req RInstall n cs.
Definition s_app : package := s_pkg "app" 1 [("lib", [[[CEqual (V 1 0)]]])] [("X", [[[CEqual (V 1 0)]]])] [].
(** A program: two requests on one pool, one of them solved before the repository with lib is added and the modifiers are
    set; queries in between.  The second solve of the first request installs both packages. *)
Definition s_calls : list call :=
  [NewModifiers no_mods; NewRequest 0; NewRepository [s_app]; NewRepository []; AddRepository 0;
   RequestCall 0 (CallInstall (s_req "app" [CAny])); Solve env0 60 [0%nat] 1 true false 0;
   NewRepository [s_pkg "lib" 2 [] [] []]; AddRepository 2; WhatProvides (s_req "lib" [CEqual (V 1 0)]) true;
   NameToPackages "lib"; NewModifiers no_mods; SetPoolModifiers (Some 1%nat); NewRequest 1; RequestCall 1 (CallAllowOlder "lib");
   RequestCall 1 (CallInstall (s_req "lib" [CGt (V 5 0)])); SolveWithHint env0 60 [0%nat; 2%nat] 1 true false 1;
   RequestCall 0 (CallAllowNewer "lib"); RequestCall 0 CallUpgrade].
Theorem C66_example : ∃ h w w' a, happens world0 h w ∧ h.*1 = s_calls ∧ adds_ok h ∧
  step w (Solve env0 60 [0%nat; 2%nat] 1 true false 0) = Some (w', a) ∧
  (∀ n, ¬ looked_up h.*1 (rq_mods (request_of h.*1 0)) n) ∧
  ∃ t, a = ASolved (Normal t) ∧ t_ops t = [InstallOp (s_pkg "lib" 2 [] [] []); InstallOp s_app].
Proof.
  destruct (ends_with_spec s_calls (Solve env0 60 [0%nat; 2%nat] 1 true false 0)
    (λ a, installs a [s_pkg "lib" 2 [] [] []; s_app])) as (h & w & w' & a & H1 & H2 & H3 & H4 & H5).
  { vm_compute. reflexivity. }
  exists h, w, w', a. split; [exact H1|]. split; [exact H2|]. split; [exact H3|]. split; [exact H4|]. split; [|exact (installs_spec _ _ H5)].
  rewrite H2. intros n (Hn & Ht & Hp).
  assert (n = "lib") as ->.
  { unfold s_calls in Hn. repeat (apply elem_of_cons in Hn as [Hn|Hn]; [try discriminate Hn; by injection Hn as ->|]). by apply elem_of_nil in Hn. }
  apply (Hp (s_pkg "lib" 2 [] [] [])); [|by left]. vm_compute. right. left.
Qed.

(** Looking up a name that is not in the pool is not harmless: it makes the same solve raise NotImplementedError if the
    name is among the targets of the modifiers and a package conflicts with some versions of it. *)
Definition l_calls : list call :=
  [NewModifiers no_mods; NewRequest 0; RequestCall 0 (CallInstall (s_req "app" [CAny])); RequestCall 0 (CallAllowAny "X");
   NewRepository [s_app; s_pkg "lib" 1 [] [] []]; NewRepository []; AddRepository 0].
Theorem C66_lookup_refuted : ∃ h w w' a h2 w2 w2' a2,
  happens world0 h w ∧ h.*1 = l_calls ∧ step w (Solve env0 60 [0%nat] 1 true false 0) = Some (w', a) ∧
  (∃ t, a = ASolved (Normal t) ∧ t_ops t = [InstallOp (s_pkg "lib" 1 [] [] []); InstallOp s_app]) ∧
  happens world0 h2 w2 ∧ h2.*1 = l_calls ++ [NameToPackages "X"] ∧ adds_ok h2 ∧
  step w2 (Solve env0 60 [0%nat] 1 true false 0) = Some (w2', a2) ∧ a2 = ARaise NotImplementedError.
Proof.
  destruct (ends_with_spec l_calls (Solve env0 60 [0%nat] 1 true false 0)
    (λ a, installs a [s_pkg "lib" 1 [] [] []; s_app])) as (h & w & w' & a & H1 & H2 & H3 & H4 & H5).
  { vm_compute. reflexivity. }
  destruct (ends_with_spec (l_calls ++ [NameToPackages "X"]) (Solve env0 60 [0%nat] 1 true false 0)
    (λ a, match a with ARaise NotImplementedError => true | _ => false end)) as (g & v & v' & b & G1 & G2 & G3 & G4 & G5).
  { vm_compute. reflexivity. }
  exists h, w, w', a, g, v, v', b. split; [exact H1|]. split; [exact H2|]. split; [exact H4|]. split; [exact (installs_spec _ _ H5)|].
  split; [exact G1|]. split; [exact G2|]. split; [exact G3|]. split; [exact G4|].
  destruct b as [| | | | | |[]]; try discriminate G5. reflexivity.
Qed.

(** What the pool answers does depend on the solves before: the modifiers given to the pool are gone after a solve, and
    those of the request that was solved last stay, including later changes to them. *)
Definition answers (a : answer) (ps : list package) : bool := match a with APackages qs => bool_decide (qs = ps) | _ => false end.
Lemma answers_spec a ps : answers a ps = true → a = APackages ps.
Proof. unfold answers. destruct a; try (intros E; discriminate E). intros ->%bool_decide_eq_true. done. Qed.
Definition m_lib : package := s_pkg "lib" 1 [] [] [].
Definition m_calls : list call :=
  [NewRepository [m_lib]; NewRepository []; AddRepository 0; NewModifiers (Mods ∅ {["lib"]} ∅); SetPoolModifiers (Some 0%nat)].
Definition m_solve : list call :=
  [NewModifiers no_mods; NewRequest 1; RequestCall 0 (CallInstall (s_req "lib" [CAny])); Solve env0 60 [0%nat] 1 true false 0].
Definition m_more : list call := [RequestCall 0 (CallAllowNewer "app"); Solve env0 60 [0%nat] 1 true false 0].
Definition m_query : call := WhatProvides (s_req "lib" [CGt (V 1 0)]) true.
Theorem C66_modifiers_refuted :
  (∃ h w, happens world0 h w ∧ h.*1 = m_calls ∧ adds_ok h ∧ step w m_query = Some (w, APackages [m_lib])) ∧
  (∃ h w, happens world0 h w ∧ h.*1 = m_calls ++ m_solve ∧ adds_ok h ∧ step w m_query = Some (w, APackages [])) ∧
  (∃ h w, happens world0 h w ∧ h.*1 = m_calls ++ m_solve ++ m_more ∧ adds_ok h ∧ step w m_query = Some (w, APackages [])) ∧
  (∃ h w, happens world0 h w ∧ h.*1 = m_calls ++ m_solve ++ m_more ++ [RequestCall 0 (CallAllowAny "lib")] ∧ adds_ok h ∧
          step w m_query = Some (w, APackages [m_lib])).
Proof.
  assert (G : ∀ calls ps, ends_with calls m_query (λ a, answers a ps) = true →
    ∃ h w, happens world0 h w ∧ h.*1 = calls ∧ adds_ok h ∧ step w m_query = Some (w, APackages ps)).
  { intros calls ps (h & w & w' & a & H1 & H2 & H3 & H4 & ->%answers_spec)%ends_with_spec. exists h, w. split; [done|]. split; [done|].
    split; [done|]. cbn [step m_query] in H4 |- *. injection H4 as _ H4. by rewrite H4. }
  split; [|split; [|split]]; apply G; vm_compute; reflexivity.
Qed.

(** A failed add_repository is not undone: the packages before the offending one, and that one, are in the pool. *)
Definition f_bad : package := s_pkg "b" 1 [] [] [("virtual", [[[CGeq (V 1 0)]]])].
Definition f_calls : list call :=
  [NewRepository [s_pkg "a" 1 [] [] []; f_bad; s_pkg "c" 1 [] [] []]; NewRepository []; AddRepository 0;
   NewModifiers no_mods; NewRequest 0; RequestCall 0 (CallInstall (s_req "b" [CAny]))].
Theorem C66_failed_add_refuted : ∃ h w w', happens world0 h w ∧ h.*1 = f_calls ∧ (AddRepository 0, ARaise InvalidConstraint) ∈ h ∧
  step w (NameToPackages "a") = Some (w', APackages [s_pkg "a" 1 [] [] []]) ∧
  step w (WhatProvides (s_req "c" [CAny]) true) = Some (w, APackages []) ∧
  step w (IdToPackage 2) = Some (w, APackage f_bad) ∧
  ∃ w1 t, step w (Solve env0 60 [0%nat] 1 true false 0) = Some (w1, ASolved (Normal t)) ∧ t_ops t = [InstallOp f_bad].
Proof.
  destruct (play world0 f_calls) as [[h w]|] eqn:E; [|vm_compute in E; discriminate E].
  destruct (play_spec _ _ _ _ E) as [H1 H2].
  assert (Ew : w = default world0 (snd <$> play world0 f_calls)) by (by rewrite E).
  assert (Eh : h = default [] (fst <$> play world0 f_calls)) by (by rewrite E). clear E.
  exists h, w, (fst (default (w, ADone) (step w (NameToPackages "a")))).
  split; [exact H1|]. split; [exact H2|]. clear H1 H2.
  split; [rewrite Eh; vm_compute; do 2 right; left|].
  split; [rewrite Ew; vm_compute; reflexivity|]. split; [rewrite Ew; vm_compute; reflexivity|].
  split; [rewrite Ew; vm_compute; reflexivity|].
  assert (match step w (Solve env0 60 [0%nat] 1 true false 0) with Some (_, a) => installs a [f_bad] | None => false end = true) as G.
  { rewrite Ew. vm_compute. reflexivity. }
  destruct (step w _) as [[w1 a]|]; [|discriminate G]. apply installs_spec in G as (t & -> & Ht). exists w1, t. done.
Qed.

Print Assumptions C66_fresh.
Print Assumptions C66_fresh_hint.
Print Assumptions C66_undisturbed.
Print Assumptions C66_ids_stable.
Print Assumptions C66_ids_match.
Print Assumptions C66_what_provides.
Print Assumptions C66_example.
Print Assumptions C66_lookup_refuted.
Print Assumptions C66_modifiers_refuted.
Print Assumptions C66_failed_add_refuted.
