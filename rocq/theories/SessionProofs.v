(** * Proofs about histories of calls. *)
From Verif Require Import PoolProofs PropPool.
From Verif Require Export SpecSession.

Lemma foldM_ext' {A B} (f g : B → A → res B) l : (∀ b x, f b x = g b x) → ∀ b, foldM f l b = foldM g l b.
Proof. intros H. induction l as [|x l IH]; intros b; [done|]. cbn. rewrite H. destruct (g b x); cbn; [apply IH|done]. Qed.

(** ** Pools that answer alike *)
Section like.
  Context (n n' : Z) (p2i : pdict) (i2p : list (Z * package)) (b b' : gmap string (list package)) (m : option modifiers).
  Notation po := (MkPool n p2i i2p b m).
  Notation po' := (MkPool n' p2i i2p b' m).
  Context (Hw : ∀ r x, what_provides po r x = what_provides po' r x).
  Context (Hn : ∀ s, name_to_packages po s = name_to_packages po' s).

  Lemma requires_like strict p reqs deps : ∀ acc st, requires_rules po strict p reqs deps acc st = requires_rules po' strict p reqs deps acc st.
  Proof.
    induction deps as [|d deps IH]; intros acc st; [done|]. cbn [requires_rules].
    destruct (from_constraints RInstall d); cbn [mbind res_bind]; [|done]. rewrite Hw.
    destruct (what_provides po' a true) as [[|c cs]|]; cbn [mbind res_bind]; [done| |done].
    change (dependency_rule po p (c :: cs) (Rules.combine reqs a)) with (dependency_rule po' p (c :: cs) (Rules.combine reqs a)).
    destruct (dependency_rule _ _ _ _); cbn [mbind res_bind]; [|done]. apply IH.
  Qed.
  Lemma conflicts_like strict p reqs st : conflicts_rules po strict p reqs st = conflicts_rules po' strict p reqs st.
  Proof.
    unfold conflicts_rules, same_name_rules. destruct (name_requirement _ _); cbn [mbind res_bind]; [|done]. rewrite Hw.
    destruct (what_provides po' _ _); cbn [mbind res_bind]; [|done].
    change (add_conflicts po) with (add_conflicts po'). destruct (add_conflicts _ _ _ _ _ _); cbn [mbind res_bind]; [|done].
    unfold declared_conflicts. apply foldM_ext'. intros st' c. destruct (from_constraints _ _); cbn [mbind res_bind]; [|done].
    rewrite Hw. destruct (what_provides po' _ _) as [[|]|]; done.
  Qed.
  Lemma loop_like strict fuel : ∀ queue st, package_rules_loop po strict fuel queue st = package_rules_loop po' strict fuel queue st.
  Proof.
    induction fuel as [|fuel IH]; intros [|[p reqs] queue] st; [done|done|done|]. cbn [package_rules_loop].
    change (package_id po p) with (package_id po' p). destruct (package_id po' p); cbn [mbind res_bind]; [|done].
    destruct (decide _); [apply IH|]. rewrite requires_like. destruct (requires_rules _ _ _ _ _ _ _) as [[st' more]|]; cbn [mbind res_bind]; [|done].
    rewrite conflicts_like. destruct (conflicts_rules _ _ _ _ _); cbn [mbind res_bind]; [|done]. apply IH.
  Qed.
  Lemma package_like strict fuel p reqs st : package_rules po strict fuel p reqs st = package_rules po' strict fuel p reqs st.
  Proof. apply loop_like. Qed.
  Lemma job_rules_like iids strict fuel j st : job_rules po iids strict fuel j st = job_rules po' iids strict fuel j st.
  Proof.
    unfold job_rules. destruct (j_req j) as [r|]; [|done].
    assert (Hi : install_job_rules po iids strict fuel r st = install_job_rules po' iids strict fuel r st).
    { unfold install_job_rules. rewrite Hw. destruct (what_provides po' r false) as [[|p ps]|]; cbn [mbind res_bind]; [done| |done].
      match goal with |- mbind _ (foldM ?f ?l ?s) = mbind _ (foldM ?g _ _) => assert (foldM f l s = foldM g l s) as -> end; [|done].
      apply foldM_ext'. intros st' q. change (package_id po q) with (package_id po' q).
      destruct (package_id po' q); cbn [mbind res_bind]; [|done]. destruct (decide _); [done|]. apply package_like. }
    destruct (j_kind j); [exact Hi| |exact Hi| |done].
    - unfold remove_job_rules. rewrite Hw. done.
    - unfold update_job_rules. rewrite Hw. destruct (what_provides po' r false) as [[|p ps]|]; cbn [mbind res_bind]; [done| |done].
      change (update_lt po iids) with (update_lt po' iids). rewrite package_like. done.
  Qed.
  Lemma iter_rules_like iids strict fuel jobs : iter_rules po iids strict fuel jobs = iter_rules po' iids strict fuel jobs.
  Proof.
    unfold iter_rules. rewrite (foldM_ext' (λ st j, job_rules po iids strict fuel j st) (λ st j, job_rules po' iids strict fuel j st)).
    2:{ intros; apply job_rules_like. }
    destruct (foldM _ _ _); cbn [mbind res_bind]; [|done]. apply foldM_ext'. intros st [i p].
    unfold installed_package_rules. rewrite Hn. cbn [snd].
    rewrite (foldM_ext' _ (λ st q, package_rules po' strict fuel q None st)) by (intros; apply package_like).
    destruct (foldM _ _ _); cbn [mbind res_bind]; [|done]. apply package_like.
  Qed.
  Lemma create_rules_like e inst strict fuel rq : create_rules e po inst strict fuel rq = create_rules e po' inst strict fuel rq.
  Proof.
    unfold create_rules.
    rewrite (foldM_ext' (job_ids po inst) (job_ids po' inst)).
    2:{ intros acc j. unfold job_ids. destruct (j_kind j), (j_req j); try done; rewrite Hw; done. }
    destruct (foldM _ _ _) as [[ids soft]|]; cbn [mbind res_bind]; [|done].
    change (installed_ids po inst) with (installed_ids po' inst). destruct (installed_ids _ _); cbn [mbind res_bind]; [|done].
    change (preferred_ids e po inst soft) with (preferred_ids e po' inst soft). destruct (preferred_ids _ _ _ _); cbn [mbind res_bind]; [|done].
    rewrite iter_rules_like. done.
  Qed.
  Lemma transaction_like dec inst : mk_transaction po dec inst = mk_transaction po' dec inst.
  Proof.
    unfold mk_transaction. assert (safe_operations po dec inst = safe_operations po' dec inst) as ->.
    { unfold safe_operations. change (local_packages po inst) with (local_packages po' inst).
      destruct (local_packages _ _); cbn [mbind res_bind]; [|done].
      assert (lit_graph po dec true = lit_graph po' dec true) as ->; [|done].
      unfold lit_graph. change (id_to_package po) with (id_to_package po'). destruct (mapM_res _ _); cbn [mbind res_bind]; [|done].
      apply foldM_ext'. intros g lp.
      assert (∀ im, lit_edges po true im lp.2 = lit_edges po' true im lp.2) as ->; [|done].
      intros im. unfold lit_edges. apply foldM_ext'. intros acc c. destruct (from_constraints _ _); cbn [mbind res_bind]; [|done].
      rewrite Hw. done. }
    destruct (safe_operations _ _ _); cbn [mbind res_bind]; [|done].
    assert (pretty_operations po a = pretty_operations po' a) as ->; [|done].
    unfold pretty_operations.
    match goal with |- mbind _ (foldM ?f ?l ?s) = mbind _ (foldM ?g _ _) => assert (foldM f l s = foldM g l s) as -> end; [|done].
    apply foldM_ext'. intros d pkg. destruct (od_get d pkg); [|done].
    unfold find_other_providers. destruct (name_requirement _ _); cbn [mbind res_bind]; [|done]. rewrite Hw. done.
  Qed.
End like.

Lemma convert_mods rq remote inst rq' : convert_upgrade rq remote inst = Ok rq' → rq_mods rq' = rq_mods rq.
Proof.
  unfold convert_upgrade. destruct (rq_jobs rq) as [|j [|? ?]]; try congruence. destruct (decide _); [|congruence].
  assert (∀ l rq0, foldM (λ rq p, add_job rq (Some (upgrade_requirement p)) JInstall) l rq0 = Ok rq' → rq_mods rq' = rq_mods rq0) as G.
  { induction l as [|p l IH]; intros rq0; cbn [foldM]; [congruence|].
    destruct (add_job rq0 _ _) as [x|] eqn:Ea; cbn [mbind res_bind]; [|done]. intros ->%IH. revert Ea. unfold add_job.
    destruct (andb _ _); cbn [mbind res_bind mk_job]; [done|]. by intros [= <-]. }
  intros ->%G. done.
Qed.
(** [solve] only sees the pool through these. *)
Lemma solve_like e po po' remote inst pruning strict fuel rq :
  po_p2i po = po_p2i po' → po_i2p po = po_i2p po' →
  (∀ m r x, m = po_mods (solve_pool po rq) → what_provides (set_mods po m) r x = what_provides (set_mods po' m) r x) →
  (∀ s, name_to_packages po s = name_to_packages po' s) →
  solve e (DepSolver po remote inst pruning strict) fuel rq = solve e (DepSolver po' remote inst pruning strict) fuel rq.
Proof.
  intros E1 E2 Hw Hn. unfold solve. cbn [ds_remote ds_installed ds_strict ds_pruning ds_pool].
  destruct (convert_upgrade rq remote inst) as [rq'|] eqn:Ec; cbn [mbind res_bind]; [|done].
  pose proof (convert_mods _ _ _ _ Ec) as Em.
  destruct po as [n p2i i2p b m], po' as [n' p2i' i2p' b' m']. cbn in E1, E2. subst p2i' i2p'.
  unfold solve_pool, set_mods in *. cbn [po_next po_p2i po_i2p po_byname po_mods] in *. rewrite Em.
  set (m1 := if decide _ then None else Some _) in *. 
  assert (Hw' := λ r x, Hw m1 r x eq_refl).
  rewrite (create_rules_like n n' p2i i2p b b' m1 Hw' Hn).
  destruct (create_rules _ _ _ _ _ _) as [[[[ids rules] uenv] ust]|]; cbn [mbind res_bind]; [|done].
  destruct (solve_clauses _ _ _ _) as [[a|? ? ?]|]; cbn [mbind res_bind]; [|done|done].
  change (package_id (MkPool n p2i i2p b m1)) with (package_id (MkPool n' p2i i2p b' m1)).
  destruct (mapM_res _ _); cbn [mbind res_bind]; [|done].
  change (connected_packages e (MkPool n p2i i2p b m1)) with (connected_packages e (MkPool n' p2i i2p b' m1)).
  destruct (if pruning then _ else _); cbn [mbind res_bind]; [|done].
  rewrite (transaction_like n n' p2i i2p b b' m1 Hw'). done.
Qed.
Lemma mus_ext {A} (f g : list A → res bool) : (∀ l, f l = g l) →
  ∀ fuel l, minimal_unsatisfiable_subset f fuel l = minimal_unsatisfiable_subset g fuel l.
Proof.
  intros H fuel l. unfold minimal_unsatisfiable_subset. rewrite H. destruct (g l) as [[]|]; cbn [mbind res_bind]; [done| |done].
  generalize (@nil A). revert l. induction fuel as [|fuel IH]; intros l inc; [done|]. cbn [minimal_unsat].
  destruct (_ =? _)%nat; [done|]. destruct (DepSolver.split l) as [x y]. rewrite (H (x ++ inc)).
  destruct (g (x ++ inc)) as [[]|]; cbn [mbind res_bind negb]; [|apply IH|done]. rewrite (H (y ++ inc)).
  destruct (g (y ++ inc)) as [[]|]; cbn [mbind res_bind negb]; [|apply IH|done]. rewrite IH.
  destruct (minimal_unsat g fuel x (y ++ inc)); cbn [mbind res_bind]; [|done]. rewrite IH. done.
Qed.
Lemma hint_like e po po' remote inst pruning strict fuel rq :
  po_p2i po = po_p2i po' → po_i2p po = po_i2p po' →
  (∀ m r x, m = po_mods (solve_pool po rq) → what_provides (set_mods po m) r x = what_provides (set_mods po' m) r x) →
  (∀ s, name_to_packages po s = name_to_packages po' s) →
  solve_with_hint e (DepSolver po remote inst pruning strict) fuel rq = solve_with_hint e (DepSolver po' remote inst pruning strict) fuel rq.
Proof.
  intros E1 E2 Hw Hn. unfold solve_with_hint. rewrite (solve_like e po po') by done.
  destruct (solve _ _ _ _) as [[t|? ? ?]|]; cbn [mbind res_bind]; [done| |done]. cbn [ds_remote ds_installed].
  destruct (convert_upgrade _ _ _) as [rq'|] eqn:Ec; cbn [mbind res_bind]; [|done]. apply convert_mods in Ec.
  assert (∀ l, hint_callback e (DepSolver po remote inst pruning strict) fuel (rq_mods rq') l =
               hint_callback e (DepSolver po' remote inst pruning strict) fuel (rq_mods rq') l) as H.
  { intros l. unfold hint_callback. rewrite (solve_like e po po'); [done|done|done| |done].
    intros m r x Hm. apply Hw. rewrite Hm. unfold solve_pool. cbn. by rewrite Ec. }
  by rewrite (mus_ext _ _ H).
Qed.

(** ** The pool of a history *)
Lemma provide_loop_spec p ds : ∀ b,
  match provide_loop p ds b with
  | (b', None) => foldM (add_provide p) ds b = Ok b'
  | (_, Some x) => foldM (add_provide p) ds b = Raise x
  end.
Proof.
  induction ds as [|d ds IH]; intros b; cbn [provide_loop foldM]; [done|].
  destruct (add_provide p b d) as [b1|]; cbn [mbind res_bind]; [apply IH|done].
Qed.
Lemma pool_add_spec po p :
  match pool_add_eff po p with
  | (po', None) => pool_add po p = Ok po'
  | (_, Some x) => pool_add po p = Raise x
  end.
Proof.
  unfold pool_add_eff, pool_add. pose proof (provide_loop_spec p (pkg_provides p) (po_byname po)) as H.
  destruct (provide_loop _ _ _) as [b [x|]]; rewrite H; done.
Qed.
Lemma add_repository_spec ps : ∀ po,
  match add_repository_eff po ps with
  | (po', None) => add_repository po ps = Ok po'
  | (_, Some x) => add_repository po ps = Raise x
  end.
Proof.
  unfold add_repository. induction ps as [|p ps IH]; intros po; cbn [add_repository_eff foldM]; [done|].
  pose proof (pool_add_spec po p) as H. destruct (pool_add_eff po p) as [po1 [x|]]; rewrite H; cbn [mbind res_bind]; [done|apply IH].
Qed.

Record twin (read : string → Prop) (po po0 : pool) : Prop := {
  tw_next : po_next po = po_next po0;
  tw_p2i : po_p2i po = po_p2i po0;
  tw_i2p : po_i2p po = po_i2p po0;
  tw_names : ∀ n, po_byname po !! n = po_byname po0 !! n ∨ po_byname po !! n = Some [] ∧ po_byname po0 !! n = None ∧ read n }.
Definition twin_names (read : string → Prop) (b b0 : gmap string (list package)) : Prop :=
  ∀ n, b !! n = b0 !! n ∨ b !! n = Some [] ∧ b0 !! n = None ∧ read n.
Lemma twin_default read b b0 n : twin_names read b b0 → default [] (b !! n) = default [] (b0 !! n).
Proof. intros H. destruct (H n) as [->|(-> & -> & _)]; done. Qed.
Lemma twin_provide read p b b0 d b' : twin_names read b b0 → add_provide p b d = Ok b' →
  ∃ b0', add_provide p b0 d = Ok b0' ∧ twin_names read b' b0'.
Proof.
  intros H. unfold add_provide. destruct (from_constraints _ _) as [r|]; cbn [mbind res_bind]; [|done].
  destruct (has_any_version_constraint r); [done|]. intros [= <-]. eexists. split; [reflexivity|].
  intros n. rewrite (twin_default _ _ _ _ H). destruct (decide (n = r_name r)) as [->|Hn].
  - left. by rewrite !lookup_insert.
  - rewrite !lookup_insert_ne by done. apply H.
Qed.
Lemma twin_provides read p ds : ∀ b b0 b', twin_names read b b0 → foldM (add_provide p) ds b = Ok b' →
  ∃ b0', foldM (add_provide p) ds b0 = Ok b0' ∧ twin_names read b' b0'.
Proof.
  induction ds as [|d ds IH]; intros b b0 b' H; cbn [foldM].
  - intros [= <-]. eauto.
  - destruct (add_provide p b d) as [b1|] eqn:E; cbn [mbind res_bind]; [|done]. intros Hf.
    destruct (twin_provide _ _ _ _ _ _ H E) as (b1' & -> & H1). cbn [mbind res_bind]. by eapply IH.
Qed.
Lemma twin_add read p po po0 po' : twin read po po0 → pool_add po p = Ok po' →
  ∃ po0', pool_add po0 p = Ok po0' ∧ twin read po' po0'.
Proof.
  intros [H1 H2 H3 H4]. unfold pool_add. destruct (foldM _ _ _) as [b|] eqn:E; cbn [mbind res_bind]; [|done]. intros [= <-].
  destruct (twin_provides _ _ _ _ _ _ H4 E) as (b0 & -> & H5). cbn [mbind res_bind]. eexists. split; [reflexivity|].
  split; cbn [po_next po_p2i po_i2p po_byname]; [by rewrite H1|by rewrite H1, H2|by rewrite H1, H3|exact H5].
Qed.
Lemma twin_repository read ps : ∀ po po0 po', twin read po po0 → add_repository po ps = Ok po' →
  ∃ po0', add_repository po0 ps = Ok po0' ∧ twin read po' po0'.
Proof.
  unfold add_repository. induction ps as [|p ps IH]; intros po po0 po' H; cbn [foldM].
  - intros [= <-]. eauto.
  - destruct (pool_add po p) as [po1|] eqn:E; cbn [mbind res_bind]; [|done]. intros Hf.
    destruct (twin_add _ _ _ _ _ H E) as (po1' & -> & H1). cbn [mbind res_bind]. by eapply IH.
Qed.
Lemma twin_more (read read' : string → Prop) po po0 : (∀ n, read n → read' n) → twin read po po0 → twin read' po po0.
Proof. intros Hr [H1 H2 H3 H4]. split; [done|done|done|]. intros n. destruct (H4 n) as [?|(? & ? & ?)]; [by left|right; auto]. Qed.
Lemma twin_lookup (read : string → Prop) po po0 n : read n → twin read po po0 → twin read (name_to_packages_eff po n).1 po0.
Proof.
  intros Hr [H1 H2 H3 H4]. unfold name_to_packages_eff. cbn [fst]. split; cbn [po_next po_p2i po_i2p po_byname]; [done|done|done|].
  intros x. destruct (decide (x = n)) as [->|Hx].
  - rewrite lookup_insert. destruct (H4 n) as [E|(E & E0 & _)].
    + destruct (po_byname po !! n) as [l|] eqn:El; [by left|]. right. cbn. auto.
    + rewrite E. right. auto.
  - rewrite lookup_insert_ne by done. apply H4.
Qed.
Lemma twin_what read po po0 m r b : twin read po po0 →
  (∀ n, read n → po_byname po0 !! n = None → ∀ m', m = Some m' → n ∉ targets m') →
  what_provides (set_mods po m) r b = what_provides (set_mods po0 m) r b.
Proof.
  intros [_ _ _ H] Hm. unfold what_provides. cbn [po_byname set_mods].
  destruct (H (r_name r)) as [->|(-> & E0 & Hr)]; [done|]. rewrite E0.
  assert (∃ r', (if b then pool_modify (set_mods po m) r else Ok r) = Ok r') as (r' & ->); [|done].
  destruct b; [|eauto]. unfold pool_modify. cbn [po_mods set_mods]. destruct m as [m|]; [|eauto].
  unfold modify_requirement. destruct (ConstraintProofs.modify_install_untouched r m) as [_ Es]; [by eapply Hm|].
  rewrite Es. destruct (r_class r), (has_any_version_constraint r); eauto.
Qed.

(** ** What the objects hold after a history *)
Record built (calls : list call) (w : world) : Prop := {
  bu_mods_len : length (w_mods w) = length (omap new_modifiers calls);
  bu_mods : ∀ a m, w_mods w !! a = Some m → m = modifiers_at calls a;
  bu_reqs_len : length (w_reqs w) = length (omap new_request calls);
  bu_reqs : ∀ k a js, w_reqs w !! k = Some (a, js) →
    modifiers_of calls k = Some a ∧ js = jobs_of calls k ∧ (a < length (w_mods w))%nat;
  bu_reqs_new : ∀ k, (length (w_reqs w) ≤ k)%nat → omap (called_on k) calls = [];
  bu_repos_len : length (w_repos w) = length (omap new_repository calls);
  bu_repos : ∀ r re, w_repos w !! r = Some re → re = repo_of (packages_of calls r);
  bu_repos_new : ∀ r, (length (w_repos w) ≤ r)%nat → omap (added_to r) calls = [] }.

Lemma modifiers_at_snoc calls c a : modifiers_at (calls ++ [c]) a = names_in (c :: reverse calls) a.
Proof. unfold modifiers_at. by rewrite reverse_snoc. Qed.
Lemma omap_snoc_None {A B} (f : A → option B) l c : f c = None → omap f (l ++ [c]) = omap f l.
Proof. intros H. rewrite omap_app. cbn. by rewrite H, app_nil_r. Qed.
Lemma omap_snoc_Some {A B} (f : A → option B) l c x : f c = Some x → omap f (l ++ [c]) = omap f l ++ [x].
Proof. intros H. rewrite omap_app. cbn. by rewrite H. Qed.
Lemma omap_reverse_len {A B} (f : A → option B) l : length (omap f (reverse l)) = length (omap f l).
Proof. by rewrite (reverse_Permutation l). Qed.

(** Jobs depend on the jobs before only. *)
Lemma do_call_jobs rq rq' c : rq_jobs rq = rq_jobs rq' → rq_jobs (do_call_catch rq c) = rq_jobs (do_call_catch rq' c).
Proof.
  destruct rq as [m js], rq' as [m' js']. cbn. intros <-. unfold do_call_catch.
  destruct c; cbn [do_call]; unfold add_job; cbn [rq_jobs rq_mods mk_job]; try (destruct (andb _ _); done); try done.
Qed.
Lemma do_call_catch_mods rq c : rq_mods (do_call_catch rq c) =
  match c with
  | CallAllowNewer n => Mods ({[n]} ∪ allow_newer (rq_mods rq)) (allow_any (rq_mods rq)) (allow_older (rq_mods rq))
  | CallAllowAny n => Mods (allow_newer (rq_mods rq)) ({[n]} ∪ allow_any (rq_mods rq)) (allow_older (rq_mods rq))
  | CallAllowOlder n => Mods (allow_newer (rq_mods rq)) (allow_any (rq_mods rq)) ({[n]} ∪ allow_older (rq_mods rq))
  | _ => rq_mods rq
  end.
Proof.
  unfold do_call_catch. destruct c; cbn [do_call]; unfold add_job; cbn [mk_job]; try done; try (destruct (andb _ _); done).
Qed.
Lemma jobs_of_after calls k : jobs_of calls k = rq_jobs (PropRequest.after no_mods (omap (called_on k) calls)).
Proof. unfold jobs_of. by destruct (C42_history no_mods (omap (called_on k) calls) "") as (_ & _ & _ & ->). Qed.
Lemma jobs_of_snoc calls k c c' : called_on k c = Some c' → ∀ m,
  jobs_of (calls ++ [c]) k = rq_jobs (do_call_catch (Request m (jobs_of calls k)) c').
Proof.
  intros Hc m. rewrite (jobs_of_after (calls ++ [c])), (omap_snoc_Some _ _ _ _ Hc). unfold PropRequest.after. rewrite foldl_app.
  cbn [foldl]. apply do_call_jobs. cbn. by rewrite jobs_of_after.
Qed.

(** Calls that create and change nothing but the pool and its modifiers. *)
Definition plain (c : call) : Prop :=
  match c with
  | AddRepository _ | SetPoolModifiers _ | WhatProvides _ _ | NameToPackages _ | PackageId _ | IdToPackage _
  | Solve _ _ _ _ _ _ _ | SolveWithHint _ _ _ _ _ _ _ => True
  | _ => False
  end.
Lemma built_plain calls w w' c : plain c → built calls w → w_mods w' = w_mods w → w_reqs w' = w_reqs w → w_repos w' = w_repos w →
  built (calls ++ [c]) w'.
Proof.
  intros Hc B E1 E2 E3.
  assert (H1 : omap new_modifiers (calls ++ [c]) = omap new_modifiers calls) by (apply omap_snoc_None; by destruct c).
  assert (H2 : omap new_request (calls ++ [c]) = omap new_request calls) by (apply omap_snoc_None; by destruct c).
  assert (H3 : omap new_repository (calls ++ [c]) = omap new_repository calls) by (apply omap_snoc_None; by destruct c).
  assert (H4 : ∀ k, omap (called_on k) (calls ++ [c]) = omap (called_on k) calls) by (intros; apply omap_snoc_None; by destruct c).
  assert (H5 : ∀ k, omap (added_to k) (calls ++ [c]) = omap (added_to k) calls) by (intros; apply omap_snoc_None; by destruct c).
  destruct B. split; rewrite ?E1, ?E2, ?E3, ?H1, ?H2, ?H3; unfold modifiers_of, jobs_of, packages_of in *; rewrite ?H2, ?H3; try done.
  - intros a m Hm. rewrite modifiers_at_snoc. rewrite (bu_mods0 a m Hm). by destruct c.
  - intros k a js Hk. rewrite H4. by apply bu_reqs0.
  - intros k. rewrite H4. apply bu_reqs_new0.
  - intros r re. rewrite H5. apply bu_repos0.
  - intros r. rewrite H5. apply bu_repos_new0.
Qed.

Lemma built_step calls w c w' a : built calls w → step w c = Some (w', a) → built (calls ++ [c]) w'.
Proof.
  intros B H. destruct c as [m0|a1 a2|a1 ps|a1|k c|ps|r p|r|m0|r b|n|p|i|e fuel remote inst pr st k|e fuel remote inst pr st k].
  - (* NewModifiers *) injection H as <- <-. destruct B. split; cbn [w_mods w_reqs w_repos].
    + rewrite (omap_snoc_Some _ _ _ m0) by done. rewrite !app_length. by rewrite bu_mods_len0.
    + intros x m Hx. rewrite modifiers_at_snoc. cbn [names_in]. rewrite omap_reverse_len, <-bu_mods_len0.
      apply lookup_app_Some in Hx as [Hx|[Hle Hx]].
      * rewrite decide_False by (apply lookup_lt_Some in Hx; lia). by apply bu_mods0.
      * apply list_lookup_singleton_Some in Hx as [Hx <-]. by rewrite decide_True by lia.
    + by rewrite (omap_snoc_None new_request) by done.
    + intros k x js Hk. unfold modifiers_of, jobs_of. rewrite !omap_snoc_None by done.
      destruct (bu_reqs0 _ _ _ Hk) as (? & ? & ?). rewrite app_length. cbn. split; [done|]. split; [done|lia].
    + intros k Hk. rewrite omap_snoc_None by done. by apply bu_reqs_new0.
    + by rewrite (omap_snoc_None new_repository) by done.
    + intros r re Hr. unfold packages_of. rewrite !omap_snoc_None by done. by apply bu_repos0.
    + intros r Hr. rewrite omap_snoc_None by done. by apply bu_repos_new0.
  - (* UpdateModifiers *) cbn [step] in H. destruct (w_mods w !! a1) as [m|] eqn:E1; cbn in H; [|done].
    destruct (w_mods w !! a2) as [o|] eqn:E2; cbn in H; [|done]. injection H as <- <-. destruct B. split; cbn [w_mods w_reqs w_repos].
    + by rewrite insert_length, (omap_snoc_None new_modifiers) by done.
    + intros x y Hx. rewrite modifiers_at_snoc. cbn [names_in]. change (names_in (reverse calls)) with (modifiers_at calls).
      destruct (decide (a1 = x)) as [->|Hne].
      * rewrite list_lookup_insert in Hx by (by eapply lookup_lt_Some). injection Hx as <-.
        by rewrite (bu_mods0 _ _ E1), (bu_mods0 _ _ E2).
      * rewrite list_lookup_insert_ne in Hx by done. by apply bu_mods0.
    + by rewrite (omap_snoc_None new_request) by done.
    + intros k x js Hk. unfold modifiers_of, jobs_of. rewrite !omap_snoc_None, insert_length by done. by apply bu_reqs0.
    + intros k Hk. rewrite omap_snoc_None by done. by apply bu_reqs_new0.
    + by rewrite (omap_snoc_None new_repository) by done.
    + intros r re Hr. unfold packages_of. rewrite !omap_snoc_None by done. by apply bu_repos0.
    + intros r Hr. rewrite omap_snoc_None by done. by apply bu_repos_new0.
  - (* RemoveModifiers *) cbn [step] in H. destruct (w_mods w !! a1) as [m|] eqn:E1; cbn in H; [|done].
    injection H as <- <-. destruct B. split; cbn [w_mods w_reqs w_repos].
    + by rewrite insert_length, (omap_snoc_None new_modifiers) by done.
    + intros x y Hx. rewrite modifiers_at_snoc. cbn [names_in]. change (names_in (reverse calls)) with (modifiers_at calls).
      destruct (decide (a1 = x)) as [->|Hne].
      * rewrite list_lookup_insert in Hx by (by eapply lookup_lt_Some). injection Hx as <-.
        by rewrite (bu_mods0 _ _ E1).
      * rewrite list_lookup_insert_ne in Hx by done. by apply bu_mods0.
    + by rewrite (omap_snoc_None new_request) by done.
    + intros k x js Hk. unfold modifiers_of, jobs_of. rewrite !omap_snoc_None, insert_length by done. by apply bu_reqs0.
    + intros k Hk. rewrite omap_snoc_None by done. by apply bu_reqs_new0.
    + by rewrite (omap_snoc_None new_repository) by done.
    + intros r re Hr. unfold packages_of. rewrite !omap_snoc_None by done. by apply bu_repos0.
    + intros r Hr. rewrite omap_snoc_None by done. by apply bu_repos_new0.
  - (* NewRequest *) cbn [step] in H. destruct (w_mods w !! a1) as [m|] eqn:E1; cbn in H; [|done].
    injection H as <- <-. destruct B. split; cbn [w_mods w_reqs w_repos].
    + by rewrite (omap_snoc_None new_modifiers) by done.
    + intros x y Hx. rewrite modifiers_at_snoc. cbn [names_in]. by apply bu_mods0.
    + rewrite (omap_snoc_Some new_request _ _ a1) by done. rewrite !app_length. by rewrite bu_reqs_len0.
    + intros k x js Hk. unfold modifiers_of. rewrite (omap_snoc_Some new_request _ _ a1) by done.
      unfold jobs_of. rewrite omap_snoc_None by done. apply lookup_app_Some in Hk as [Hk|[Hle Hk]].
      * destruct (bu_reqs0 _ _ _ Hk) as (? & ? & ?). split; [|done]. by apply lookup_app_l_Some.
      * apply list_lookup_singleton_Some in Hk as [Hk [= <- <-]]. assert (k = length (w_reqs w)) as -> by lia.
        rewrite bu_reqs_len0, list_lookup_middle by done. split; [done|]. rewrite bu_reqs_new0 by lia. split; [done|].
        by eapply lookup_lt_Some.
    + intros k Hk. rewrite app_length in Hk. rewrite omap_snoc_None by done. apply bu_reqs_new0. lia.
    + by rewrite (omap_snoc_None new_repository) by done.
    + intros r re Hr. unfold packages_of. rewrite !omap_snoc_None by done. by apply bu_repos0.
    + intros r Hr. rewrite omap_snoc_None by done. by apply bu_repos_new0.
  - (* RequestCall *) cbn [step] in H. unfold request_now in H. destruct (w_reqs w !! k) as [[x js]|] eqn:E1; cbn in H; [|done].
    destruct (w_mods w !! x) as [m|] eqn:E2; cbn in H; [|done].
    set (rq := Request m js) in *.
    assert (H' : w_mods w' = <[x := rq_mods (do_call_catch rq c)]> (w_mods w) ∧
                 w_reqs w' = <[k := (x, rq_jobs (do_call_catch rq c))]> (w_reqs w) ∧ w_repos w' = w_repos w).
    { unfold do_call_catch. destruct (do_call rq c) as [rq'|]; injection H as <- <-; [done|]. cbn [rq rq_mods rq_jobs].
      by rewrite !list_insert_id. }
    clear H. destruct H' as (M1 & M2 & M3). destruct B. destruct (bu_reqs0 _ _ _ E1) as (Q1 & Q2 & Q3).
    split; rewrite ?M1, ?M2, ?M3.
    + by rewrite insert_length, (omap_snoc_None new_modifiers) by done.
    + intros y z Hy. rewrite modifiers_at_snoc. cbn [names_in]. rewrite reverse_involutive, Q1. change (names_in (reverse calls)) with (modifiers_at calls).
      destruct (decide (x = y)) as [->|Hne].
      * rewrite list_lookup_insert in Hy by done. injection Hy as <-.
        rewrite decide_True by done. rewrite do_call_catch_mods. cbn [rq rq_mods]. by rewrite (bu_mods0 _ _ E2).
      * rewrite list_lookup_insert_ne in Hy by done. rewrite decide_False by congruence. by apply bu_mods0.
    + by rewrite insert_length, (omap_snoc_None new_request) by done.
    + intros k' y js' Hk. unfold modifiers_of. rewrite (omap_snoc_None new_request), insert_length by done.
      destruct (decide (k = k')) as [<-|Hne].
      * rewrite list_lookup_insert in Hk by (by eapply lookup_lt_Some). injection Hk as <- <-. split; [done|]. split; [|done].
        rewrite (jobs_of_snoc _ _ _ c) with (m := m); [by rewrite <-Q2|]. cbn. by rewrite decide_True by done.
      * rewrite list_lookup_insert_ne in Hk by done. destruct (bu_reqs0 _ _ _ Hk) as (? & ? & ?). split; [done|]. split; [|done].
        unfold jobs_of. rewrite omap_snoc_None; [done|]. cbn. by rewrite decide_False by done.
    + intros k' Hk. rewrite insert_length in Hk. rewrite omap_snoc_None; [by apply bu_reqs_new0|]. cbn.
      rewrite decide_False; [done|]. intros ->. apply lookup_lt_Some in E1. lia.
    + by rewrite (omap_snoc_None new_repository) by done.
    + intros r re Hr. unfold packages_of. rewrite !omap_snoc_None by done. by apply bu_repos0.
    + intros r Hr. rewrite omap_snoc_None by done. by apply bu_repos_new0.
  - (* NewRepository *) injection H as <- <-. destruct B. split; cbn [w_mods w_reqs w_repos].
    + by rewrite (omap_snoc_None new_modifiers) by done.
    + intros x y Hx. rewrite modifiers_at_snoc. cbn [names_in]. by apply bu_mods0.
    + by rewrite (omap_snoc_None new_request) by done.
    + intros k x js Hk. unfold modifiers_of, jobs_of. rewrite !omap_snoc_None by done. by apply bu_reqs0.
    + intros k Hk. rewrite omap_snoc_None by done. by apply bu_reqs_new0.
    + rewrite (omap_snoc_Some new_repository _ _ ps) by done. rewrite !app_length. by rewrite bu_repos_len0.
    + intros r re Hr. unfold packages_of. rewrite (omap_snoc_Some new_repository _ _ ps), (omap_snoc_None (added_to r)) by done.
      apply lookup_app_Some in Hr as [Hr|[Hle Hr]].
      * rewrite lookup_app_l by (apply lookup_lt_Some in Hr; congruence || lia). by apply bu_repos0.
      * apply list_lookup_singleton_Some in Hr as [Hk <-]. assert (r = length (w_repos w)) as -> by lia.
        rewrite (bu_repos_new0 (length (w_repos w))) by lia. rewrite bu_repos_len0, list_lookup_middle by done. cbn. by rewrite app_nil_r.
    + intros r Hr. rewrite app_length in Hr. rewrite omap_snoc_None by done. apply bu_repos_new0. lia.
  - (* AddPackage *) cbn [step] in H. destruct (w_repos w !! r) as [re|] eqn:E1; cbn in H; [|done]. injection H as <- <-.
    destruct B. split; cbn [w_mods w_reqs w_repos].
    + by rewrite (omap_snoc_None new_modifiers) by done.
    + intros x y Hx. rewrite modifiers_at_snoc. cbn [names_in]. by apply bu_mods0.
    + by rewrite (omap_snoc_None new_request) by done.
    + intros k x js Hk. unfold modifiers_of, jobs_of. rewrite !omap_snoc_None by done. by apply bu_reqs0.
    + intros k Hk. rewrite omap_snoc_None by done. by apply bu_reqs_new0.
    + by rewrite insert_length, (omap_snoc_None new_repository) by done.
    + intros r' re' Hr. unfold packages_of. rewrite (omap_snoc_None new_repository) by done.
      destruct (decide (r = r')) as [<-|Hne].
      * rewrite list_lookup_insert in Hr by (by eapply lookup_lt_Some). injection Hr as <-.
        rewrite (omap_snoc_Some (added_to r) _ _ p) by (cbn; by rewrite decide_True).
        rewrite app_assoc. unfold repo_of, repo_update. rewrite foldl_app. cbn. by rewrite (bu_repos0 _ _ E1).
      * rewrite list_lookup_insert_ne in Hr by done. rewrite omap_snoc_None by (cbn; by rewrite decide_False). by apply bu_repos0.
    + intros r' Hr. rewrite insert_length in Hr. rewrite omap_snoc_None; [by apply bu_repos_new0|]. cbn.
      rewrite decide_False; [done|]. intros ->. apply lookup_lt_Some in E1. lia.
  - cbn [step] in H. destruct (w_repos w !! r) as [re|]; cbn in H; [|done].
    destruct (add_repository_eff _ _) as [po x]. injection H as <- <-. by eapply built_plain.
  - cbn [step] in H. destruct m0 as [x|]; [destruct (w_mods w !! x); cbn in H; [|done]|]; injection H as <- <-; by eapply built_plain.
  - injection H as <- <-. by eapply built_plain.
  - cbn [step] in H. destruct (name_to_packages_eff _ _). injection H as <- <-. by eapply built_plain.
  - injection H as <- <-. by eapply built_plain.
  - injection H as <- <-. by eapply built_plain.
  - cbn [step] in H. destruct (solver_now _ _ _ _ _) as [ds|]; cbn in H; [|done]. destruct (request_now _ _) as [[x rq]|]; cbn in H; [|done].
    injection H as <- <-. eapply built_plain; [done|exact B|unfold after_solve..]; by destruct (convert_upgrade _ _ _).
  - cbn [step] in H. destruct (solver_now _ _ _ _ _) as [ds|]; cbn in H; [|done]. destruct (request_now _ _) as [[x rq]|]; cbn in H; [|done].
    injection H as <- <-. eapply built_plain; [done|exact B|unfold after_solve..]; by destruct (convert_upgrade _ _ _).
Qed.

(** ** Histories *)
Lemma happens_app h1 : ∀ w h2 w', happens w (h1 ++ h2) w' ↔ ∃ w1, happens w h1 w1 ∧ happens w1 h2 w'.
Proof.
  induction h1 as [|[c a] h1 IH]; intros w h2 w'; cbn [app happens].
  - split; [eauto|]. intros (w1 & -> & ?). done.
  - split.
    + intros (w1 & H1 & (w2 & H2 & H3)%IH). eauto.
    + intros (w2 & (w1 & H1 & H2) & H3). exists w1. split; [done|]. apply IH. eauto.
Qed.
Lemma added_snoc calls c : added (calls ++ [c]) = added calls ++ match c with AddRepository r => [listed calls r] | _ => [] end.
Proof.
  unfold added. assert (G : ∀ b, added_after b (calls ++ [c]) =
    added_after b calls ++ match c with AddRepository r => [listed (b ++ calls) r] | _ => [] end).
  { induction calls as [|d calls IH]; intros b; cbn [app added_after].
    - by rewrite !app_nil_r.
    - rewrite IH, <-!app_assoc. done. }
  apply (G []).
Qed.
Lemma built0 : built [] world0.
Proof. split; try done. Qed.

Lemma history_built h : ∀ w, happens world0 h w → built h.*1 w.
Proof.
  induction h as [|[c a] h IH] using rev_ind; intros w; [intros <-; apply built0|].
  rewrite happens_app. intros (w1 & H1%IH & (w2 & H2 & <-)). rewrite fmap_app. by eapply built_step.
Qed.
Lemma plain_pool w c w' a : step w c = Some (w', a) → (∀ r, c ≠ AddRepository r) → (∀ n, c ≠ NameToPackages n) → w_pool w' = w_pool w.
Proof.
  intros H Ha Hn. destruct c as [m0|a1 a2|a1 ps|a1|k c|ps|r p|r|m0|r b|n|p|i|e fuel remote inst pr st k|e fuel remote inst pr st k];
    cbn [step] in H.
  - by injection H as <- <-.
  - destruct (w_mods w !! a1); cbn in H; [|done]. destruct (w_mods w !! a2); cbn in H; [|done]. by injection H as <- <-.
  - destruct (w_mods w !! a1); cbn in H; [|done]. by injection H as <- <-.
  - destruct (w_mods w !! a1); cbn in H; [|done]. by injection H as <- <-.
  - destruct (request_now w k) as [[x rq]|]; cbn in H; [|done]. destruct (do_call rq c); by injection H as <- <-.
  - by injection H as <- <-.
  - destruct (w_repos w !! r); cbn in H; [|done]. by injection H as <- <-.
  - by destruct (Ha r).
  - destruct m0 as [x|]; [destruct (w_mods w !! x); cbn in H; [|done]|]; by injection H as <- <-.
  - by injection H as <- <-.
  - by destruct (Hn n).
  - by injection H as <- <-.
  - by injection H as <- <-.
  - destruct (solver_now _ _ _ _ _) as [ds|]; cbn in H; [|done]. destruct (request_now _ _) as [[x rq]|]; cbn in H; [|done].
    injection H as <- <-. unfold after_solve. by destruct (convert_upgrade _ _ _).
  - destruct (solver_now _ _ _ _ _) as [ds|]; cbn in H; [|done]. destruct (request_now _ _) as [[x rq]|]; cbn in H; [|done].
    injection H as <- <-. unfold after_solve. by destruct (convert_upgrade _ _ _).
Qed.
Lemma history_pool h : ∀ w, happens world0 h w → adds_ok h →
  ∃ po0, pool_of (added h.*1) None = Ok po0 ∧ twin (λ n, NameToPackages n ∈ h.*1) (w_pool w) po0.
Proof.
  induction h as [|[c a] h IH] using rev_ind; intros w.
  - intros <- _. exists (pool_empty None). split; [done|]. split; [done|done|done|]. intros n. by left.
  - rewrite happens_app. intros (w1 & H1 & (w2 & H2 & <-)) Hok.
    pose proof (history_built _ _ H1) as B.
    destruct (IH _ H1) as (po0 & E0 & T). { intros r x Hin. apply (Hok r x), elem_of_app. by left. }
    rewrite fmap_app. cbn [fmap list_fmap fst]. rewrite added_snoc.
    assert (T' : twin (λ n, NameToPackages n ∈ h.*1 ++ [c]) (w_pool w1) po0).
    { eapply twin_more; [|exact T]. intros n Hn. apply elem_of_app. by left. }
    assert (Hcase : (∃ r, c = AddRepository r) ∨ (∃ n, c = NameToPackages n) ∨
                    ((∀ r, c ≠ AddRepository r) ∧ (∀ n, c ≠ NameToPackages n))) by (destruct c; naive_solver).
    destruct Hcase as [(r & ->)|[(n & ->)|[Ha Hn]]].
    + cbn [step] in H2. destruct (w_repos w1 !! r) as [re|] eqn:Er; cbn in H2; [|done].
      pose proof (add_repository_spec (repo_iter re) (w_pool w1)) as Hs.
      destruct (add_repository_eff _ _) as [po [x|]]; injection H2 as <- <-.
      { exfalso. apply (Hok r x), elem_of_app. right. by apply elem_of_list_singleton. }
      destruct (twin_repository _ _ _ _ _ T' Hs) as (po0' & E0' & T2). exists po0'. split; [|exact T2].
      unfold pool_of in *. rewrite foldM_app, E0. cbn [mbind res_bind foldM].
      rewrite (bu_repos _ _ B _ _ Er) in E0'. unfold listed. by rewrite E0'.
    + cbn [step] in H2. rewrite app_nil_r. exists po0. split; [done|].
      assert (Hin : NameToPackages n ∈ h.*1 ++ [NameToPackages n]) by (apply elem_of_app; right; by apply elem_of_list_singleton).
      pose proof (twin_lookup (λ x, NameToPackages x ∈ h.*1 ++ [NameToPackages n]) _ _ n Hin T') as T2.
      destruct (name_to_packages_eff _ _) as [po l]. injection H2 as <- <-. exact T2.
    + exists po0. rewrite (plain_pool _ _ _ _ H2 Ha Hn). split; [|exact T'].
      destruct c; rewrite ?app_nil_r; try done. by destruct (Ha r).
Qed.

Lemma request_now_spec calls w k a rq : built calls w → request_now w k = Some (a, rq) →
  modifiers_of calls k = Some a ∧ rq = request_of calls k.
Proof.
  intros B. unfold request_now. destruct (w_reqs w !! k) as [[x js]|] eqn:E; cbn; [|done].
  destruct (w_mods w !! x) as [m|] eqn:Em; cbn; [|done]. intros [= <- <-].
  destruct (bu_reqs _ _ B _ _ _ E) as (Hm & -> & _). split; [done|]. unfold request_of. rewrite Hm. cbn.
  by rewrite (bu_mods _ _ B _ _ Em).
Qed.
Lemma solver_now_spec calls w remote inst pr st ds : built calls w → solver_now w remote inst pr st = Some ds →
  ds = fresh calls (pool_now w) remote inst pr st.
Proof.
  intros B. unfold solver_now. destruct (mapM _ _) as [rs|] eqn:E; cbn; [|done].
  destruct (w_repos w !! inst) as [i|] eqn:Ei; cbn; [|done]. intros [= <-]. unfold fresh. f_equal.
  - apply mapM_Some in E. induction E as [|r re rl rel Hr _ IH]; [done|]. cbn. rewrite IH. f_equal. unfold listed.
    by rewrite (bu_repos _ _ B _ _ Hr).
  - unfold listed. by rewrite (bu_repos _ _ B _ _ Ei).
Qed.
