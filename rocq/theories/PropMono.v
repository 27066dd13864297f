(** * Property C71: more packages, weaker jobs and more modifiers never make a solvable request unsolvable; what is installed and
      the order of things have no influence on whether a request can be met. *)
From Verif Require Import PropConstraints ConstraintProofs.
From Verif Require Export PropSolve.
From Verif Require Import PropLimits SpecCheck.

(** [j'] asks for no more than [j]: whatever meets [j] meets [j']. *)
Definition no_harder (pkgs inst pkgs' inst' : list package) (j j' : job) : Prop :=
  ∃ r r', j_req j = Some r ∧ j_req j' = Some r' ∧
    match j_kind j, j_kind j' with
    | (JInstall | JSoftUpdate), (JInstall | JSoftUpdate) => ∀ q, req_meets r q → req_meets r' q
    | JRemove, JRemove => ∀ q, req_meets r' q → req_meets r q
    | JHardUpdate, JHardUpdate => ∀ q, hard_choice pkgs' inst' r' q → hard_choice pkgs inst r q
    | JHardUpdate, (JInstall | JSoftUpdate) => ∃ q, hard_choice pkgs inst r q ∧ req_meets r' q
    | _, _ => False
    end.

Lemma valid_mono pkgs inst m jobs pkgs' inst' m' jobs' S :
  (∀ p, p ∈ pkgs → p ∈ pkgs') →
  (∀ p d q, p ∈ pkgs → d ∈ p_requires p → q ∈ pkgs → dep_meets m d q → dep_meets m' d q) →
  (∀ j', j' ∈ jobs' → ∃ j, j ∈ jobs ∧ no_harder pkgs inst pkgs' inst' j j') →
  valid pkgs inst m jobs S → valid pkgs' inst' m' jobs' S.
Proof.
  intros Hp Hm Hj V. split.
  - intros p HS. by apply Hp, (va_sub _ _ _ _ _ V).
  - intros j' Hj'. destruct (Hj j' Hj') as (j & Hjin & r & r' & E & E' & H). assert (J := va_jobs _ _ _ _ _ V j Hjin).
    unfold job_ok in *. rewrite E in J. rewrite E'.
    destruct (j_kind j), (j_kind j'); try done; try (destruct J as (q & Hq & ?); exists q; by split; [|apply H]).
    + intros q Hq Hr. apply (J q Hq). by apply H.
    + destruct H as (q & Hh & Hr). exists q. split; [by apply J|done].
    + destruct H as (q & Hh & Hr). exists q. split; [by apply J|done].
    + intros q Hq. apply J. by apply H.
  - intros p d HS Hd. destruct (va_closed _ _ _ _ _ V p d HS Hd) as (q & Hq & Hne & Hmt). exists q. split; [done|]. split; [done|].
    apply (Hm p); [by apply (va_sub _ _ _ _ _ V)|done|by apply (va_sub _ _ _ _ _ V)|done].
  - exact (va_names _ _ _ _ _ V).
  - exact (va_conflicts _ _ _ _ _ V).
Qed.

Theorem C71_monotone : ∀ e e' repos repos' ds ds' fuel fuel' rq rq' jobs jobs' t c k s, env_ok e → env_ok e' →
  setting repos ds → setting repos' ds' → asks ds rq jobs → asks ds' rq' jobs' →
  (∀ p, p ∈ mjoin repos → p ∈ mjoin repos') →
  (∀ p d q, p ∈ mjoin repos → d ∈ p_requires p → q ∈ mjoin repos → dep_meets (rq_mods rq) d q → dep_meets (rq_mods rq') d q) →
  (∀ j', j' ∈ jobs' → ∃ j, j ∈ jobs ∧ no_harder (mjoin repos) (ds_installed ds) (mjoin repos') (ds_installed ds') j j') →
  solve e ds fuel rq = Ok (Normal t) → solve e' ds' fuel' rq' ≠ Ok (Unsat c k s).
Proof.
  intros e e' repos repos' ds ds' fuel fuel' rq rq' jobs jobs' t c k s He He' Hset Hset' Hask Hask' Hp Hm Hj H1 H2.
  eapply (C15_unsat e'); [done|exact Hset'|exact Hask'|exact H2|].
  destruct (C15_sat _ _ _ _ _ _ _ He Hset Hask H1) as (S & V). exists S. by eapply valid_mono.
Qed.

(** More packages: for requests without hard updates (and upgrades). *)
Definition plain_job (j : job) : Prop := j_kind j = JInstall ∨ j_kind j = JSoftUpdate ∨ j_kind j = JRemove.
Theorem C71_more_packages : ∀ e e' repos repos' ds ds' fuel fuel' rq t c k s, env_ok e → env_ok e' →
  setting repos ds → setting repos' ds' → Forall plain_job (rq_jobs rq) → (∀ j, j ∈ rq_jobs rq → is_Some (j_req j)) →
  (∀ p, p ∈ mjoin repos → p ∈ mjoin repos') →
  solve e ds fuel rq = Ok (Normal t) → solve e' ds' fuel' rq ≠ Ok (Unsat c k s).
Proof.
  intros e e' repos repos' ds ds' fuel fuel' rq t c k s He He' Hset Hset' Hpl Hreq Hp. rewrite Forall_forall in Hpl.
  assert (A : ∀ ds, asks ds rq (rq_jobs rq)). { intros d. left. split; [|done]. intros j Hj Hk. destruct (Hpl j Hj) as [?|[?|?]]; congruence. }
  apply (C71_monotone e e' repos repos' ds ds' fuel fuel' rq rq (rq_jobs rq) (rq_jobs rq)); try done.
  intros j Hj. exists j. split; [done|]. destruct (Hreq j Hj) as [r Hr]. exists r, r. split; [done|]. split; [done|].
  destruct (Hpl j Hj) as [->|[->| ->]]; auto.
Qed.
(** The same packages in repositories added in any order, whatever is installed, the same jobs in any order. *)
Theorem C71_order : ∀ e e' repos repos' ds ds' fuel fuel' rq rq', env_ok e → env_ok e' →
  setting repos ds → setting repos' ds' → Forall plain_job (rq_jobs rq) → (∀ j, j ∈ rq_jobs rq → is_Some (j_req j)) →
  (∀ p, p ∈ mjoin repos ↔ p ∈ mjoin repos') → (∀ j, j ∈ rq_jobs rq ↔ j ∈ rq_jobs rq') → rq_mods rq = rq_mods rq' →
  ∀ t c k s, ¬ (solve e ds fuel rq = Ok (Normal t) ∧ solve e' ds' fuel' rq' = Ok (Unsat c k s)) ∧
             ¬ (solve e' ds' fuel' rq' = Ok (Normal t) ∧ solve e ds fuel rq = Ok (Unsat c k s)).
Proof.
  intros e e' repos repos' ds ds' fuel fuel' rq rq' He He' Hset Hset' Hpl Hreq Hp Hj Hm t c k s. rewrite Forall_forall in Hpl.
  assert (A : ∀ ds, asks ds rq (rq_jobs rq)). { intros d. left. split; [|done]. intros j Hi Hk. destruct (Hpl j Hi) as [?|[?|?]]; congruence. }
  assert (A' : ∀ ds, asks ds rq' (rq_jobs rq')).
  { intros d. left. split; [|done]. intros j Hi Hk. apply Hj in Hi. destruct (Hpl j Hi) as [?|[?|?]]; congruence. }
  assert (N : ∀ l i l' i' j, j ∈ rq_jobs rq → no_harder l i l' i' j j).
  { intros l i l' i' j Hi. destruct (Hreq j Hi) as [r Hr]. exists r, r. split; [done|]. split; [done|]. destruct (Hpl j Hi) as [->|[->| ->]]; auto. }
  split; intros [H1 H2].
  - revert H2. eapply (C71_monotone e e' repos repos' ds ds' fuel fuel' rq rq' (rq_jobs rq) (rq_jobs rq')); try done.
    + intros p. apply Hp.
    + by rewrite Hm.
    + intros j Hi. exists j. apply Hj in Hi. auto.
  - revert H2. eapply (C71_monotone e' e repos' repos ds' ds fuel' fuel rq' rq (rq_jobs rq') (rq_jobs rq)); try done.
    + intros p. apply Hp.
    + by rewrite Hm.
    + intros j Hi. exists j. split; [by apply Hj|auto].
Qed.

(** More modifiers. *)
Definition mods_sub (m m' : modifiers) : Prop :=
  allow_newer m ⊆ allow_newer m' ∧ allow_any m ⊆ allow_any m' ∧ allow_older m ⊆ allow_older m'.
Definition normal_package (p : package) : Prop :=
  normal_version (p_version p) ∧ ∀ d conj cs c, d ∈ p_requires p → conj ∈ d.2 → cs ∈ conj → c ∈ cs → normal_constr c.
Lemma relaxed_more m m' n c v : mods_sub m m' → normal_version v → normal_constr c → relaxed m n c v → relaxed m' n c v.
Proof.
  intros (H1 & H2 & H3) [Hv1 Hv2] Hc. unfold relaxed.
  destruct (decide (n ∈ allow_any m)) as [Ha|Ha].
  { rewrite (decide_True (P := n ∈ allow_any m')) by (by apply H2). by destruct c. }
  destruct (decide (n ∈ allow_any m')) as [Ha'|Ha']; [by destruct c|].
  destruct (decide (n ∈ allow_newer m)) as [Hn|Hn].
  { rewrite (decide_True (P := n ∈ allow_newer m')) by (by apply H1).
    destruct (decide (n ∈ allow_older m)) as [Ho|Ho].
    - rewrite (decide_True (P := n ∈ allow_older m')) by (by apply H3). done.
    - destruct (decide (n ∈ allow_older m')); [by destruct c|done]. }
  destruct (decide (n ∈ allow_older m)) as [Ho|Ho].
  { assert (Ho' : n ∈ allow_older m') by (by apply H3). destruct (decide (n ∈ allow_newer m')), (decide (n ∈ allow_older m')); by destruct c. }
  destruct (decide (n ∈ allow_newer m')), (decide (n ∈ allow_older m')); destruct c; cbn in *; try done; rewrite ?vle_iff in *; unfold vlt in *; cbn; intros; subst; lia.
Qed.
Theorem C71_more_modifiers : ∀ e e' repos ds fuel fuel' rq rq' jobs t c k s, env_ok e → env_ok e' →
  setting repos ds → asks ds rq jobs → rq_jobs rq' = rq_jobs rq → mods_sub (rq_mods rq) (rq_mods rq') →
  Forall normal_package (mjoin repos) →
  solve e ds fuel rq = Ok (Normal t) → solve e' ds fuel' rq' ≠ Ok (Unsat c k s).
Proof.
  intros e e' repos ds fuel fuel' rq rq' jobs t c k s He He' Hset Hask Ej Hm Hn H1 H2. rewrite Forall_forall in Hn.
  assert (Hask' : asks ds rq' jobs) by (unfold asks in *; by rewrite Ej).
  eapply (C15_unsat e'); [done|exact Hset|exact Hask'|exact H2|].
  destruct (C15_sat _ _ _ _ _ _ _ He Hset Hask H1) as (S & V). exists S. split; [apply V|apply V| |apply V|apply V].
  intros p d HS Hd. destruct (va_closed _ _ _ _ _ V p d HS Hd) as (q & Hq & Hne & Hpr & Hmt). exists q. split; [done|]. split; [done|].
  split; [done|]. destruct Hmt as [?|(conj & Hc & H)]; [by left|right]. exists conj. split; [done|]. intros cs c0 Hcs Hc0.
  apply (relaxed_more (rq_mods rq)); [done|by apply Hn, (va_sub _ _ _ _ _ V)| |by eapply H].
  eapply (Hn p); [by apply (va_sub _ _ _ _ _ V)|exact Hd|exact Hc|exact Hcs|done].
Qed.
Print Assumptions C71_monotone.
Print Assumptions C71_more_packages.
Print Assumptions C71_order.
Print Assumptions C71_more_modifiers.

(** ** Limits *)
Local Notation rem_pkg n v rq := (Pkg n (V v 0) rq [] [] (Some "r")).
Ltac unsat :=
  lazymatch goal with |- ∃ c k s, ?x = Ok (Unsat c k s) =>
    let H := fresh in assert (match x with Ok (Unsat _ _ _) => true | _ => false end = true) as H by (vm_compute; reflexivity);
    revert H; generalize x; intros [[?|c k s]|?] H; [discriminate H|by exists c, k, s|discriminate H]
  end.
(** With a hard update (or an upgrade) a new package can make the request unsolvable: it has to be taken, but cannot be. *)
Definition mono_a : package := rem_pkg "a" 1 [].
Definition mono_b : package := rem_pkg "a" 2 [("ghost", [])].
Theorem C71_hard_update_refuted : ∃ e repos repos' ds ds' fuel rq t c k s, env_ok e ∧ setting repos ds ∧ setting repos' ds' ∧
  ds_installed ds = ds_installed ds' ∧ (∀ p, p ∈ mjoin repos → p ∈ mjoin repos') ∧
  solve e ds fuel rq = Ok (Normal t) ∧ solve e ds' fuel rq = Ok (Unsat c k s).
Proof.
  assert (∃ t, solve env0 (ds0 [[mono_a]; []] [[mono_a]] [] true false) 40 (ask [Job (Some (Req RInstall "a" [CAny])) JHardUpdate]) = Ok (Normal t) ∧ t_ops t = [InstallOp mono_a]) as (t & Et & _) by run.
  assert (∃ c k s, solve env0 (ds0 [[mono_a; mono_b]; []] [[mono_a; mono_b]] [] true false) 40 (ask [Job (Some (Req RInstall "a" [CAny])) JHardUpdate]) = Ok (Unsat c k s)) as (c & k & s & Eu) by unsat.
  eexists env0, [[mono_a]; []], [[mono_a; mono_b]; []], _, _, 40%nat, _, t, c, k, s.
  split; [apply env0_ok|]. split; [|split; [|split; [|split; [|split; [exact Et|exact Eu]]]]]; [run|run|reflexivity|].
  intros p Hp. apply elem_of_list_singleton in Hp as ->. left.
Qed.
(** With a build number in [^=] allowing newer versions can make a request unsolvable. *)
Definition mono_c : package := rem_pkg "c" 1 [("d", [[[CUpstream (V 1 2)]]])].
Definition mono_d : package := Pkg "d" (V 1 1) [] [] [] (Some "r").
Definition mono_rq (m : modifiers) : request := Request m [want "c"].
Theorem C71_modifiers_refuted : ∃ e repos ds fuel rq rq' t c k s, env_ok e ∧ setting repos ds ∧
  rq_jobs rq' = rq_jobs rq ∧ mods_sub (rq_mods rq) (rq_mods rq') ∧
  solve e ds fuel rq = Ok (Normal t) ∧ solve e ds fuel rq' = Ok (Unsat c k s).
Proof.
  assert (∃ t, solve env0 (ds0 [[mono_c; mono_d]; []] [[mono_c; mono_d]] [] true false) 40 (mono_rq no_mods) = Ok (Normal t) ∧ t_ops t = [InstallOp mono_d; InstallOp mono_c]) as (t & Et & _) by run.
  assert (∃ c k s, solve env0 (ds0 [[mono_c; mono_d]; []] [[mono_c; mono_d]] [] true false) 40 (mono_rq (Mods {["d"]} ∅ ∅)) = Ok (Unsat c k s)) as (c & k & s & Eu) by unsat.
  eexists env0, [[mono_c; mono_d]; []], _, 40%nat, _, _, t, c, k, s.
  split; [apply env0_ok|]. split; [|split; [|split; [|split; [exact Et|exact Eu]]]]; [run|reflexivity|]. clear Et Eu. repeat split; set_solver.
Qed.
Print Assumptions C71_hard_update_refuted.
Print Assumptions C71_modifiers_refuted.
(** ** Examples: the hypotheses are met. *)
Definition mono_more : list package := rem_pkg "app" 3 [("ghost", [])] :: ex_remote.
Theorem C71_example : setting [ex_remote; ex_installed] (ex_ds true) ∧
  setting [mono_more; []] (ds0 [mono_more; []] [mono_more] [] true false) ∧
  (∀ p, p ∈ mjoin [ex_remote; []] → p ∈ mjoin [mono_more; []]) ∧
  Forall plain_job (rq_jobs (ask [want "app"; want "gui"])) ∧ Forall normal_package (mjoin [ex_remote; ex_installed]) ∧
  (∃ t, solve env0 (ds0 [ex_remote; []] [ex_remote] [] true false) 60 (ask [want "app"; want "gui"]) = Ok (Normal t) ∧ length (t_ops t) = 3%nat) ∧
  ∃ t, solve env0 (ds0 [mono_more; []] [mono_more] [] true false) 60 (ask [want "app"; want "gui"]) = Ok (Normal t) ∧ length (t_ops t) = 3%nat.
Proof.
  split; [run|]. split; [run|].
  split; [intros p Hp; apply elem_of_list_join in Hp as (k & Hp & Hk); apply elem_of_cons in Hk as [->|Hk]; [apply elem_of_list_join; exists mono_more; split; [by right|left]|];
    apply elem_of_list_singleton in Hk as ->; by apply elem_of_nil in Hp|].
  split; [apply Forall_forall; intros j Hj; left; apply elem_of_cons in Hj as [->|Hj]; [done|]; by apply elem_of_list_singleton in Hj as ->|].
  split.
  { apply Forall_forall. intros p Hp. assert (H : forallb (λ p : package, (0 <=? build (p_version p)) && (build (p_version p) <=? MAX_BUILD) &&
      forallb (λ d : cdep, forallb (forallb (forallb (λ c, match c with CUpstream w => build w =? 0 | _ => true end))) d.2) (p_requires p))
      (mjoin [ex_remote; ex_installed]) = true) by (vm_compute; reflexivity).
    rewrite forallb_forall in H. apply elem_of_list_In, H in Hp. apply andb_true_iff in Hp as [[H1 H2]%andb_true_iff H3]. split; [split; lia|].
    intros d conj cs c Hd Hc Hcs Hcc. rewrite forallb_forall in H3. apply elem_of_list_In, H3 in Hd. rewrite forallb_forall in Hd. apply elem_of_list_In, Hd in Hc.
    rewrite forallb_forall in Hc. apply elem_of_list_In, Hc in Hcs. rewrite forallb_forall in Hcs. apply elem_of_list_In, Hcs in Hcc.
    destruct c; cbn; try done. lia. }
  assert (R : ∀ x : res (out transaction), match x with Ok (Normal t) => bool_decide (length (t_ops t) = 3%nat) | _ => false end = true →
    ∃ t, x = Ok (Normal t) ∧ length (t_ops t) = 3%nat).
  { intros [[t|? ? ?]|?] H; try discriminate H. exists t. split; [done|]. by apply bool_decide_eq_true in H. }
  split; apply R; vm_compute; reflexivity.
Qed.
Print Assumptions C71_example.
