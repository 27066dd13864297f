(** * Property C65 (solving again after the transaction), and C13, C14 up to packages of the same name and version *)
From Verif Require Import PoolProofs PropPool PropConstraints SpecSat ConstraintProofs PropRules SatLearn RepositoryProofs TwinProofs.
From Verif Require Export PropOps PropLimits.

(** ** C13, C14: a repository usually also holds the installed packages, as other objects of the same name, version and metadata.
    Then which of these objects is chosen does not matter. *)
Definition has_release (S : package → Prop) (p : package) : Prop :=
  ∃ q, S q ∧ p_name q = p_name p ∧ p_version q = p_version p.

Theorem C13_release : ∀ e repos ds fuel rq jobs t S p, env_ok e → setting repos ds → asks ds rq jobs →
  same_metadata (mjoin repos) (mjoin repos) →
  solve e ds fuel rq = Ok (Normal t) →
  valid (mjoin repos) (ds_installed ds) (rq_mods rq) jobs S →
  (∀ q, q ∈ ds_installed ds → ¬ soft jobs q → RemoveOp q ∉ t_ops t → has_release S q) →
  p ∈ ds_installed ds → ¬ soft jobs p → has_release S p → has_release (after (ds_installed ds) (t_ops t)) p.
Proof.
  intros e repos ds fuel rq jobs t S p He Hset Hask HM H V HS Hp Hso HSp.
  assert (Hf := solve_found _ He _ _ Hset _ _ _ Hask _ H). open_found Hf.
  eapply (keeps_release e He po _ R (sv_keys _ _ Hset) _ (sv_installed _ _ Hset) _ _ _ _ _ _ _ _ _ PB _ _ Hrun _ D _ _ _ OK HM S p).
  - by apply (to_mods repos ds rq jobs po jobs').
  - intros q Hq Hs Hr. apply HS; [done| |done]. intros Hs'. apply Hs. eapply soft_jobs; [|exact Hs']. intros; by apply Hj.
  - done.
  - intros Hs. apply Hso. eapply soft_jobs; [|exact Hs]. intros; by apply Hj.
  - done.
Qed.
Theorem C14_release : ∀ e repos ds fuel rq jobs t S p, env_ok e → setting repos ds → asks ds rq jobs →
  same_metadata (mjoin repos) (mjoin repos) →
  solve e ds fuel rq = Ok (Normal t) →
  valid (mjoin repos) (ds_installed ds) (rq_mods rq) jobs S →
  (∃ j, j ∈ jobs ∧ job_about (mjoin repos) (ds_installed ds) j p) → S p →
  (∀ q, q ∈ ds_installed ds → ¬ soft jobs q → RemoveOp q ∉ t_ops t → has_release S q) →
  (∀ j q, j ∈ jobs → job_about (mjoin repos) (ds_installed ds) j q → ¬ vlt (p_version q) (p_version p) →
          has_release (after (ds_installed ds) (t_ops t)) q → has_release S q) →
  has_release (after (ds_installed ds) (t_ops t)) p.
Proof.
  intros e repos ds fuel rq jobs t S p He Hset Hask HM H V (j0 & Hj0 & Hab) HSp HI HC.
  assert (Hf := solve_found _ He _ _ Hset _ _ _ Hask _ H). open_found Hf.
  eapply (newest_release e He po _ R (sv_keys _ _ Hset) _ (sv_installed _ _ Hset) _ _ _ _ _ _ _ _ _ PB _ _ Hrun _ D _ _ _ OK HM S p).
  - by apply (to_mods repos ds rq jobs po jobs').
  - exists j0. split; [by apply Hj|done].
  - done.
  - intros q Hq Hs Hr. apply HI; [done| |done]. intros Hs'. apply Hs. eapply soft_jobs; [|exact Hs']. intros; by apply Hj.
  - intros q (j & Hjin & Hq) Hv Hr. apply (HC j q); [by apply Hj|done|done|done].
Qed.

(** ** C65 *)
(** The solver after the transaction has been carried out: [inst'] are the packages now installed. *)
Definition applied (inst : list package) (ops : list operation) (inst' : list package) : Prop :=
  ∀ p, p ∈ inst' ↔ after inst ops p.
Definition with_installed (ds : dep_solver) (inst' : list package) : dep_solver :=
  DepSolver (ds_pool ds) (ds_remote ds) inst' (ds_pruning ds) (ds_strict ds).

(** There is a choice for a hard update if there is a candidate. *)
Lemma older_trans inst p q x : older_or_remote inst p q → older_or_remote inst q x → older_or_remote inst p x.
Proof.
  intros [H1|(E1 & H1 & H2)] [H3|(E2 & H3 & H4)]; [left; unfold vlt in *; lia|left; by rewrite <-E2|left; by rewrite E1|done].
Qed.
Lemma older_cotrans inst p q x : ¬ older_or_remote inst q p → older_or_remote inst q x → older_or_remote inst p x.
Proof.
  intros H1 H2. assert (H3 : ¬ vlt (p_version q) (p_version p)) by (intros ?; apply H1; by left).
  destruct (vlt_dec (p_version p) (p_version x)) as [|Hn]; [by left|]. destruct H2 as [H2|(E & H4 & H5)]; [exfalso; unfold vlt in *; lia|].
  assert (E' : p_version p = p_version q).
  { rewrite <-E in Hn. destruct (p_version p) as [a b], (p_version q) as [c d]. unfold vlt in *. cbn [upstream build] in *. f_equal; lia. }
  right. split; [congruence|]. split; [|done]. intros Hp. apply H1. right. done.
Qed.
Lemma older_dec inst p q : {older_or_remote inst p q} + {¬ older_or_remote inst p q}.
Proof. unfold older_or_remote. exact (decide _). Qed.
Lemma hard_exists pkgs inst r p : p ∈ pkgs → req_meets r p → ∃ q, hard_choice pkgs inst r q.
Proof.
  assert (Hd : ∀ x, {req_meets r x} + {¬ req_meets r x}).
  { intros x. destruct (req_b r x) eqn:E; [left; by apply req_b_spec|right; intros H%req_b_spec; congruence]. }
  intros Hp Hm. revert p Hp Hm. induction pkgs as [|x l IH] using rev_ind; intros p Hp Hm; [by apply elem_of_nil in Hp|].
  destruct (decide (Exists (λ y, req_b r y = true) l)) as [(y & Hy & Hym%req_b_spec)%Exists_exists|Hno].
  - destruct (IH y Hy Hym) as (q & l1 & l2 & -> & Hq & Hl1 & Hl2).
    destruct (Hd x) as [Hx|Hx].
    + destruct (older_dec inst q x) as [Ho|Ho].
      * exists x, (l1 ++ q :: l2), []. split; [done|]. split; [done|]. split; [|by intros z ?%elem_of_nil].
        intros z [Hz|[-> |Hz]%elem_of_cons]%elem_of_app Hzm; [|done|].
        -- eapply older_trans; [by apply Hl1|done].
        -- eapply older_cotrans; [by apply Hl2|done].
      * exists q, l1, (l2 ++ [x]). split; [by rewrite <-app_assoc|]. split; [done|]. split; [done|].
        intros z [Hz| ->%elem_of_list_singleton]%elem_of_app Hzm; [by apply Hl2|done].
    + exists q, l1, (l2 ++ [x]). split; [by rewrite <-app_assoc|]. split; [done|]. split; [done|].
      intros z [Hz| ->%elem_of_list_singleton]%elem_of_app Hzm; [by apply Hl2|done].
  - assert (Hno' : ∀ z, z ∈ l → ¬ req_meets r z).
    { intros z Hz Hzm. apply Hno, Exists_exists. exists z. split; [done|]. by apply req_b_spec. }
    apply elem_of_app in Hp as [Hp| ->%elem_of_list_singleton]; [by destruct (Hno' p Hp)|].
    exists x, l, []. split; [done|]. split; [done|]. split; [|by intros z ?%elem_of_nil]. intros z Hz Hzm. by destruct (Hno' z Hz).
Qed.
(** The choice stays the same once it is installed. *)
Lemma hard_now pkgs inst inst' r q q' : hard_choice pkgs inst r q → q ∈ inst' → hard_choice pkgs inst' r q' → q' ∈ inst'.
Proof.
  intros Hq Hi Hq'. destruct (decide (q' ∈ inst')) as [|Hni]; [done|]. exfalso.
  assert (q ∈ pkgs ∧ req_meets r q) as [Hl Hm]. { destruct Hq as (l1 & l2 & -> & Hr & _). split; [apply elem_of_app; right; left|done]. }
  assert (q' ∈ pkgs ∧ req_meets r q') as [Hl' Hm']. { destruct Hq' as (l1 & l2 & -> & Hr & _). split; [apply elem_of_app; right; left|done]. }
  assert (H1 := hard_newest _ _ _ _ _ Hq Hl' Hm'). assert (H2 := hard_newest _ _ _ _ _ Hq' Hl Hm).
  assert (Ev : p_version q' = p_version q).
  { destruct (p_version q) as [a b], (p_version q') as [c d]. unfold vlt in *. cbn [upstream build] in *. f_equal; lia. }
  assert (Hor : older_or_remote inst' q' q) by (right; done).
  destruct Hq' as (l1 & l2 & -> & _ & Hl1 & Hl2). apply elem_of_app in Hl as [Hin|[-> |Hin]%elem_of_cons]; [|done|by apply (Hl2 q)].
  destruct (Hl1 q Hin Hm) as [Hlt|(_ & Hni' & _)]; [|done]. rewrite Ev in Hlt. unfold vlt in Hlt. lia.
Qed.
Lemma now_valid pkgs inst inst' m jobs (S : package → Prop) : (∀ p, p ∈ inst' ↔ S p) → valid pkgs inst m jobs S →
  valid pkgs inst' m jobs (λ p, p ∈ inst').
Proof.
  intros Hi [V1 V2 V3 V4 V5]. split.
  - intros p Hp. by apply V1, Hi.
  - intros j Hj. specialize (V2 j Hj). unfold job_ok in *. destruct (j_req j) as [r|]; [|done]. destruct (j_kind j); [..|done].
    + destruct V2 as (q & Hq & Hm). exists q. split; [by apply Hi|done].
    + intros q Hq. by apply V2, Hi.
    + destruct V2 as (q & Hq & Hm). exists q. split; [by apply Hi|done].
    + intros q' Hq'. assert (q' ∈ pkgs ∧ req_meets r q') as [Hl Hm].
      { destruct Hq' as (l1 & l2 & -> & Hr & _). split; [apply elem_of_app; right; left|done]. }
      destruct (hard_exists pkgs inst r q' Hl Hm) as (q & Hq). eapply hard_now; [exact Hq|by apply Hi, V2|done].
  - intros p d Hp Hd. destruct (V3 p d) as (q & Hq & Hne & Hm); [by apply Hi|done|]. exists q. split; [by apply Hi|done].
  - intros p q Hp Hq. apply V4; by apply Hi.
  - intros p d q Hp Hd Hq. apply V5; [by apply Hi|done|by apply Hi].
Qed.

Section again.
  Context (e e' : env) (He : env_ok e) (He' : env_ok e') (repos : list (list package)) (ds : dep_solver) (Hset : setting repos ds).
  Context (fuel fuel' : nat) (rq : request) (Hup : ∀ j, j ∈ rq_jobs rq → j_kind j ≠ JUpgrade).
  Context (Hpr : ds_pruning ds = true) (H1 : single_names (mjoin repos)) (H3 : same_metadata (mjoin repos) (ds_installed ds)).
  Context (H2 : removes_known (mjoin repos) (ds_installed ds) (rq_jobs rq)).
  Context (t : transaction) (Hs : solve e ds fuel rq = Ok (Normal t)).
  Context (inst' : list package) (Hi : applied (ds_installed ds) (t_ops t) inst').
  Local Notation l := (mjoin repos).
  Local Notation jobs := (rq_jobs rq).
  Local Notation inst := (ds_installed ds).
  Local Notation ds' := (with_installed ds inst').
  Lemma again_asks : asks ds rq jobs ∧ asks ds' rq jobs.
  Proof. split; left; done. Qed.
  Lemma again_valid1 : valid l inst (rq_mods rq) jobs (after inst (t_ops t)).
  Proof. by apply (C16_valid e repos ds fuel rq jobs t He Hset (proj1 again_asks) Hpr H1 H3 H2 Hs). Qed.
  Lemma again_valid : valid l inst' (rq_mods rq) jobs (λ p, p ∈ inst').
  Proof. exact (now_valid _ _ _ _ _ _ Hi again_valid1). Qed.
  Lemma again_setting : setting repos ds'.
  Proof. destruct Hset as [A B C]. split; [exact A| |done]. intros p Hp. by apply (va_sub _ _ _ _ _ again_valid). Qed.

  (** With candidates of which those of one version have one name. *)
  Section soft.
    Context (HM : same_metadata l l) (H2' : removes_known l inst' jobs).
    Context (Htie : ∀ j j' p q, j ∈ jobs → j' ∈ jobs → job_about l inst j p → job_about l inst j' q → p_version p = p_version q → p_name p = p_name q).
    Context (t' : transaction) (Hs' : solve e' ds' fuel' rq = Ok (Normal t')).
    Lemma again_same : same_metadata l inst'.
    Proof. intros p q Hp Hq. apply HM; [|done]. by apply (va_sub _ _ _ _ _ again_valid). Qed.
    Lemma again_valid2 : valid l inst' (rq_mods rq) jobs (after inst' (t_ops t')).
    Proof. exact (C16_valid e' repos ds' fuel' rq jobs t' He' again_setting (proj2 again_asks) Hpr H1 again_same H2' Hs'). Qed.
    Lemma again_hard j r q : j ∈ jobs → j_kind j = JHardUpdate → j_req j = Some r → hard_choice l inst r q ↔ hard_choice l inst' r q.
    Proof.
      intros Hj Hk Hr.
      assert (Hin : ∀ i x, hard_choice l i r x → x ∈ l ∧ req_meets r x).
      { intros i x (l1 & l2 & E & Hm & _). split; [|done]. rewrite E. apply elem_of_app; right; left. }
      assert (Hall : ∀ q q', hard_choice l inst r q → hard_choice l inst' r q' → q = q').
      { intros x x' Hx Hx'. apply (va_names _ _ _ _ _ again_valid).
        - apply Hi. assert (Hok := va_jobs _ _ _ _ _ again_valid1 j Hj). unfold job_ok in Hok. rewrite Hr, Hk in Hok. auto.
        - assert (Hok := va_jobs _ _ _ _ _ again_valid j Hj). unfold job_ok in Hok. rewrite Hr, Hk in Hok. auto.
        - destruct (Hin _ _ Hx) as [? [? _]], (Hin _ _ Hx') as [? [? _]]. by eapply H1. }
      split; intros Hq; destruct (Hin _ _ Hq) as [Hl Hm].
      - destruct (hard_exists l inst' r q Hl Hm) as (q' & Hq'). by rewrite (Hall q q' Hq Hq').
      - destruct (hard_exists l inst r q Hl Hm) as (q' & Hq'). by rewrite <-(Hall q' q Hq' Hq).
    Qed.
    Lemma again_about j p : j ∈ jobs → job_about l inst j p ↔ job_about l inst' j p.
    Proof.
      intros Hj. unfold job_about. destruct (j_kind j) eqn:Ek; [done|done|done| |done].
      split; intros (r & Hr & H); exists r; (split; [done|]); by apply (again_hard j r p).
    Qed.
    (** The new state is valid for the first request, too. *)
    Lemma again_valid3 : valid l inst (rq_mods rq) jobs (after inst' (t_ops t')).
    Proof.
      destruct again_valid2 as [V1 V2 V3 V4 V5]. split; [done| |done|done|done]. intros j Hj. specialize (V2 j Hj). unfold job_ok in *.
      destruct (j_req j) as [r|] eqn:Er; [|done]. destruct (j_kind j) eqn:Ek; [done|done|done| |done].
      intros q Hq. apply V2. by apply (again_hard j r q).
    Qed.
    Lemma again_kept p : p ∈ inst' → ¬ soft jobs p → RemoveOp p ∉ t_ops t'.
    Proof.
      intros Hp Hso. by eapply (C13_all_kept e' repos ds' fuel' rq jobs t' _ He' again_setting (proj2 again_asks) Hs' again_valid).
    Qed.
    Local Notation S1 := (after inst (t_ops t)).
    Local Notation S2 := (after inst' (t_ops t')).
    Local Notation newer p := (length (filter (λ q, vlt (p_version p) (p_version q)) l)).
    Lemma newer_less p q : q ∈ l → vlt (p_version p) (p_version q) → (newer q < newer p)%nat.
    Proof.
      intros Hq Hv. assert (Hs0 : ∀ k, (length (filter (λ x, vlt (p_version q) (p_version x)) k) ≤ length (filter (λ x, vlt (p_version p) (p_version x)) k))%nat).
      { induction k as [|x k IH]; [done|]. rewrite !filter_cons. repeat case_decide; cbn; try lia. exfalso. unfold vlt in *; lia. }
      apply elem_of_list_split in Hq as (k1 & k2 & ->). rewrite !filter_app, !filter_cons, !app_length.
      rewrite decide_False by (unfold vlt; lia). rewrite decide_True by done. cbn. assert (A := Hs0 k1). assert (B := Hs0 k2). lia.
    Qed.
    Lemma about_twin (S : package → Prop) j p : valid l inst (rq_mods rq) jobs S → j ∈ jobs → job_about l inst j p → has_release S p →
      ∃ x, S x ∧ p_name x = p_name p ∧ p_version x = p_version p ∧ job_about l inst j x.
    Proof.
      intros V Hj Hab (x & Hx & E1 & E2). assert (Hp := job_about_in _ _ _ _ Hab). assert (Hxl := va_sub _ _ _ _ _ V x Hx).
      assert (Hok := va_jobs _ _ _ _ _ V j Hj). unfold job_ok in Hok. destruct Hab as (r & Hr & Hab). rewrite Hr in Hok.
      assert (Htr : req_meets r p → req_meets r x) by (apply (twin_req l HM r p x Hp Hxl); by split).
      destruct (j_kind j) eqn:Ek; [| | | |done].
      - exists x. do 3 (split; [done|]). exists r. split; [done|]. rewrite Ek. destruct Hab. auto.
      - destruct Hab as [_ Hm]. by destruct (Hok x Hx (Htr Hm)).
      - exists x. do 3 (split; [done|]). exists r. split; [done|]. rewrite Ek. destruct Hab. auto.
      - exists p. split; [auto|]. do 2 (split; [done|]). exists r. split; [done|]. by rewrite Ek.
    Qed.
    Lemma again_release k : ∀ j p, (newer p < k)%nat → j ∈ jobs → job_about l inst j p → has_release S1 p ↔ has_release S2 p.
    Proof.
      induction k as [|k IH]; intros j p Hk Hj Hab; [lia|].
      (* newer ones, and those of the same version *)
      assert (Hno : ∀ (A B : package → Prop) x j' q, (∀ j' q, j' ∈ jobs → job_about l inst j' q → (newer q < k)%nat → has_release A q → has_release B q) →
        B x → p_name x = p_name p → p_version x = p_version p → j' ∈ jobs → job_about l inst j' q → ¬ vlt (p_version q) (p_version x) → has_release A q → has_release B q).
      { intros A B x j' q HAB HB E1 E2 Hj' Hq Hv HA. destruct (vlt_dec (p_version x) (p_version q)) as [Hlt|Hge].
        - eapply HAB; [exact Hj'|done| |done]. rewrite E2 in Hlt. assert (Hl := newer_less p q (job_about_in _ _ _ _ Hq) Hlt). lia.
        - exists x. split; [done|]. assert (Ev : p_version x = p_version q).
          { destruct (p_version x) as [a b], (p_version q) as [c d]. unfold vlt in *. cbn [upstream build] in *. f_equal; lia. }
          split; [|done]. rewrite E1. apply (Htie j j' p q); [done|done|done|done|]. congruence. }
      split; intros Hr.
      - destruct (about_twin S1 j p again_valid1 Hj Hab Hr) as (x & Hx & E1 & E2 & Hxa).
        destruct (C14_release e' repos ds' fuel' rq jobs t' (λ p, p ∈ inst') x He' again_setting (proj2 again_asks) HM Hs' again_valid) as (y & Hy & F1 & F2).
        + exists j. split; [done|]. by apply again_about.
        + by apply Hi.
        + intros q Hq _ _. by exists q.
        + intros j' q Hj' Hq Hv HS. apply (again_about j' q Hj') in Hq.
          destruct (Hno S2 S1 x j' q) as (y & Hy & F1 & F2); [|done|done|done|done|done|done|exact HS|].
          * intros j0 q0 Hj0 Hq0 Hl0. by apply (IH j0 q0 Hl0 Hj0 Hq0).
          * exists y. split; [by apply Hi|done].
        + exists y. split; [done|]. split; congruence.
      - destruct (about_twin S2 j p again_valid3 Hj Hab Hr) as (x & Hx & E1 & E2 & Hxa).
        destruct (C14_release e repos ds fuel rq jobs t S2 x He Hset (proj1 again_asks) HM Hs again_valid3) as (y & Hy & F1 & F2).
        + exists j. done.
        + done.
        + intros q Hq Hso Hr'. exists q. split; [|done]. assert (Hqi : q ∈ inst') by (apply Hi; by left). left. split; [done|]. by apply again_kept.
        + intros j' q Hj' Hq Hv HS. apply (Hno S1 S2 x j' q); [|done|done|done|done|done|done|exact HS].
          intros j0 q0 Hj0 Hq0 Hl0. by apply (IH j0 q0 Hl0 Hj0 Hq0).
        + exists y. split; [done|]. split; congruence.
    Qed.
    Lemma again_nothing_removed p : p ∈ inst' → RemoveOp p ∉ t_ops t'.
    Proof.
      intros Hp Hr. destruct (C27_solve e' repos ds' fuel' rq jobs t' He' again_setting (proj2 again_asks) Hs') as (_ & _ & Hops & _).
      assert (Hso : ¬ ¬ soft jobs p) by (intros Hso; by apply (again_kept p Hp)). apply Hso. intros (j & r & Hj & Hk & Hr' & Hm). clear Hso.
      assert (Hab : job_about l inst j p).
      { exists r. split; [done|]. rewrite Hk. split; [by apply (va_sub _ _ _ _ _ again_valid)|done]. }
      assert (H : has_release S1 p) by (exists p; split; [by apply Hi|done]).
      apply (again_release (S (newer p)) j p) in H; [|lia|done|done]. destruct H as (x & [[Hx Hnr]|Hx] & E1 & E2).
      - apply Hnr. rewrite (va_names _ _ _ _ _ again_valid x p Hx Hp E1). done.
      - destruct (Hops _ Hx) as [(y & Ey & _)|(y & [= <-] & _ & _ & Hn)]; [done|]. apply (Hn p); [done|]. split; congruence.
    Qed.
    Lemma again_ops : t_ops t' = [] ∧ t_pretty t' = [].
    Proof.
      assert (Hf := solve_found _ He' _ _ again_setting _ _ _ (proj2 again_asks) _ Hs'). open_found Hf.
      destruct (Hconn Hpr) as (X & HX & ->).
      assert (Hc := connected_spec e' He' po _ R (sv_keys _ _ Hset) (solution_to_ids a)
        (sol_lit po _ _ _ _ (run_solved e' He' po _ R (sv_keys _ _ Hset) _ (sv_installed _ _ again_setting) _ _ _ _ _ _ _ _ _ PB _ _ Hrun)) _
        (roots_ok e' po _ R (sv_keys _ _ Hset) _ (sv_installed _ _ again_setting) _ _ _ _ _ _ _ _ _ PB) fuel' X HX).
      destruct Hc as (n2i & N & _ & HN & Hn1 & Hn2 & _ & HX').
      assert (Hops : t_ops t' = []).
      { eapply (still_ops e' He' po _ R (sv_keys _ _ Hset) _ (sv_installed _ _ again_setting) _ _ _ _ _ _ _ _ _ PB _ _ (run_solved e' He' po _ R (sv_keys _ _ Hset) _ (sv_installed _ _ again_setting) _ _ _ _ _ _ _ _ _ PB _ _ Hrun) _ D _ _ _ OK H1) with (n2i := n2i) (N := N); [|done|done|done| | | |].
        - intros j r Hjin. apply (H2' j r). by apply Hj.
        - intros i. by rewrite (e_ord_elem e' He').
        - intros p q Hp Hq Ht. apply again_same; [done|done|apply Ht|apply Ht].
        - apply (to_mods repos ds' rq jobs po jobs' _ Hm Hj). exact again_valid.
        - exact again_nothing_removed. }
      split; [done|]. rewrite Hops in Hpretty. cbn in Hpretty. by injection Hpretty as <-.
    Qed.
  End soft.
End again.

(** Solving the same request again, after the transaction has been carried out, finds nothing to do (and never fails with
    SatisfiabilityError): requests without soft updates. *)
Theorem C65_again : ∀ e e' repos ds fuel fuel' rq t inst' o, env_ok e → env_ok e' → setting repos ds →
  (∀ j, j ∈ rq_jobs rq → j_kind j ≠ JUpgrade ∧ j_kind j ≠ JSoftUpdate) →
  ds_pruning ds = true → single_names (mjoin repos) → same_metadata (mjoin repos) (ds_installed ds) →
  removes_known (mjoin repos) (ds_installed ds) (rq_jobs rq) →
  solve e ds fuel rq = Ok (Normal t) → applied (ds_installed ds) (t_ops t) inst' →
  removes_known (mjoin repos) inst' (rq_jobs rq) →
  solve e' (with_installed ds inst') fuel' rq = Ok o →
  ∃ t', o = Normal t' ∧ t_ops t' = [] ∧ t_pretty t' = [].
Proof.
  intros e e' repos ds fuel fuel' rq t inst' o He He' Hset Hk Hpr H1 H3 H2 Hs Hi H2' Ho.
  assert (Hup : ∀ j, j ∈ rq_jobs rq → j_kind j ≠ JUpgrade) by (intros j Hj; by apply Hk).
  assert (V := again_valid e He repos ds Hset fuel rq Hup Hpr H1 H3 H2 t Hs inst' Hi).
  assert (Hset' := again_setting e He repos ds Hset fuel rq Hup Hpr H1 H3 H2 t Hs inst' Hi).
  assert (Hask' : asks (with_installed ds inst') rq (rq_jobs rq)) by (by left).
  destruct o as [t'|c k s].
  - exists t'. split; [done|]. apply (C23_nothing_to_do e' repos (with_installed ds inst') fuel' rq (rq_jobs rq) t' He' Hset' Hask' Hpr H1 H2' Ho V).
    intros p Hp (j & r & Hj & Hjk & _). by apply (Hk j Hj).
  - exfalso. apply (C15_unsat e' repos (with_installed ds inst') fuel' rq (rq_jobs rq) c k s He' Hset' Hask' Ho). eauto.
Qed.
(** With soft updates: if packages of the same name and version carry the same metadata, and the candidates of the request
    that have the same version are of the same name. *)
Theorem C65_again_soft : ∀ e e' repos ds fuel fuel' rq t inst' o, env_ok e → env_ok e' → setting repos ds →
  (∀ j, j ∈ rq_jobs rq → j_kind j ≠ JUpgrade) →
  ds_pruning ds = true → single_names (mjoin repos) → same_metadata (mjoin repos) (mjoin repos) →
  removes_known (mjoin repos) (ds_installed ds) (rq_jobs rq) →
  (∀ j j' p q, j ∈ rq_jobs rq → j' ∈ rq_jobs rq → job_about (mjoin repos) (ds_installed ds) j p →
     job_about (mjoin repos) (ds_installed ds) j' q → p_version p = p_version q → p_name p = p_name q) →
  solve e ds fuel rq = Ok (Normal t) → applied (ds_installed ds) (t_ops t) inst' →
  removes_known (mjoin repos) inst' (rq_jobs rq) →
  solve e' (with_installed ds inst') fuel' rq = Ok o →
  ∃ t', o = Normal t' ∧ t_ops t' = [] ∧ t_pretty t' = [].
Proof.
  intros e e' repos ds fuel fuel' rq t inst' o He He' Hset Hup Hpr H1 HM H2 Htie Hs Hi H2' Ho.
  assert (H3 : same_metadata (mjoin repos) (ds_installed ds)).
  { intros p q Hp Hq. apply HM; [|done]. by apply (sv_installed _ _ Hset). }
  assert (V := again_valid e He repos ds Hset fuel rq Hup Hpr H1 H3 H2 t Hs inst' Hi).
  assert (Hset' := again_setting e He repos ds Hset fuel rq Hup Hpr H1 H3 H2 t Hs inst' Hi).
  assert (Hask' : asks (with_installed ds inst') rq (rq_jobs rq)) by (by left).
  destruct o as [t'|c k s].
  - exists t'. split; [done|]. eapply (again_ops e e' He He' repos ds Hset fuel fuel' rq Hup Hpr H1 H3 H2 t Hs inst' Hi HM H2' Htie t' Ho).
  - exfalso. apply (C15_unsat e' repos (with_installed ds inst') fuel' rq (rq_jobs rq) c k s He' Hset' Hask' Ho). eauto.
Qed.
(** With the conditions of C30 the second run also ends. *)
Theorem C65_total : ∀ e e' repos ds fuel rq t inst', env_ok e → env_ok e' → setting repos ds →
  (∀ j, j ∈ rq_jobs rq → j_kind j ≠ JUpgrade ∧ j_kind j ≠ JSoftUpdate) →
  ds_pruning ds = true → ds_strict ds = false → single_names (mjoin repos) → same_metadata (mjoin repos) (ds_installed ds) →
  removes_known (mjoin repos) (ds_installed ds) (rq_jobs rq) →
  (∀ p, p ∈ mjoin repos → interpretable (rq_mods rq) p) → (∀ j, j ∈ rq_jobs rq → has_candidate (mjoin repos) j) →
  acyclic (mjoin repos) (rq_mods rq) →
  solve e ds fuel rq = Ok (Normal t) → applied (ds_installed ds) (t_ops t) inst' →
  removes_known (mjoin repos) inst' (rq_jobs rq) →
  ∃ n, ∀ fuel', (n ≤ fuel')%nat → ∃ t', solve e' (with_installed ds inst') fuel' rq = Ok (Normal t') ∧ t_ops t' = [].
Proof.
  intros e e' repos ds fuel rq t inst' He He' Hset Hk Hpr Hst H1 H3 H2 Hint Hcand Hac Hs Hi H2'.
  assert (Hup : ∀ j, j ∈ rq_jobs rq → j_kind j ≠ JUpgrade) by (intros j Hj; by apply Hk).
  assert (V := again_valid e He repos ds Hset fuel rq Hup Hpr H1 H3 H2 t Hs inst' Hi).
  assert (Hset' := again_setting e He repos ds Hset fuel rq Hup Hpr H1 H3 H2 t Hs inst' Hi).
  assert (Hask' : asks (with_installed ds inst') rq (rq_jobs rq)) by (by left).
  destruct (C30_total e' repos (with_installed ds inst') rq (rq_jobs rq) He' Hset' Hask' Hpr Hst H1 (va_names _ _ _ _ _ V) H2' Hint Hcand Hac) as [n Hn].
  exists n. intros fuel' Hf.
  assert (Hall : ∀ o, solve e' (with_installed ds inst') fuel' rq = Ok o → ∃ t', o = Normal t' ∧ t_ops t' = [] ∧ t_pretty t' = []).
  { intros o Ho. exact (C65_again e e' repos ds fuel fuel' rq t inst' o He He' Hset Hk Hpr H1 H3 H2 Hs Hi H2' Ho). }
  destruct (Hn fuel' Hf) as [(t' & E)|(c & k & s & E)]; destruct (Hall _ E) as (t'' & Et & Ho & _); [|done].
  injection Et as ->. eauto.
Qed.

(** ** Cases that meet the hypotheses *)
Local Notation ipkg n v rq cf := (Pkg n (V v 0) rq cf [] (Some "i")).
Local Notation rpkg n v rq cf := (Pkg n (V v 0) rq cf [] (Some "r")).
Definition ag_remote : list package :=
  [rpkg "app" 11 [("lib", [[[CGeq (V 2 0)]]])] []; rpkg "lib" 1 [] []; rpkg "lib" 2 [] []; rpkg "lib" 3 [] [("app", [])]; rpkg "old" 21 [] []].
Definition ag_installed : list package := [ipkg "lib" 1 [] []; ipkg "old" 21 [] []].
Definition ag_ds : dep_solver := ds0 [ag_remote; ag_installed] [ag_remote] ag_installed true false.
Definition ag_request : request :=
  ask [want "app"; Job (Some (Req RInstall "old" [CAny])) JRemove; Job (Some (Req RInstall "lib" [CAny])) JSoftUpdate].
Definition ag_ops : list operation :=
  [RemoveOp (ipkg "old" 21 [] []); RemoveOp (ipkg "lib" 1 [] []); InstallOp (rpkg "lib" 2 [] []); InstallOp (rpkg "app" 11 [("lib", [[[CGeq (V 2 0)]]])] [])].
Theorem C65_example : setting [ag_remote; ag_installed] ag_ds ∧ single_names (mjoin [ag_remote; ag_installed]) ∧
  same_metadata (mjoin [ag_remote; ag_installed]) (mjoin [ag_remote; ag_installed]) ∧
  removes_known (mjoin [ag_remote; ag_installed]) ag_installed (rq_jobs ag_request) ∧
  (∀ p q, p ∈ mjoin [ag_remote; ag_installed] → q ∈ mjoin [ag_remote; ag_installed] → p_version p = p_version q → p_name p = p_name q) ∧
  (∃ t, solve env0 ag_ds 60 ag_request = Ok (Normal t) ∧ t_ops t = ag_ops) ∧
  applied ag_installed ag_ops (after_l ag_installed ag_ops) ∧
  removes_known (mjoin [ag_remote; ag_installed]) (after_l ag_installed ag_ops) (rq_jobs ag_request) ∧
  ∃ t, solve env0 (with_installed ag_ds (after_l ag_installed ag_ops)) 60 ag_request = Ok (Normal t) ∧ t_ops t = [].
Proof.
  split; [run|]. split; [run|]. split; [run|]. split; [run|]. split.
  { intros p q Hp Hq. assert (H : all (mjoin [ag_remote; ag_installed]) (λ p, all (mjoin [ag_remote; ag_installed]) (λ q,
      negb (bool_decide (p_version p = p_version q)) || bool_decide (p_name p = p_name q))) = true) by (vm_compute; reflexivity).
    assert (Hx := all_spec _ _ (all_spec _ _ H p Hp) q Hq). cbn beta in Hx. intros E. rewrite bool_decide_true in Hx by done. by apply bool_decide_eq_true in Hx. }
  split; [run|]. split; [intros p; apply after_l_spec|]. split; [run|run].
Qed.

(** ** Upgrades: a second upgrade, right after the first, may fail with SatisfiabilityError.  The first one installs A-2 with
    B-1, the newest B that A-2 accepts; now B is installed, so that the second one asks for B-2. *)
Definition upg_remote : list package := [rpkg "A" 2 [("B", [[[CLt (V 2 0)]]])] []; rpkg "B" 1 [] []; rpkg "B" 2 [] []].
Definition upg_installed : list package := [ipkg "A" 1 [] []].
Definition upg_ds : dep_solver := ds0 [upg_remote; upg_installed] [upg_remote] upg_installed true false.
Definition upg_ops : list operation := [RemoveOp (ipkg "A" 1 [] []); InstallOp (rpkg "B" 1 [] []); InstallOp (rpkg "A" 2 [("B", [[[CLt (V 2 0)]]])] [])].
Theorem C65_upgrade_refuted : ∃ repos ds rq t inst' c k s, setting repos ds ∧ upgrade_request rq ∧ ds_pruning ds = true ∧ ds_strict ds = false ∧
  single_names (mjoin repos) ∧ same_metadata (mjoin repos) (mjoin repos) ∧ acyclic (mjoin repos) (rq_mods rq) ∧
  solve env0 ds 60 rq = Ok (Normal t) ∧ applied (ds_installed ds) (t_ops t) inst' ∧
  solve env0 (with_installed ds inst') 60 rq = Ok (Unsat c k s).
Proof.
  assert (∃ t, solve env0 upg_ds 60 up_request = Ok (Normal t) ∧ t_ops t = upg_ops) as (t & Et & Ht) by run.
  assert (match solve env0 (with_installed upg_ds (after_l upg_installed upg_ops)) 60 up_request with Ok (Unsat _ _ _) => true | _ => false end = true) as H
    by (vm_compute; reflexivity).
  destruct (solve env0 (with_installed upg_ds (after_l upg_installed upg_ops)) 60 up_request) as [[t'|c k s]|] eqn:E; [discriminate H| |discriminate H]. clear H.
  exists [upg_remote; upg_installed], upg_ds, up_request, t, (after_l upg_installed upg_ops), c, k, s.
  split; [run|]. split; [exact up_is|]. split; [reflexivity|]. split; [reflexivity|]. split; [run|]. split; [run|]. split.
  { apply (ranked_b_spec (λ p, if bool_decide (p_name p = "A") then 1%nat else 0%nat)). vm_compute. reflexivity. }
  split; [exact Et|]. split; [|exact E]. rewrite Ht. intros p. apply after_l_spec.
Qed.
(** ** Soft updates with candidates of the same version: reading a set in another order the second time, the solver undoes
    the first update in favour of the other package. *)
Definition tie_remote : list package := [rpkg "A" 2 [] [("B", [[[CEqual (V 2 0)]]])]; rpkg "B" 2 [] []; rpkg "A" 1 [] []; rpkg "B" 1 [] []].
Definition tie_installed : list package := [ipkg "A" 1 [] []; ipkg "B" 1 [] []].
Definition tie_ds : dep_solver := ds0 [tie_remote; tie_installed] [tie_remote] tie_installed true false.
Definition tie_request : request := ask [Job (Some (Req RInstall "A" [CAny])) JSoftUpdate; Job (Some (Req RInstall "B" [CAny])) JSoftUpdate].
Lemma tie_soft j : j ∈ rq_jobs tie_request → j_kind j = JSoftUpdate.
Proof. intros [-> |[-> |H%elem_of_nil]%elem_of_cons]%elem_of_cons; [reflexivity|reflexivity|done]. Qed.
Definition env_rev : env := Env (λ _ X, reverse (elements X)) (λ l, l).
Lemma env_rev_ok : env_ok env_rev.
Proof. split; [intros n X; apply reverse_Permutation|done]. Qed.
Definition tie_ops : list operation := [RemoveOp (ipkg "A" 1 [] []); InstallOp (rpkg "A" 2 [] [("B", [[[CEqual (V 2 0)]]])])].
Theorem C65_ties_refuted : ∃ e e' repos ds rq t inst' t', env_ok e ∧ env_ok e' ∧ setting repos ds ∧
  (∀ j, j ∈ rq_jobs rq → j_kind j = JSoftUpdate) ∧ ds_pruning ds = true ∧
  single_names (mjoin repos) ∧ same_metadata (mjoin repos) (mjoin repos) ∧
  solve e ds 60 rq = Ok (Normal t) ∧ applied (ds_installed ds) (t_ops t) inst' ∧
  solve e' (with_installed ds inst') 60 rq = Ok (Normal t') ∧ RemoveOp (rpkg "A" 2 [] [("B", [[[CEqual (V 2 0)]]])]) ∈ t_ops t'.
Proof.
  assert (∃ t, solve env0 tie_ds 60 tie_request = Ok (Normal t) ∧ t_ops t = tie_ops) as (t & Et & Ht) by run.
  assert (match solve env_rev (with_installed tie_ds (after_l tie_installed tie_ops)) 60 tie_request with
    Ok (Normal t) => bool_decide (RemoveOp (rpkg "A" 2 [] [("B", [[[CEqual (V 2 0)]]])]) ∈ t_ops t) | _ => false end = true) as H
    by (vm_compute; reflexivity).
  destruct (solve env_rev (with_installed tie_ds (after_l tie_installed tie_ops)) 60 tie_request) as [[t'|c k s]|] eqn:E; [|discriminate H|discriminate H].
  apply bool_decide_eq_true in H.
  exists env0, env_rev, [tie_remote; tie_installed], tie_ds, tie_request, t, (after_l tie_installed tie_ops), t'.
  split; [apply env0_ok|]. split; [apply env_rev_ok|]. split; [run|].
  split; [exact tie_soft|].
  split; [reflexivity|]. split; [run|]. split; [run|]. split; [exact Et|]. split; [|split; [exact E|exact H]]. rewrite Ht. intros p. apply after_l_spec.
Qed.
Print Assumptions C65_again. Print Assumptions C65_again_soft. Print Assumptions C65_total. Print Assumptions C65_upgrade_refuted.
