(** * Packages of the same name and version with the same metadata are interchangeable. *)
From Verif Require Import PoolProofs PropPool PropConstraints SpecSat ConstraintProofs PropRules SatLearn.
From Verif Require Export FinalProofs.

(** [S] has a package of the name and version of [p]. *)
Definition release (S : package → Prop) (p : package) : Prop :=
  ∃ q, S q ∧ p_name q = p_name p ∧ p_version q = p_version p.

Section swap.
  Context (l inst : list package) (m : modifiers) (jobs : list job) (HM : same_metadata l l).
  Context (S : package → Prop) (V : valid l inst m jobs S).
  Context (G : package → Prop) (HG : ∀ y y', G y → G y' → twin y y' → y = y') (Hl : ∀ y, G y → y ∈ l).
  Context (Hdec : ∀ x, x ∈ l → (∃ y, G y ∧ twin y x) ∨ ¬ ∃ y, G y ∧ twin y x).
  Context (Hh : ∀ j r q y, j ∈ jobs → j_kind j = JHardUpdate → j_req j = Some r → hard_choice l inst r q → G y → twin y q → y = q).

  (** [S] with each package replaced by the one of [G] of its name and version, if there is one. *)
  Definition swapped (x' : package) : Prop := ∃ x, S x ∧ twin x' x ∧ (G x' ∨ (x' = x ∧ ¬ ∃ y, G y ∧ twin y x)).
  Lemma swap_in x' : swapped x' → x' ∈ l.
  Proof. intros (x & Hx & _ & [H|[-> _]]); [by apply Hl|]. by apply (va_sub _ _ _ _ _ V). Qed.
  Lemma swap_total x : S x → ∃ x', swapped x' ∧ twin x' x.
  Proof.
    intros Hx. destruct (Hdec x) as [(y & Hy & Ht)|Hn]; [by apply (va_sub _ _ _ _ _ V)| |].
    - exists y. split; [|done]. exists x. auto.
    - exists x. split; [|done]. exists x. split; [done|]. split; [done|]. auto.
  Qed.
  Lemma swap_fun x1 x2 : swapped x1 → swapped x2 → p_name x1 = p_name x2 → x1 = x2.
  Proof.
    intros (y1 & Hy1 & T1 & H1) (y2 & Hy2 & T2 & H2) Hn.
    assert (y1 = y2) as <-. { apply (va_names _ _ _ _ _ V); [done|done|]. destruct T1, T2. congruence. }
    destruct H1 as [G1|[-> N1]]; destruct H2 as [G2|[-> N2]]; [| | |done].
    - apply HG; [done|done|]. destruct T1, T2. split; congruence.
    - destruct N2. eauto.
    - destruct N1. eauto.
  Qed.
  Lemma twin_meta x y : x ∈ l → y ∈ l → twin x y → p_requires x = p_requires y ∧ p_conflicts x = p_conflicts y ∧ p_provides x = p_provides y.
  Proof. intros Hx Hy [E1 E2]. by apply HM. Qed.
  Lemma twin_provides x y n : x ∈ l → y ∈ l → twin x y → provides x n → provides y n.
  Proof. intros Hx Hy T. destruct (twin_meta x y Hx Hy T) as (_ & _ & E). destruct T as [E1 _]. unfold provides. by rewrite E, E1. Qed.
  Lemma twin_sym x y : twin x y → twin y x.
  Proof. by intros [H1 H2]. Qed.
  Lemma twin_req r x y : x ∈ l → y ∈ l → twin x y → req_meets r x → req_meets r y.
  Proof. intros Hx Hy T [Hp Hc]. split; [by apply (twin_provides x y)|]. destruct T as [_ <-]. done. Qed.
  Lemma twin_dep d x y : x ∈ l → y ∈ l → twin x y → dep_meets m d x → dep_meets m d y.
  Proof. intros Hx Hy T [Hp Hc]. split; [by apply (twin_provides x y)|]. destruct T as [_ <-]. done. Qed.
  Lemma twin_conflict d x y : x ∈ l → y ∈ l → twin x y → conflict_meets d x → conflict_meets d y.
  Proof. intros Hx Hy T [Hp Hc]. split; [by apply (twin_provides x y)|]. destruct T as [_ <-]. done. Qed.

  Lemma swapped_valid : valid l inst m jobs swapped.
  Proof.
    destruct V as [V1 V2 V3 V4 V5]. split.
    - exact swap_in.
    - intros j Hj. specialize (V2 j Hj). unfold job_ok in *. destruct (j_req j) as [r|] eqn:Er; [|done].
      assert (Hex : (∃ q, S q ∧ req_meets r q) → ∃ q, swapped q ∧ req_meets r q).
      { intros (q & Hq & Hm). destruct (swap_total q Hq) as (q' & Hq' & T). exists q'. split; [done|].
        eapply twin_req; [| |by apply twin_sym|done]; [auto|by apply swap_in]. }
      destruct (j_kind j) eqn:Ek; [by apply Hex| |by apply Hex| |done].
      + intros q' Hq' Hm. assert (Hl' := swap_in q' Hq'). destruct Hq' as (q & Hq & T & _). apply (V2 q Hq). eapply twin_req; [| |done|done]; auto.
      + intros q Hq. assert (HS := V2 q Hq). exists q. split; [done|]. split; [done|]. destruct (Hdec q) as [(y & Hy & T)|Hn]; [auto| |auto].
        left. rewrite <-(Hh j r q y); done.
    - intros p' d Hp' Hd. assert (Hl' := swap_in p' Hp'). assert (H := Hp'). destruct H as (p & Hp & T & _).
      destruct (twin_meta p' p) as (E1 & _); [done|auto|done|]. rewrite E1 in Hd. destruct (V3 p d Hp Hd) as (q & Hq & Hne & Hm).
      destruct (swap_total q Hq) as (q' & Hq' & Tq). exists q'. split; [done|]. split.
      + intros ->. apply Hne. apply V4; [done|done|]. destruct T, Tq. congruence.
      + eapply twin_dep; [| |by apply twin_sym|done]; [auto|by apply swap_in].
    - intros p q Hp Hq Hn. by apply swap_fun.
    - intros p' d q' Hp' Hd Hq' Hne Hm. assert (Hlp := swap_in p' Hp'). assert (Hlq := swap_in q' Hq').
      assert (H := Hp'). destruct H as (p & Hp & Tp & _). assert (H := Hq'). destruct H as (q & Hq & Tq & _).
      destruct (twin_meta p' p) as (_ & E2 & _); [done|auto|done|]. rewrite E2 in Hd. apply (V5 p d q Hp Hd Hq).
      + intros ->. apply Hne. apply swap_fun; [done|done|]. destruct Tp, Tq. congruence.
      + eapply twin_conflict; [| |done|done]; auto.
  Qed.
End swap.

Section final.
  Context (e : env) (He : env_ok e).
  Context (po : pool) (l : list package) (R : pool_rep po l) (Hinj : well_formed l).
  Context (inst : list package) (Hinst : ∀ p, p ∈ inst → p ∈ l).
  Context (strict : bool) (fuel : nat) (jobs : list job) (ids : list Z) (rules : list rule) (uenv : uc_env) (ust : uc_state).
  Context (iids : list (Z * package)) (st : gst).
  Context (PB : problem e po l inst strict fuel jobs ids rules uenv ust iids st).
  Context (n : nat) (a : aset).
  Context (Hrun : solve_clauses (logged_policy (uc_policy uenv)) n (ust, [], []) (rule_clauses rules) = Ok (Normal a)).
  Local Notation pid := (pid po).
  Local Notation m := (sem_mods po).
  Local Notation val := (val po a).
  Local Notation about p := (∃ j, j ∈ jobs ∧ job_about l inst j p).
  Local Notation explored := (explored po l st).
  Context (dec : list Z) (D : decided po l inst jobs a dec) (ops : list operation) (rem ins : list package).
  Context (OK : ops_ok po l dec (ilist e po inst) ops rem ins) (HM : same_metadata l l).

  (** The chosen packages whose rules were generated. *)
  Definition G (p : package) : Prop := p ∈ l ∧ explored p ∧ val p = Some true.
  Lemma G_unique p q : G p → G q → twin p q → p = q.
  Proof.
    intros (Hp & Hep & Hvp) (Hq & Heq & Hvq) [Hn _].
    apply (E_unique e po l R Hinj inst Hinst strict fuel jobs ids rules uenv ust iids st PB _ _ (run_solved e He po l R Hinj inst Hinst strict fuel jobs ids rules uenv ust iids st PB n a Hrun) q p); [|apply (gg_true po l R Hinj inst Hinst a p Hp); auto|done].
    split; [apply (gg_true po l R Hinj inst Hinst a q Hq); auto|done].
  Qed.
  Lemma about_explored p : about p → val p = Some true → explored p.
  Proof.
    intros (j & Hj & r & Hr & Hab) Hv. eapply explored_iff; [done|done|done|exact PB|]. destruct (j_kind j) eqn:Ek; [| | | |done].
    - destruct Hab. eapply nd_install; eauto.
    - destruct Hab as [Hp Hm]. rewrite (job_remove e po l R Hinj inst Hinst strict fuel jobs ids rules uenv ust iids st PB _ _ (run_solved e He po l R Hinj inst Hinst strict fuel jobs ids rules uenv ust iids st PB n a Hrun) j r p Hj Ek Hr Hp Hm) in Hv. done.
    - destruct Hab. eapply nd_install; eauto.
    - eapply nd_hard; eauto.
  Qed.
  Lemma about_G p : about p → val p = Some true → G p.
  Proof. intros H Hv. split; [destruct H as (j & _ & ?); by eapply job_about_in|]. split; [by apply about_explored|done]. Qed.
  Lemma about_some p : about p → is_Some (val p).
  Proof.
    intros H. assert (Hp : p ∈ l) by (destruct H as (j & _ & ?); by eapply job_about_in). eapply sol_is_var; eauto. eapply about_var; eauto.
  Qed.
  Lemma present_release p : present inst ops p → release (after inst ops) p.
  Proof. intros (q & [->|(_ & E1 & E2)] & Ha); [by exists p|by exists q]. Qed.
  Lemma about_release p : about p → val p = Some true → release (after inst ops) p.
  Proof. intros H Hv. eapply present_release, about_present; eauto. Qed.

  Lemma hard_val j r q : j ∈ jobs → j_kind j = JHardUpdate → j_req j = Some r → hard_choice l inst r q → val q = Some true.
  Proof.
    intros Hj Hk Hr Hq.
    destruct (model_job po l R Hinj inst Hinst iids (pb_iids _ _ _ _ _ _ _ _ _ _ _ _ _ PB) strict fuel jobs st (pb_st _ _ _ _ _ _ _ _ _ _ _ _ _ PB) (gg po inst a)
      (gg_model po l inst _ _ _ (run_solved e He po l R Hinj inst Hinst strict fuel jobs ids rules uenv ust iids st PB n a Hrun)) j Hj) as [Hok _].
    unfold job_ok in Hok. rewrite Hr, Hk in Hok. destruct (Hok q Hq) as [Hc _].
    assert (Hql : q ∈ l) by apply Hc. apply (gg_true po l R Hinj inst Hinst a q Hql) in Hc as [?|[Hn _]]; [done|].
    destruct (about_some q) as [b Hb]; [|congruence]. exists j. split; [done|]. exists r. split; [done|]. by rewrite Hk.
  Qed.
  Lemma inst_G p : p ∈ inst → val p = Some true → G p.
  Proof. intros Hi Hv. split; [by apply Hinst|]. split; [eapply inst_explored; eauto|done]. Qed.

  (** ** C13 up to packages of the same name and version *)
  Lemma keeps_release_order S p : valid l inst m jobs S →
    (∀ q, q ∈ inst → ¬ soft jobs q → ¬ vlt (p_version p) (p_version q) → RemoveOp q ∉ ops → release S q) →
    p ∈ inst → ¬ soft jobs p → release S p → release (after inst ops) p.
  Proof.
    intros V HI Hp Hs HSp. assert (Hpl := Hinst p Hp).
    destruct (decide (Exists (λ x, (p_name x = p_name p ∧ p_version x = p_version p) ∧ val x = Some true) inst)) as [(x & Hx & T & Hvx)%Exists_exists|Hno].
    { exists x. split; [|exact T]. eapply inst_after; eauto. congruence. }
    destruct (val p) as [[]|] eqn:Hv.
    - exists p. split; [|done]. eapply inst_after; eauto. congruence.
    - exfalso. pose (G' := λ q, (q ∈ inst ∧ ¬ soft jobs q ∧ val q = Some true) ∨ q = p).
      assert (HG' : ∀ y y', G' y → G' y' → twin y y' → y = y').
      { intros y y' [(Hy & Hsy & Hvy)| ->] [(Hy' & Hsy' & Hvy')| ->] T; [| | |done].
        - apply G_unique; [by apply inst_G|by apply inst_G|done].
        - destruct Hno. apply Exists_exists. exists y. split; [done|]. split; [exact T|done].
        - destruct Hno. apply Exists_exists. exists y'. split; [done|]. split; [exact (twin_sym _ _ T)|done]. }
      assert (Hdsoft : ¬ ¬ ∃ k, ∀ x, x ∈ l → x ∈ k ↔ G' x) by apply (decide_on l G'). apply Hdsoft. intros (gl & Hgl). clear Hdsoft.
      assert (HGl : ∀ y, G' y → y ∈ l) by (intros y [(Hy & _)| ->]; auto).
      assert (Hdec : ∀ x, x ∈ l → (∃ y, G' y ∧ twin y x) ∨ ¬ ∃ y, G' y ∧ twin y x).
      { intros x Hx. destruct (decide (Exists (λ y, y ∈ gl ∧ (p_name y = p_name x ∧ p_version y = p_version x)) l)) as [(y & Hy & Hyg & T)%Exists_exists|Hn].
        - left. exists y. split; [by apply Hgl|done].
        - right. intros (y & Hy & T). apply Hn, Exists_exists. exists y. split; [auto|]. split; [apply Hgl; auto|exact T]. }
      assert (V2 : valid l inst m jobs (swapped S G')).
      { apply (swapped_valid l inst m jobs HM S V G' HG' HGl Hdec). intros j r q y Hj Hk Hr Hq [(Hy & Hsy & Hvy)| ->] T.
        - assert (Hvq := hard_val j r q Hj Hk Hr Hq). apply G_unique; [by apply inst_G| |done]. apply about_G; [|done].
          exists j. split; [done|]. exists r. split; [done|]. by rewrite Hk.
        - assert (Hvq := hard_val j r q Hj Hk Hr Hq). destruct (decide (p = q)) as [|Hne]; [done|]. exfalso.
          assert (Hqi : q ∉ inst). { intros Hi. apply Hno, Exists_exists. exists q. split; [done|]. split; [exact (twin_sym _ _ T)|done]. }
          destruct Hq as (l1 & l2 & El & Hm & Hl1 & Hl2). assert (Hql : q ∈ l) by (rewrite El; apply elem_of_app; right; left).
          assert (Hmp : req_meets r p) by (exact (twin_req l HM r q p Hql Hpl (twin_sym _ _ T) Hm)).
          assert (Hor : older_or_remote inst q p) by (right; split; [symmetry; apply T|done]).
          rewrite El in Hpl. apply elem_of_app in Hpl as [Hin|[-> |Hin]%elem_of_cons]; [|done|by apply (Hl2 p)].
          destruct (Hl1 p Hin Hmp) as [Hlt|(_ & Hni' & _)]; [|done]. destruct T as [_ Ev]. rewrite Ev in Hlt. unfold vlt in Hlt. lia. }
      apply (decide_on l (swapped S G')). intros (k & Hk).
      assert (Hg : ∀ q, q ∈ l → val_of po (filter (λ p, p ∈ l) k) (pid q) = true ↔ swapped S G' q).
      { intros q Hq. rewrite (val_of_spec po l R Hinj); [|by intros x [? _]%elem_of_list_filter|done].
        rewrite elem_of_list_filter. rewrite <-(Hk q Hq). tauto. }
      assert (Hsw : ∀ q, G' q → release S q → swapped S G' q).
      { intros q Hq (x & Hx & E1 & E2). exists x. split; [done|]. split; [by split|by left]. }
      assert (Hf : val_of po (filter (λ p, p ∈ l) k) (pid p) = false).
      { eapply (sol_prefers_order e He po l R Hinj inst Hinst strict fuel jobs ids rules uenv ust iids st PB n a Hrun p); [done|done| | |done].
        - eapply valid_model; eauto using pb_iids, pb_st.
        - intros q Hq Hqs Hle Hv'. apply Hg; [auto|]. apply Hsw; [left; auto|]. apply HI; [done|done|done|].
          intros Hr. assert (Hz : val q = Some false); [|congruence]. eapply (removed_val e He po l R Hinj inst Hinst); eauto. }
      assert (Ht : val_of po (filter (λ p, p ∈ l) k) (pid p) = true); [|congruence].
      apply Hg; [done|]. apply Hsw; [by right|done].
    - exists p. split; [|done]. eapply inst_after; eauto. congruence.
  Qed.

  Lemma keeps_release S p : valid l inst m jobs S → (∀ q, q ∈ inst → ¬ soft jobs q → RemoveOp q ∉ ops → release S q) →
    p ∈ inst → ¬ soft jobs p → release S p → release (after inst ops) p.
  Proof. intros V HI. apply keeps_release_order; auto. Qed.

  (** ** C14 up to packages of the same name and version *)
  Lemma newest_release S p : valid l inst m jobs S → about p → S p →
    (∀ q, q ∈ inst → ¬ soft jobs q → RemoveOp q ∉ ops → release S q) →
    (∀ q, about q → ¬ vlt (p_version q) (p_version p) → release (after inst ops) q → release S q) → release (after inst ops) p.
  Proof.
    intros V Hab HSp HI HC. assert (Hp : p ∈ l) by (destruct Hab as (j & _ & ?); by eapply job_about_in).
    destruct (about_some p Hab) as [[] Hv]; [by apply about_release|].
    (* is a package of the same name and version chosen? *)
    destruct (decide (Exists (λ x, (p_name x = p_name p ∧ p_version x = p_version p) ∧ val x = Some true) l)) as [(x & Hx & T & Hvx)%Exists_exists|Hno].
    { destruct Hab as (j & Hj & r & Hr & Hj').
      assert (Hok := va_jobs _ _ _ _ _ V j Hj). unfold job_ok in Hok. rewrite Hr in Hok.
      assert (Hx' : about x).
      { exists j. split; [done|]. exists r. split; [done|]. destruct (j_kind j) eqn:Ek.
        - destruct Hj' as [_ Hm]. split; [done|]. by eapply (twin_req l HM r p x Hp Hx (twin_sym _ _ T)).
        - destruct Hj' as [_ Hm]. by destruct (Hok p HSp).
        - destruct Hj' as [_ Hm]. split; [done|]. by eapply (twin_req l HM r p x Hp Hx (twin_sym _ _ T)).
        - rewrite (hard_val j r p Hj Ek Hr Hj') in Hv. done.
        - done. }
      destruct (about_release x Hx' Hvx) as (q & Hq & E1 & E2). exists q. split; [done|]. destruct T. split; congruence. }
    exfalso. apply (decide_on l G). intros (gl & Hgl).
    assert (Hdec : ∀ x, x ∈ l → (∃ y, G y ∧ twin y x) ∨ ¬ ∃ y, G y ∧ twin y x).
    { intros x Hx. destruct (decide (Exists (λ y, y ∈ gl ∧ (p_name y = p_name x ∧ p_version y = p_version x)) l)) as [(y & Hy & Hyg & T)%Exists_exists|Hn].
      - left. exists y. split; [by apply Hgl|done].
      - right. intros (y & Hy & T). apply Hn, Exists_exists. exists y. assert (Hyl : y ∈ l) by apply Hy. split; [done|]. split; [by apply Hgl|done]. }
    assert (V' := swapped_valid l inst m jobs HM S V G G_unique (λ y H, proj1 H) Hdec).
    assert (V2 : valid l inst m jobs (swapped S G)).
    { apply V'. intros j r q y Hj Hk Hr Hq Hy T. apply G_unique; [done| |done]. apply about_G; [|by eapply hard_val].
      exists j. split; [done|]. exists r. split; [done|]. by rewrite Hk. }
    clear V'. apply (decide_on l (swapped S G)). intros (k & Hk).
    assert (Hg : ∀ q, q ∈ l → val_of po (filter (λ p, p ∈ l) k) (pid q) = true ↔ swapped S G q).
    { intros q Hq. rewrite (val_of_spec po l R Hinj); [|by intros x [? _]%elem_of_list_filter|done].
      rewrite elem_of_list_filter. rewrite <-(Hk q Hq). tauto. }
    assert (Hsw : ∀ q, G q → release S q → swapped S G q).
    { intros q Hq (x & Hx & E1 & E2). exists x. split; [done|]. split; [by split|by left]. }
    assert (Hf : val_of po (filter (λ p, p ∈ l) k) (pid p) = false).
    { eapply (sol_newest e He po l R Hinj inst Hinst strict fuel jobs ids rules uenv ust iids st PB n a Hrun p); [done| | | |done].
      - eapply valid_model; eauto using pb_iids, pb_st.
      - intros q Hq Hqs Hv'. assert (Hql := Hinst q Hq). apply Hg; [done|]. apply Hsw.
        + split; [done|]. split; [|done]. eapply inst_explored; eauto.
        + apply HI; [done|done|]. intros Hr. assert (Hz : val q = Some false); [|congruence]. eapply (removed_val e He po l R Hinj inst Hinst); eauto.
      - intros j q Hj Hq Hnl Hv'. apply Hg; [by eapply job_about_in|]. assert (Hq' : about q) by eauto.
        apply Hsw; [by apply about_G|]. apply HC; [done|done|]. by apply about_release. }
    assert (Ht : val_of po (filter (λ p, p ∈ l) k) (pid p) = true); [|congruence].
    apply Hg; [done|]. exists p. split; [done|]. split; [done|]. right. split; [done|]. intros (y & (Hy & _ & Hvy) & T).
    apply Hno, Exists_exists. exists y. split; [done|]. split; [exact T|done].
  Qed.
End final.
