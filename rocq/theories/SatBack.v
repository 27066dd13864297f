(** * Conflict analysis, backtracking and learning preserve the invariant. *)
From Verif Require Export SatAnalyze.

Section back.
  Context (F : list (list Z)) (Extra : gset Z) (D : list Z → Z → Prop).
  Notation HeapOk := (HeapOk F Extra).
  Notation core := (core F Extra D).
  Notation Core := (Core F Extra D).
  Notation Inv := (Inv F Extra D).
  Notation AsgOk := (AsgOk F Extra).
  Notation univ := (univ F Extra).
  Notation Conf := (Conf F Extra D).
  Notation TrOk := (TrOk D).
  Notation Ready := (Ready F Extra D).

  (** Only the assignment, the levels and the trail differ. *)
  Record Same (s s' : solver) : Prop := {
    sm_heap : s_heap s' = s_heap s;
    sm_cls : s_clauses s' = s_clauses s;
    sm_wat : s_watches s' = s_watches s;
    sm_ctr : s_ctrails s' = s_ctrails s;
    sm_queue : s_queue s' = s_queue s;
    sm_rs : s_reasons s' = s_reasons s;
    sm_seen : a_seen (s_asg s') = a_seen (s_asg s);
    sm_lv : ∀ v, lvl (s_levels s') v = lvl (s_levels s) v ∨ lvl (s_levels s') v = -1 }.
  Lemma same_refl s : Same s s.
  Proof. split; try done. by left. Qed.
  Lemma same_trans s1 s2 s3 : Same s1 s2 → Same s2 s3 → Same s1 s3.
  Proof.
    intros H H'. split.
    - by rewrite (sm_heap _ _ H'), (sm_heap _ _ H).
    - by rewrite (sm_cls _ _ H'), (sm_cls _ _ H).
    - by rewrite (sm_wat _ _ H'), (sm_wat _ _ H).
    - by rewrite (sm_ctr _ _ H'), (sm_ctr _ _ H).
    - by rewrite (sm_queue _ _ H'), (sm_queue _ _ H).
    - by rewrite (sm_rs _ _ H'), (sm_rs _ _ H).
    - by rewrite (sm_seen _ _ H'), (sm_seen _ _ H).
    - intros v. destruct (sm_lv _ _ H' v) as [->|]; [apply (sm_lv _ _ H)|by right].
  Qed.

  (** A single pop. *)
  Lemma undo_one_full s p t lims : s_trail s = p :: t → AsgOk (s_asg s) (p :: t) →
    TrOk (s_heap s) (s_levels s) (s_reasons s) (p :: t) lims →
    ∃ s', undo_one s = Ok s' ∧ Same s s' ∧ s_lims s' = s_lims s ∧ s_trail s' = t ∧
      AsgOk (s_asg s') t ∧
      (∀ x, x ∈ t → lvl (s_levels s') (Z.abs x) = lvl (s_levels s) (Z.abs x)) ∧
      lvl (s_levels s') (Z.abs p) = -1.
  Proof.
    intros Et A T.
    assert (p ≠ 0 ∧ Z.abs p ∉ Z.abs <$> t) as [Hnz Hfr] by (inversion T; done).
    destruct (undo_one_spec F Extra D s p t Et A Hnz Hfr) as (a' & -> & A' & Hs).
    eexists. split; [done|]. cbn. split.
    - split; cbn; try done. intros v. destruct (decide (v = Z.abs p)) as [->|].
      + right. apply lvl_insert.
      + left. by apply lvl_insert_ne.
    - split; [done|]. split; [done|]. split; [done|]. split; [|apply lvl_insert].
      intros x Hx. apply lvl_insert_ne. intros E. apply Hfr. rewrite E. apply elem_of_list_fmap. eauto.
  Qed.

  Lemma tr_tail h lv rs p t lims : TrOk h lv rs (p :: t) lims →
    TrOk h lv rs t lims ∨ ∃ lims', lims = length t :: lims' ∧ TrOk h lv rs t lims'.
  Proof. intros T. inversion T; subst; eauto. Qed.

  Lemma tr_inv h lv rs l t lims : TrOk h lv rs (l :: t) lims →
    (∃ i, TrOk h lv rs t lims ∧ l ≠ 0 ∧ rs !! Z.abs l = Some i ∧ i ≠ 0%nat ∧ (i < length h)%nat ∧
       l ∈ hl h i ∧ (∀ x, x ∈ hl h i → x ≠ l → - x ∈ t)) ∨
    (∃ lims', lims = length t :: lims' ∧ TrOk h lv rs t lims' ∧ rs !! Z.abs l = Some 0%nat ∧
       lvl lv (Z.abs l) = Z.of_nat (S (length lims')) ∧ D t l).
  Proof. intros T. inversion T; subst; eauto 15. Qed.

  Lemma tr_levels h lv lv' rs t lims : TrOk h lv rs t lims →
    (∀ x, x ∈ t → lvl lv' (Z.abs x) = lvl lv (Z.abs x)) → TrOk h lv' rs t lims.
  Proof. intros T H. eapply tr_ext; try done. intros l Hl. by rewrite H. Qed.

  Lemma cur_lits_ext lv lv' dl t seen :
    (∀ x, x ∈ t → lv' (Z.abs x) = lv (Z.abs x)) → cur_lits lv' dl t seen = cur_lits lv dl t seen.
  Proof.
    intros H. unfold cur_lits. apply filter_iff_in, Forall_forall. intros x Hx. by rewrite H.
  Qed.

  (** The analysis state after popping [p]; [st'] has the counter already adjusted. *)
  Lemma an_pop lv lv' dl p t st c tr' :
    AnInv lv dl (p :: t) st → lv (Z.abs p) = dl →
    (∀ x, x ∈ t → lv' (Z.abs x) = lv (Z.abs x)) →
    c = Z.of_nat (length (cur_lits lv dl t (an_seen st))) →
    AnInv lv' dl t (AState c (an_seen st) (an_learned st) (an_bt st) tr').
  Proof.
    intros [A1 A2 A3 A4 A5 A6] Hp Hlv Hc.
    assert (A3' : ∀ x, x ∈ an_learned st → - x ∈ t ∧ lv (Z.abs x) ≠ dl).
    { intros x Hx. destruct (A3 x Hx) as [[E|?]%elem_of_cons ?]; [|done].
      rewrite <-E, Z.abs_opp in Hp. done. }
    assert (Hl : ∀ x, x ∈ an_learned st → lv' (Z.abs x) = lv (Z.abs x)).
    { intros x Hx. rewrite <-(Z.abs_opp x). apply Hlv. by apply A3'. }
    split; cbn; try done.
    - by rewrite (cur_lits_ext lv lv').
    - intros l Hl1 Hl2. rewrite Hlv by done. apply A2; [by right|done].
    - intros x Hx. rewrite Hl by done. by apply A3'.
    - intros x Hx. rewrite Hl by done. by apply A5.
    - destruct A6 as [?|(x & Hx & E)]; [by left|]. right. exists x. by rewrite Hl.
  Qed.

  Lemma resolvent_pop lv lv' dl p t st c tr' x :
    (∀ x, x ∈ t → lv' (Z.abs x) = lv (Z.abs x)) →
    x ∈ resolvent lv dl (p :: t) st → x = - p ∨
    x ∈ resolvent lv' dl t (AState c (an_seen st) (an_learned st) (an_bt st) tr').
  Proof.
    intros Hlv. unfold resolvent. cbn [an_seen an_learned]. rewrite (cur_lits_ext lv lv' dl t) by done.
    rewrite !elem_of_app, !elem_of_list_fmap. intros [?|(y & -> & Hy)]; [tauto|].
    unfold cur_lits in *. rewrite elem_of_list_filter in Hy.
    destruct Hy as [Hy [->|Hyt]%elem_of_cons]; [by left|]. right. right. exists y. split; [done|].
    unfold cur_lits. by apply elem_of_list_filter.
  Qed.

  Lemma cur_lits_cons lv dl p t seen : Z.abs p ∈ seen → lv (Z.abs p) = dl →
    length (cur_lits lv dl (p :: t) seen) = S (length (cur_lits lv dl t seen)).
  Proof. intros. unfold cur_lits. by rewrite filter_cons_True. Qed.
  Lemma cur_lits_cons_ne lv dl p t seen : Z.abs p ∉ seen →
    cur_lits lv dl (p :: t) seen = cur_lits lv dl t seen.
  Proof. intros. unfold cur_lits. by rewrite filter_cons_False by tauto. Qed.

  (** While something of the current level is still to be explained, the top of the trail is on
      the current level; and if it is a decision there is nothing below. *)
  Lemma top_level h lv rs p t lims seen :
    TrOk h lv rs (p :: t) lims →
    cur_lits (lvl lv) (Z.of_nat (length lims)) (p :: t) seen ≠ [] →
    lvl lv (Z.abs p) = Z.of_nat (length lims).
  Proof.
    intros T Hne. destruct (cur_lits _ _ _ _) as [|y l] eqn:E; [done|].
    assert (Hy : y ∈ cur_lits (lvl lv) (Z.of_nat (length lims)) (p :: t) seen) by (rewrite E; left).
    apply elem_of_list_filter in Hy as [[_ Hy] [->|Hyt]%elem_of_cons]; [done|].
    pose proof (tr_mono _ _ _ _ _ T Hyt). pose proof (tr_level _ _ _ p T ltac:(left)). lia.
  Qed.
  Lemma dec_below h lv rs t lims' seen :
    TrOk h lv rs t lims' →
    cur_lits (lvl lv) (Z.of_nat (S (length lims'))) t seen = [].
  Proof.
    intros T. destruct (cur_lits _ _ _ _) as [|y l] eqn:E; [done|]. exfalso.
    assert (Hy : y ∈ cur_lits (lvl lv) (Z.of_nat (S (length lims'))) t seen) by (rewrite E; left).
    apply elem_of_list_filter in Hy as [[_ Hy] Hyt].
    pose proof (tr_level _ _ _ _ T Hyt). lia.
  Qed.

  Lemma cur_lits_mono lv dl t s1 s2 : s1 ⊆ s2 →
    (length (cur_lits lv dl t s1) ≤ length (cur_lits lv dl t s2))%nat.
  Proof.
    intros Hs. unfold cur_lits. induction t as [|x t IHt]; [done|].
    rewrite !filter_cons. repeat case_decide; cbn; try lia. set_solver.
  Qed.

  Lemma analyze_pop_spec t : ∀ st s,
    s_trail s = t → AsgOk (s_asg s) t → HeapOk (s_heap s) →
    TrOk (s_heap s) (s_levels s) (s_reasons s) t (s_lims s) →
    AnInv (lvl (s_levels s)) (decision_level s) t st → 0 < an_counter st →
    entails (nonempty F) (resolvent (lvl (s_levels s)) (decision_level s) t st) →
    ∃ p t1 t' st' s',
      analyze_pop t st s = Ok (p, st', s') ∧ t = t1 ++ p :: t' ∧
      (∀ x, x ∈ t1 → lvl (s_levels s) (Z.abs x) = decision_level s) ∧
      lvl (s_levels s) (Z.abs p) = decision_level s ∧
      Same s s' ∧ s_lims s' = s_lims s ∧ s_trail s' = t' ∧ AsgOk (s_asg s') t' ∧
      (∀ x, x ∈ t' → lvl (s_levels s') (Z.abs x) = lvl (s_levels s) (Z.abs x)) ∧
      lvl (s_levels s') (Z.abs p) = -1 ∧
      AnInv (lvl (s_levels s')) (decision_level s) t' st' ∧
      entails (nonempty F) (an_learned st' ++ [- p]) ∧
      (TrOk (s_heap s) (s_levels s') (s_reasons s) t' (s_lims s) ∨
       ∃ lims', s_lims s = length t' :: lims' ∧
                TrOk (s_heap s) (s_levels s') (s_reasons s) t' lims') ∧
      (∀ j, j ∈ an_trail st' → j ∈ an_trail st ∨ ∃ v, s_reasons s !! v = Some j).
  Proof.
    induction t as [|p t IH]; intros st s Et A Hh T I Hc Hent.
    { exfalso. pose proof (an1 _ _ _ _ I). cbn in *. lia. }
    set (lv := lvl (s_levels s)) in *. set (dl := decision_level s) in *.
    pose proof (tr_nodup _ _ _ T) as Hnd. cbn in Hnd. apply NoDup_cons in Hnd as [Hfr Hnd].
    assert (Hdl : lv (Z.abs p) = dl).
    { eapply (top_level _ _ _ _ _ _ (an_seen st) T). intros E. pose proof (an1 _ _ _ _ I) as E1.
      unfold dl, lv, decision_level in E1. rewrite E in E1. cbn in E1. lia. }
    destruct (undo_one_full s p t _ Et A T) as (s1 & Eu & Sm & El1 & Et1 & A1 & Hlv1 & Hp1).
    assert (∃ cf, s_reasons s !! Z.abs p = Some cf) as [cf Hcf] by (inversion T; eauto).
    cbn [analyze_pop]. rewrite Hcf. cbn [of_option]. rewrite res_bind_ok. cbn zeta.
    rewrite Eu, res_bind_ok. cbn [an_seen an_counter an_learned an_bt an_trail].
    assert (Hdl1 : decision_level s1 = dl) by (unfold dl, decision_level; by rewrite El1).
    set (lv1 := lvl (s_levels s1)) in *.
    destruct (decide (Z.abs p ∈ an_seen st)) as [Hs|Hs].
    - pose proof (an1 _ _ _ _ I) as E1. rewrite cur_lits_cons in E1 by done.
      set (st1 := AState (an_counter st - 1) (an_seen st) (an_learned st) (an_bt st) (an_trail st ++ [cf])).
      assert (I1 : AnInv lv1 dl t st1).
      { eapply an_pop; try done. lia. }
      assert (Hres : ∀ x, x ∈ resolvent lv dl (p :: t) st → x = - p ∨ x ∈ resolvent lv1 dl t st1).
      { intros x. by apply resolvent_pop. }
      change (an_counter st - 1) with (an_counter st1).
      destruct (decide (an_counter st1 = 0)) as [Hz|Hz].
      + (* the UIP *)
        exists p, [], t, st1, s1. split; [done|]. split; [done|].
        split; [intros x Hx; by apply elem_of_nil in Hx|]. split; [done|].
        split; [done|]. split; [done|]. split; [done|]. split; [done|]. split; [done|]. split; [done|].
        split; [done|]. split; [|split].
        * intros f Hf. destruct (Hent f Hf) as (x & Hx & Hxt). exists x. split; [|done].
          apply Hres in Hx as [->|Hx]; apply elem_of_app; [right; left|left].
          unfold resolvent in Hx. pose proof (an1 _ _ _ _ I1) as E2. rewrite Hz in E2.
          destruct (cur_lits lv1 dl t (an_seen st1)); [|cbn in E2; lia].
          by rewrite app_nil_r in Hx.
        * destruct (tr_tail _ _ _ _ _ _ T) as [T'|(lims' & El & T')].
          -- left. by eapply tr_levels.
          -- right. exists lims'. split; [done|]. by eapply tr_levels.
        * intros j. unfold st1. cbn. rewrite elem_of_app, elem_of_list_singleton. intros [?| ->]; eauto.
      + (* continue with the reason of p *)
        assert (Hgt : 0 < an_counter st1) by (unfold st1; cbn; unfold st1 in Hz; cbn in Hz; lia).
        destruct (tr_inv _ _ _ _ _ _ T) as [(i & T' & Hnz & Hr & Hi & Hi' & Hpin & Hrest)|(lims' & El & T' & Hr & Hlvd & _)].
        2:{ exfalso. pose proof (dec_below _ _ _ _ _ (an_seen st) T') as E.
            assert (Hdl' : Z.of_nat (S (length lims')) = dl) by (rewrite <-Hlvd; exact Hdl).
            rewrite Hdl' in E. fold lv in E. rewrite E in E1. cbn in E1. unfold st1 in Hgt. cbn in Hgt. lia. }
        rewrite Hr in Hcf. injection Hcf as <-.
        change (lits_of s1 i) with (hl (s_heap s1) i). rewrite (sm_heap _ _ Sm).
        set (reason := calculate_reason (hl (s_heap s) i) (Some p)).
        assert (Hreason : ∀ l, l ∈ reason ↔ - l ∈ hl (s_heap s) i ∧ - l ≠ p).
        { intros l. unfold reason, calculate_reason. rewrite elem_of_list_fmap.
          setoid_rewrite elem_of_list_filter. split.
          - intros (y & -> & Hy & ?). rewrite Z.opp_involutive. split; [done|]. congruence.
          - intros [? Hn]. exists (- l). split; [lia|]. split; [|done]. congruence. }
        destruct (trace_reason_spec D s1 (s_trail s1) reason) with (st := st1)
          as (I2 & Etr & Hseen & Hlrn & Hrs & _); try done.
        { by rewrite Et1. }
        { intros l Hl. rewrite Et1 in Hl. fold lv1. rewrite Hlv1 by done.
          by pose proof (tr_level _ _ _ _ T' Hl) as [? _]. }
        { rewrite Et1, Hdl1. done. }
        { intros l Hl%Hreason. rewrite Et1. destruct Hl as [Hl1 Hl2].
          specialize (Hrest _ Hl1 Hl2). by rewrite Z.opp_involutive in Hrest. }
        rewrite Et1, Hdl1 in I2. rewrite Et1, Hdl1 in Hrs. fold lv1 in I2, Hrs.
        change (s_trail s) with (s_trail s) in *.
        set (st2 := trace_reason s1 st1 reason) in *.
        destruct (IH st2 s1) as (p' & t1 & t' & st' & s' & Ea & Ett & Ht1 & Hp' & Sm' & El' & Et' & A' & Hlv' & Hp'1 & I' & Hent' & HT' & Htr'); try done.
        { by rewrite (sm_heap _ _ Sm). }
        { rewrite (sm_heap _ _ Sm), (sm_rs _ _ Sm), El1. by eapply tr_levels. }
        { by rewrite Hdl1. }
        { pose proof (an1 _ _ _ _ I2) as E2. pose proof (an1 _ _ _ _ I1) as E3.
          assert (length (cur_lits lv1 dl t (an_seen st1)) ≤ length (cur_lits lv1 dl t (an_seen st2)))%nat; [|lia].
          by apply cur_lits_mono. }
        { rewrite Hdl1. fold lv1. intros f Hf.
          assert (Hmono : ∀ x, x ∈ resolvent lv1 dl t st1 → x ∈ resolvent lv1 dl t st2).
          { intros x. by apply (resolvent_mono D). }
          destruct (Hent f Hf) as (x & Hx & Hxt). apply Hres in Hx as [->|Hx]; [|exists x; eauto].
          destruct (h_ent _ _ _ Hh i Hi Hi' (elem_of_not_nil _ _ Hpin) f Hf) as (y & Hy & Hyt).
          destruct (decide (y = p)) as [->|Hne].
          { exfalso. by apply lit_true_opp in Hxt. }
          exists y. split; [|done]. rewrite <-(Z.opp_involutive y). apply Hrs. apply Hreason.
          by rewrite Z.opp_involutive. }
        rewrite Hdl1 in Ht1, Hp', I'. 
        exists p', (p :: t1), t', st', s'. split; [done|]. split; [by rewrite Ett|].
        assert (Hin1 : ∀ x, x ∈ t1 → x ∈ t) by (intros; rewrite Ett; apply elem_of_app; by left).
        assert (Hin2 : ∀ x, x ∈ p' :: t' → x ∈ t) by (intros; rewrite Ett; apply elem_of_app; by right).
        split.
        { intros x [->|Hx]%elem_of_cons; [done|]. unfold lv. rewrite <-Hlv1 by auto. by apply Ht1. }
        split. { unfold lv. rewrite <-Hlv1; [done|]. apply Hin2. left. }
        split; [by eapply same_trans|]. split; [congruence|]. split; [done|]. split; [done|].
        split. { intros x Hx. rewrite Hlv' by done. apply Hlv1. apply Hin2. by right. }
        split; [done|]. split; [done|]. split; [done|]. split.
        { rewrite (sm_heap _ _ Sm), (sm_rs _ _ Sm), El1 in HT'. done. }
        intros j Hj. apply Htr' in Hj as [Hj|[v Hv]].
        * rewrite Etr in Hj. unfold st1 in Hj. cbn in Hj.
          apply elem_of_app in Hj as [?| ->%elem_of_list_singleton]; eauto.
        * rewrite (sm_rs _ _ Sm) in Hv. eauto.
    - (* p is not involved *)
      pose proof (an1 _ _ _ _ I) as E1. rewrite cur_lits_cons_ne in E1 by done.
      set (st1 := AState (an_counter st) (an_seen st) (an_learned st) (an_bt st) (an_trail st ++ [cf])).
      assert (I1 : AnInv lv1 dl t st1) by by eapply an_pop.
      assert (T' : TrOk (s_heap s) (s_levels s) (s_reasons s) t (s_lims s)).
      { destruct (tr_inv _ _ _ _ _ _ T) as [(i & T' & _)|(lims' & El & T' & Hr & Hlvd & _)]; [done|].
        exfalso. pose proof (dec_below _ _ _ _ _ (an_seen st) T') as E.
        assert (Hdl' : Z.of_nat (S (length lims')) = dl) by (rewrite <-Hlvd; exact Hdl).
        rewrite Hdl' in E. fold lv in E. rewrite E in E1. cbn in E1. lia. }
      destruct (IH st1 s1) as (p' & t1 & t' & st' & s' & Ea & Ett & Ht1 & Hp' & Sm' & El' & Et' & A' & Hlv' & Hp'1 & I' & Hent' & HT' & Htr'); try done.
      { by rewrite (sm_heap _ _ Sm). }
      { rewrite (sm_heap _ _ Sm), (sm_rs _ _ Sm), El1. by eapply tr_levels. }
      { by rewrite Hdl1. }
      { rewrite Hdl1. fold lv1. intros f Hf. destruct (Hent f Hf) as (x & Hx & Hxt). exists x. split; [|done].
        unfold resolvent in *. cbn. rewrite cur_lits_cons_ne in Hx by done.
        by rewrite (cur_lits_ext lv lv1). }
      rewrite Hdl1 in Ht1, Hp', I'.
      exists p', (p :: t1), t', st', s'. split; [done|]. split; [by rewrite Ett|].
      assert (Hin1 : ∀ x, x ∈ t1 → x ∈ t) by (intros; rewrite Ett; apply elem_of_app; by left).
      assert (Hin2 : ∀ x, x ∈ p' :: t' → x ∈ t) by (intros; rewrite Ett; apply elem_of_app; by right).
      split.
      { intros x [->|Hx]%elem_of_cons; [done|]. unfold lv. rewrite <-Hlv1 by auto. by apply Ht1. }
      split. { unfold lv. rewrite <-Hlv1; [done|]. apply Hin2. left. }
      split; [by eapply same_trans|]. split; [congruence|]. split; [done|]. split; [done|].
      split. { intros x Hx. rewrite Hlv' by done. apply Hlv1. apply Hin2. by right. }
      split; [done|]. split; [done|]. split; [done|]. split.
      { rewrite (sm_heap _ _ Sm), (sm_rs _ _ Sm), El1 in HT'. done. }
      intros j Hj. apply Htr' in Hj as [Hj|[v Hv]].
      + unfold st1 in Hj. cbn in Hj.
        apply elem_of_app in Hj as [?| ->%elem_of_list_singleton]; eauto.
      + rewrite (sm_rs _ _ Sm) in Hv. eauto.
  Qed.
End back.
