(** * The search loop: termination and its results. *)
From Verif Require Export SatSearch.

(** What the solver requires of a decision policy, for clauses [F] and further variables [Extra]
    the policy may propose: if some known variable is undecided, it returns a non-zero undecided
    literal without touching the assignments (it may reset the change log), keeping its own
    invariant [PInv].  [Dec a v] is whatever else is known of a proposal. *)
Definition good_policy {P} (F : list (list Z)) (Extra : gset Z) (Dec : aset → Z → Prop)
    (pol : policy P) (PInv : P → Prop) : Prop :=
  ∀ p a cls, PInv p → AWf a →
    (∀ v, is_var F v → v ∈ a_seen a) →
    (∀ v, v ∈ a_seen a → is_var F v ∨ v ∈ Extra) →
    (∀ c l, c ∈ cls → l ∈ c → l ≠ 0 ∧ (is_var F (Z.abs l) ∨ Z.abs l ∈ Extra)) →
    (∀ c, c ∈ F → c ≠ [] → ∃ c', c' ∈ cls ∧ ∀ l, l ∈ c' ↔ l ∈ c) →
    a_assigned a ≠ a_seen a →
    ∃ v p' a', pol p a cls = Ok (v, p', a') ∧ PInv p' ∧
      a_data a' = a_data a ∧ a_seen a' = a_seen a ∧ a_assigned a' = a_assigned a ∧
      v ≠ 0 ∧ Z.abs v ∉ a_assigned a ∧ (is_var F (Z.abs v) ∨ Z.abs v ∈ Extra) ∧ Dec a v.

Section main.
  Context {P : Type} (pol : policy P) (PInv : P → Prop).
  Context (R : list (list Z * option rule)) (Extra : gset Z) (Dec : aset → Z → Prop).
  Let F := R.*1.
  Definition D (t : list Z) (v : Z) : Prop :=
    ∃ a, AWf a ∧ (∀ l, aset_value a l = Some true ↔ l ∈ t) ∧ Dec a v.
  Hypothesis Hpol : good_policy F Extra Dec pol PInv.
  Hypothesis Hwf : wf_cnf F.

  Notation HeapOk := (HeapOk F Extra).
  Notation core := (core F Extra D).
  Notation AsgOk := (AsgOk F Extra).
  Notation univ := (univ F Extra).
  Notation Conf := (Conf F Extra D).
  Notation TrOk := (TrOk D).
  Notation Ready := (Ready F Extra D).
  Notation uset := (uset F Extra).
  Notation Held := (Held R).
  Notation mu := (mu R Extra).
  Notation nvars := (nvars R Extra).

  Record LInv (p : P) (s : solver) : Prop := {
    li_ready : Ready s;
    li_held : Held s;
    li_seen : ∀ v, is_var F v → v ∈ a_seen (s_asg s);
    li_pol : PInv p }.

  Lemma from_clauses_spec p : PInv p →
    (∃ s, from_clauses R = Ok (Normal s) ∧ LInv p s ∧ s_lims s = []) ∨
    (∃ i l s, from_clauses R = Ok (Unsat i l s) ∧ ¬ satisfiable (nonempty F) ∧ UnsatOk R i l s).
  Proof.
    intros Hp. unfold from_clauses.
    destruct (add_clauses_spec R Extra D R [] solver_new) as [(s & -> & [Rd El Hq Hh])|(i & l & s & -> & Hun & Huo)].
    - apply solver_new_ok.
    - intros c r Hc. assert (c ∈ F) by (apply elem_of_list_fmap; exists (c, r); done).
      split; [done|]. intros l Hl. by eapply Hwf.
    - cbn in Hh. rewrite res_bind_ok. cbn beta iota. unfold setup_assignments.
      pose proof Rd as [[Ch Cc Ct Ca] W H5 Q].
      destruct (setup_fold R Extra D (Z.abs <$> mjoin (clause_lits s)) (s_asg s) (s_trail s))
        as (a & -> & A & Hsub & Hin); [done| |].
      { intros v (l & -> & Hl)%elem_of_list_fmap. apply elem_of_list_join in Hl as (c & Hl & Hc).
        apply elem_of_list_fmap in Hc as (i & -> & Hi).
        change (lits_of s i) with (hl (s_heap s) i) in Hl. apply (h_var _ _ _ Ch) in Hl as [? ?].
        split; [lia|done]. }
      rewrite res_bind_ok. left. eexists. split; [done|]. split; [|done]. split; cbn; [| | |done].
      + split; cbn; try done.
      + eapply held_same; [done|done..|by left].
      + intros v (c & l & Hc & Hl & ->). apply Hin. apply elem_of_list_fmap. exists l. split; [done|].
        apply elem_of_list_fmap in Hc as ([c' r] & -> & Hc). cbn in Hl.
        destruct (he_all _ _ Hh c' r Hc) as (i & cl & Hi & E & _ & _ & Hx); [by intros ->; apply elem_of_nil in Hl|].
        apply elem_of_list_join. exists (lits_of s i). unfold lits_of. rewrite E. split; [by apply Hx|].
        apply elem_of_list_fmap. exists i. unfold lits_of. by rewrite E.
    - rewrite res_bind_ok. right. exists i, l, s. done.
  Qed.

  (** A final state: everything is assigned and nothing is left to propagate. *)
  Record Final (s : solver) : Prop := {
    fi_ready : Ready s;
    fi_held : Held s;
    fi_seen : ∀ v, is_var F v → v ∈ a_seen (s_asg s);
    fi_queue : s_queue s = [];
    fi_total : a_assigned (s_asg s) = a_seen (s_asg s) }.

  Lemma linv_fr p s s' : LInv p s → Ready s' → Fr s s' → LInv p s'.
  Proof.
    intros [H1 H2 H3 H4] Rd' Hf. split; [done|by eapply held_fr| |done].
    intros v Hv. apply (fr_seen _ _ Hf). auto.
  Qed.

  Lemma search_step_spec fuel p s : LInv p s → (nvars ≤ fuel)%nat →
    (∃ p' s', search_step pol fuel 0 p s = Ok (Continue p' s') ∧ LInv p' s' ∧ (mu s < mu s')%nat) ∨
    (∃ p' s', search_step pol fuel 0 p s = Ok (Found p' s') ∧ Final s') ∨
    (∃ c l s', search_step pol fuel 0 p s = Ok (Failed c l s') ∧ ¬ satisfiable (nonempty F) ∧ UnsatOk R c l s').
  Proof.
    intros L Hf. pose proof (li_ready _ _ L) as Rd.
    pose proof (iv_queue _ _ _ _ _ _ Rd) as [Hq _].
    pose proof (trail_bound _ _ _ _ (iv_core _ _ _ _ _ _ Rd)) as B.
    unfold search_step.
    destruct (propagate_spec F Extra D fuel s Rd) as [(s1 & -> & R1 & Q1 & F1)|(c & s1 & -> & C1 & F1)].
    { unfold nvars, SatSearch.nvars in Hf. fold F in Hf. lia. }
    - rewrite res_bind_ok. cbn beta iota.
      pose proof (linv_fr _ _ _ L R1 F1) as L1.
      pose proof (iv_core _ _ _ _ _ _ R1) as C1. pose proof C1 as [Ch Cc Ct Ca].
      pose proof (ao_wf _ _ _ _ Ca) as W.
      case_decide as Hn.
      { right. left. exists p, s1. split; [done|]. split; [done|apply (li_held _ _ L1)|apply (li_seen _ _ L1)|done|].
        unfold number_assigned, number_variables, num_assigned, aset_len in Hn.
        destruct (decide (a_seen (s_asg s1) ⊆ a_assigned (s_asg s1))) as [Hsub|Hsub].
        - apply set_eq; intros x; split; [apply (awf_seen _ W)|apply Hsub].
        - assert (a_assigned (s_asg s1) ⊂ a_seen (s_asg s1)) as Hss by (split; [apply (awf_seen _ W)|done]).
          apply subset_size in Hss. lia. }
      left. 
      destruct (Hpol p (s_asg s1) (clause_lits s1)) as (v & p' & a' & -> & Hp' & Ed & Es & Ea & Hv0 & Hva & Hvu & HD);
        [apply (li_pol _ _ L1)|done|apply (li_seen _ _ L1)|apply (ao_seen _ _ _ _ Ca)|..].
      { intros c l Hc Hl. apply elem_of_list_fmap in Hc as (i & -> & Hi).
        change (lits_of s1 i) with (hl (s_heap s1) i) in Hl. by apply (h_var _ _ _ Ch) in Hl. }
      { intros c Hc Hne. apply elem_of_list_fmap in Hc as ([c' r] & -> & Hc).
        destruct (he_all _ _ (li_held _ _ L1) c' r Hc Hne) as (i & cl & Hi & E & _ & _ & Hx).
        exists (lits_of s1 i). unfold lits_of. rewrite E. split; [|done].
        apply elem_of_list_fmap. exists i. unfold lits_of. by rewrite E. }
      { intros E. apply Hn. unfold number_assigned, number_variables, num_assigned, aset_len. by rewrite E. }
      rewrite res_bind_ok. cbn beta iota.
      assert (A' : AsgOk a' (s_trail s1)).
      { split.
        - destruct W as [W1 W2 W3 W4 W5]. split; rewrite ?Ed, ?Es, ?Ea; done.
        - intros l. unfold aset_value. rewrite Ed. apply (ao_val _ _ _ _ Ca).
        - intros w. rewrite Es. apply (ao_seen _ _ _ _ Ca). }
      assert (R2 : Ready (set_asg a' s1)).
      { destruct R1 as [_ K2 K3 K4]. split; try done. }
      assert (Hnt : ∀ l, Z.abs l = Z.abs v → l ∉ s_trail s1).
      { intros l E Hl. apply Hva. rewrite <-E. apply (asg_assigned _ _ _ _ _ Ca).
        - intros. by eapply tr_nonzero.
        - apply elem_of_list_fmap. eauto. }
      destruct (assume_spec F Extra D (set_asg a' s1) v R2) as
        (s2 & -> & R3 & Q3 & T3 & L3 & H3 & C3 & CT3 & RS3 & S3 & LV3 & LV3'); try done.
      { by apply Hnt. } { apply Hnt. by rewrite Z.abs_opp. }
      { exists (s_asg s1). split; [done|]. split; [apply (ao_val _ _ _ _ Ca)|done]. }
      rewrite res_bind_ok. exists p', s2. split; [done|]. split.
      + split; [done| | |done].
        * eapply held_same; [apply (li_held _ _ L1)|done..|]. rewrite RS3. intros w j.
          destruct (decide (w = Z.abs v)) as [->|].
          -- rewrite lookup_insert. intros [= <-]. by right.
          -- rewrite lookup_insert_ne by done. by left.
        * intros w Hw. apply S3. cbn. rewrite Es. by apply (li_seen _ _ L1).
      + apply Nat.le_lt_trans with (mu s1); [apply (mu_fr R Extra D); try done; apply (iv_core _ _ _ _ _ _ Rd)|].
        unfold SatSearch.mu. rewrite T3. change (s_trail (set_asg a' s1)) with (s_trail s1).
        pose proof (rk_ext R Extra (s_levels s1) (s_levels s2) (s_trail s1) LV3) as Hk. rewrite <-Hk. apply rk_cons.
    - rewrite res_bind_ok. cbn beta iota.
      assert (Hmu : (mu s ≤ mu s1)%nat).
      { apply (mu_fr R Extra D); [apply (iv_core _ _ _ _ _ _ Rd)|apply (cf_core _ _ _ _ _ C1)|done]. }
      destruct (decide (s_lims s1 = [])) as [El|El].
      + right. right.
        destruct (analyze_spec F Extra D c s1 C1) as (q & t1 & t & L' & bt & ctr & s2 & -> & Htr & _ & _ & Hsm & El2 & Ht2 & _ & _ & _ & _ & _ & HL & _ & _ & _ & Hctr).
        rewrite res_bind_ok. cbn beta iota. rewrite decide_True.
        2:{ unfold decision_level. cbn. by rewrite El2, El. }
        eexists _, _, _. split; [done|]. split; [by eapply conf_unsat|].
        pose proof (cf_core _ _ _ _ _ C1) as [Ch Cc Ct Ca].
        pose proof (held_fr _ _ _ (li_held _ _ L) F1) as Hh.
        assert (L' = []) as ->.
        { destruct L' as [|x L']; [done|]. destruct (HL x) as (Hx & Hlv & _); [left|].
          assert (Hx' : - x ∈ s_trail s1) by (rewrite Htr; apply elem_of_app; right; by right).
          pose proof (tr_level _ _ _ _ Ct Hx') as [Hge _]. rewrite Z.abs_opp in Hge.
          unfold decision_level in Hlv. rewrite El in Hlv. cbn in Hlv. lia. }
        assert (Hqt : q ∈ s_trail s1) by (rewrite Htr; apply elem_of_app; right; left).
        assert (Hle : ∀ j, j ∈ s_clauses s1 → (j < length (s_heap s1))%nat) by (intros j Hj; by apply (cl_range _ _ _ _ Cc)).
        pose proof (sm_heap _ _ Hsm) as Eh.
        split; cbn.
        * intros j cl E. rewrite Eh in E. unfold prov. cbn. destruct (decide (j = length (s_heap s1))) as [->|Hj].
          -- rewrite lookup_app_r, Nat.sub_diag in E by lia. injection E as <-. right; right.
             split; [done|]. split; [done|]. exists ctr. rewrite lookup_insert. split; [done|].
             rewrite (sm_cls _ _ Hsm). intros k Hk.
             destruct (Hctr k Hk) as [->|[v Hv]]; [pose proof (cf_in _ _ _ _ _ C1); auto|].
             destruct (he_rs _ _ Hh _ _ Hv) as [->|?]; [split; [apply (h_nil _ _ _ Ch)|by left]|auto].
          -- rewrite lookup_insert_ne by done. rewrite lookup_app_l in E.
             2:{ apply lookup_lt_Some in E. rewrite app_length in E. cbn in E. lia. }
             rewrite (sm_ctr _ _ Hsm), (sm_cls _ _ Hsm). apply (he_prov _ _ Hh j cl E).
        * rewrite Eh, (sm_cls _ _ Hsm). intros j Hj. rewrite hl_app by auto.
          split; [by apply (cl_range _ _ _ _ Cc)|]. split; [|by apply (cl_ne _ _ _ _ Cc)].
          rewrite app_length. specialize (Hle j Hj). lia.
        * rewrite (sm_rs _ _ Hsm), (sm_cls _ _ Hsm). apply (he_rs _ _ Hh).
        * rewrite Eh, hl_app by apply (h_nil _ _ _ Ch). apply (h_zero _ _ _ Ch).
        * left. rewrite (sm_cls _ _ Hsm). apply (cf_in _ _ _ _ _ C1).
        * rewrite Eh. pose proof (h_nil _ _ _ Ch). rewrite app_length. cbn. lia.
        * rewrite Eh, (sm_rs _ _ Hsm), (sm_cls _ _ Hsm). destruct (tr_reason_in _ _ _ _ _ _ _ Ct Hqt) as [j Ej].
          exists (- q), j. rewrite Z.abs_opp. split; [by rewrite hl_app_new|]. split; [done|].
          destruct (he_rs _ _ Hh _ _ Ej) as [->|?]; [|done].
          rewrite El in Ct. exfalso. by eapply no_dec_level0.
      + left. destruct (learn_spec F Extra D c s1 C1 El) as (i & bt & s2 & s3 & s' & b & -> & Edl & Ecu & Er & R' & Ln).
        rewrite res_bind_ok. cbn beta iota. rewrite decide_False.
        2:{ rewrite Edl. unfold decision_level. destruct (s_lims s1); [done|cbn; lia]. }
        rewrite Ecu, res_bind_ok, Er, res_bind_ok. cbn beta iota.
        exists p, s'. split; [done|]. pose proof (mu_learn R Extra D _ _ _ _ (cf_core _ _ _ _ _ C1) (iv_core _ _ _ _ _ _ R') Ln).
        split; [|lia]. split; [done| | |apply (li_pol _ _ L)].
        * eapply held_learned; [apply (cf_core _ _ _ _ _ C1)| |done]. eapply held_fr; [apply (li_held _ _ L)|done].
        * intros v Hv. apply (ln_seen _ _ _ _ Ln), (fr_seen _ _ F1), (li_seen _ _ L), Hv.
  Qed.

  (** As many rounds as there are words of length at most [nvars] over two letters. *)
  Definition bound : nat := 2 ^ S nvars - 2.

  Lemma search_loop_spec pf n : (nvars ≤ pf)%nat → ∀ p s, LInv p s → (bound - mu s < n)%nat →
    (∃ p' s', search_loop pol pf n 0 p s = Ok (Normal (p', s')) ∧ Final s') ∨
    (∃ c l s', search_loop pol pf n 0 p s = Ok (Unsat c l s') ∧ ¬ satisfiable (nonempty F) ∧ UnsatOk R c l s').
  Proof.
    intros Hpf. induction n as [|n IH]; intros p s L Hn; [lia|]. cbn [search_loop].
    destruct (search_step_spec pf p s L Hpf) as [(p' & s' & -> & L' & Hmu)|[(p' & s' & -> & Hfi)|(c & l & s' & -> & Hun & Huo)]];
      rewrite res_bind_ok; cbn beta iota.
    - apply IH; [done|].
      pose proof (mu_bound R Extra D s' (iv_core _ _ _ _ _ _ (li_ready _ _ L'))) as B. unfold bound in *. lia.
    - left. eauto.
    - right. exists c, l, s'. done.
  Qed.

  (** The result does not depend on the fuel once it suffices. *)
  Lemma search_loop_mono pf pf' n m root p s o : search_loop pol pf n root p s = Ok o →
    (n ≤ m)%nat → (∀ p s r, search_step pol pf root p s = Ok r → search_step pol pf' root p s = Ok r) →
    search_loop pol pf' m root p s = Ok o.
  Proof.
    revert m p s. induction n as [|n IH]; intros m p s E Hm Hpf; [done|].
    destruct m as [|m]; [lia|]. cbn [search_loop] in *.
    destruct (search_step pol pf root p s) as [r|] eqn:Es; [|done].
    rewrite (Hpf _ _ _ Es). rewrite res_bind_ok in E |- *. destruct r; [|done|done]. apply IH; [done|lia|done].
  Qed.
  Lemma propagate_mono n m s r : propagate n s = Ok r → (n ≤ m)%nat → propagate m s = Ok r.
  Proof.
    revert m s. induction n as [|n IH]; intros m s E Hm.
    - cbn in E. destruct m; cbn; destruct (s_queue s); done.
    - destruct m as [|m]; [lia|]. cbn [propagate] in *. destruct (s_queue s) as [|lit q]; [done|].
      destruct (prop_watch _ _ _) as [[[i|] s1]|]; [done| |done].
      rewrite res_bind_ok in E |- *. apply IH; [done|lia].
  Qed.
  Lemma search_step_mono n m root p s r : search_step pol n root p s = Ok r → (n ≤ m)%nat →
    search_step pol m root p s = Ok r.
  Proof.
    intros E Hm. unfold search_step in *. destruct (propagate n s) as [[c s1]|] eqn:Ep; [|done].
    by rewrite (propagate_mono _ _ _ _ Ep Hm).
  Qed.
  Lemma solve_mono n m p o : solve_clauses pol n p R = Ok o → (n ≤ m)%nat →
    solve_clauses pol m p R = Ok o.
  Proof.
    intros E Hm. unfold solve_clauses in *. destruct (from_clauses R) as [[s|c l s]|]; [|done|done].
    rewrite res_bind_ok in E |- *. unfold search in *.
    destruct (search_loop pol n n (decision_level s) p s) as [o'|] eqn:El; [|done].
    rewrite (search_loop_mono _ m _ m _ _ _ _ El Hm); [done|]. intros. by eapply search_step_mono.
  Qed.

  Theorem solve_clauses_spec p : PInv p →
    ∃ N o, (∀ fuel, (N ≤ fuel)%nat → solve_clauses pol fuel p R = Ok o) ∧
      match o with
      | Normal a => ∃ s, Final s ∧ a = aset_copy (s_asg s)
      | Unsat c l s => ¬ satisfiable (nonempty F) ∧ UnsatOk R c l s
      end.
  Proof.
    intros Hp. set (N := S (nvars + bound)). exists N.
    enough (∃ o, solve_clauses pol N p R = Ok o ∧ match o with
      | Normal a => ∃ s, Final s ∧ a = aset_copy (s_asg s)
      | Unsat c l s => ¬ satisfiable (nonempty F) ∧ UnsatOk R c l s end) as (o & E & Ho).
    { exists o. split; [|done]. intros fuel Hf. by eapply solve_mono. }
    unfold solve_clauses.
    destruct (from_clauses_spec p Hp) as [(s & -> & L & El)|(c & l & s & -> & Hun & Huo)]; rewrite res_bind_ok; [|eexists; split; [reflexivity|done]].
    unfold search. assert (decision_level s = 0) as -> by (unfold decision_level; by rewrite El).
    destruct (search_loop_spec N N) with (p := p) (s := s) as [(p' & s' & -> & Hfi)|(c & l & s' & -> & Hun & Huo)];
      [unfold N; lia|done|unfold N; lia|..]; rewrite res_bind_ok; eexists; (split; [reflexivity|]); [|done].
    exists s'. done.
  Qed.

  (** An explicit bound on the rounds and on the literals propagated in each of them. *)
  Lemma rounds_bound p s : PInv p → from_clauses R = Ok (Normal s) →
    ∃ o, search_loop pol nvars (2 ^ S nvars - 1) (decision_level s) p s = Ok o.
  Proof.
    intros Hp E. destruct (from_clauses_spec p Hp) as [(s0 & E0 & L & El)|(c & l & s0 & E0 & _)]; rewrite E in E0; [|done]. injection E0 as <-.
    assert (decision_level s = 0) as -> by (unfold decision_level; by rewrite El).
    destruct (search_loop_spec nvars (2 ^ S nvars - 1)) with (p := p) (s := s) as [(p' & s' & -> & _)|(c & l & s' & -> & _)]; [done|done| |eauto|eauto].
    unfold bound. pose proof (pow2_pos nvars). rewrite Nat.pow_succ_r'. lia.
  Qed.

  (** ** What a final state means *)
  Lemma final_value s v : Final s → is_var F v → ∃ b, aset_value (s_asg s) v = Some b.
  Proof.
    intros Hf Hv. pose proof (ao_wf _ _ _ _ (co_asg _ _ _ _ _ _ _ _ _ _ (iv_core _ _ _ _ _ _ (fi_ready _ Hf)))) as W.
    apply (fi_seen _ Hf) in Hv. rewrite <-(fi_total _ Hf) in Hv.
    apply (awf_assigned _ W) in Hv as [_ [b Hb]]. eauto.
  Qed.

  Lemma final_clause s c : Final s → c ∈ F → c ≠ [] → ∃ l, l ∈ c ∧ aset_value (s_asg s) l = Some true.
  Proof.
    intros Hf Hc Hne. pose proof (fi_ready _ Hf) as [[Ch Cc Ct Ca] W H5 Q].
    pose proof (ao_wf _ _ _ _ Ca) as Wf.
    apply elem_of_list_fmap in Hc as ([c' r] & -> & Hc).
    destruct (he_all _ _ (fi_held _ Hf) c' r Hc Hne) as (i & cl & Hi & E & _ & _ & Hx).
    assert (Eh : hl (s_heap s) i = c_lits cl) by (unfold hl; by rewrite E).
    assert (Htrue : ∃ l, l ∈ hl (s_heap s) i ∧ l ∈ s_trail s).
    { destruct (hl (s_heap s) i) as [|x [|y r']] eqn:El.
      - by apply (cl_ne _ _ _ _ Cc) in El.
      - exists x. split; [left|]. by apply (cl_unit _ _ _ _ Cc i).
      - assert (Hxv : is_var F (Z.abs x)).
        { exists c', x. split; [apply elem_of_list_fmap; by exists (c', r)|]. split; [|done].
          apply Hx. rewrite <-Eh. left. }
        destruct (decide (x ∈ s_trail s)) as [|Hn]; [exists x; split; [left|done]|].
        destruct (final_value _ _ Hf Hxv) as [b Hb].
        assert (Hxf : - x ∈ s_trail s).
        { apply (asg_false _ _ _ _ _ Ca). destruct (decide (0 < x)).
          - rewrite Z.abs_eq in Hb by lia. destruct b; [|done]. by apply (ao_val _ _ _ _ Ca) in Hb.
          - rewrite Z.abs_neq in Hb by lia. rewrite value_neg in Hb by done.
            destruct (aset_value (s_asg s) x) as [[]|] eqn:Ev; try done.
            by apply (ao_val _ _ _ _ Ca) in Ev. }
        destruct (H5 i x y r' x y Hi El) as [[Hq|[_ Hq]]|[Hy _]]; [by left|done|..].
        + rewrite (fi_queue _ Hf) in Hq. by apply elem_of_nil in Hq.
        + by apply elem_of_nil in Hq.
        + exists y. split; [right; left|done]. }
    destruct Htrue as (l & Hl & Ht). exists l. split; [apply Hx; by rewrite <-Eh|].
    by apply (ao_val _ _ _ _ Ca).
  Qed.
End main.
