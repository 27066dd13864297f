(** * Search without backtracking: if the policy only proposes literals that hold in a model [g], the solution is [g]. *)
From Verif Require Export SatLex.

(** Nothing is left to propagate: a clause whose other literals are false makes its literal true. *)
Definition closed_under (F : list (list Z)) (a : aset) : Prop :=
  ∀ c l, c ∈ F → l ∈ c → (∀ x, x ∈ c → x ≠ l → aset_value a x = Some false) → aset_value a l = Some true.

Section guided.
  Context {P : Type} (pol : policy P) (PInv : P → Prop) (Link : P → aset → Prop).
  Context (R : list (list Z * option rule)) (Extra : gset Z) (Dec : aset → Z → Prop) (g : valuation).
  Let F := R.*1.
  Hypothesis Hpol : good_policy F Extra Dec pol PInv.
  Hypothesis Hwf : wf_cnf F.
  Hypothesis Hg : model g (nonempty F).
  (** What links the state of the policy to the assignments survives further assignments. *)
  Hypothesis Hgrow : ∀ p a a', Link p a → a_assigned a ⊆ a_assigned a' → Link p a'.
  Hypothesis Hguide : ∀ p a cls v p' a', PInv p → Link p a → AWf a →
    (∀ v, is_var F v → v ∈ a_seen a) → (∀ v, v ∈ a_seen a → is_var F v ∨ v ∈ Extra) →
    (∀ c, c ∈ F → c ≠ [] → ∃ c', c' ∈ cls ∧ ∀ l, l ∈ c' ↔ l ∈ c) →
    (∀ c l, c ∈ cls → l ∈ c → l ≠ 0 ∧ (is_var F (Z.abs l) ∨ Z.abs l ∈ Extra)) →
    (∀ l, aset_value a l = Some true → lit_true g l) → closed_under F a →
    pol p a cls = Ok (v, p', a') → lit_true g v ∧ Link p' a.

  Definition Dg (a : aset) (v : Z) : Prop := Dec a v ∧ lit_true g v.
  Notation D := (D Dg).
  Notation Ready := (Ready F Extra D).
  Notation LInv := (LInv PInv R Extra Dg).
  Notation Final := (Final R Extra Dg).
  Notation nvars := (nvars R Extra).

  Lemma core_true s : core F Extra D s → ∀ l, l ∈ s_trail s → lit_true g l.
  Proof.
    intros [Ch Cc Ct Ca] l Hl. eapply (tr_entail _ _ _ _ _ _ _ _ g (lvl (s_levels s) (Z.abs l)) Ch Ct Hg); [|done|done].
    intros d Hd Hrs _. destruct (tr_decision _ _ _ _ _ _ _ Ct Hd Hrs) as (t1 & t2 & _ & (a & _ & _ & [_ Hv]) & _). done.
  Qed.
  Lemma ready_closed s : Ready s → s_queue s = [] → Held R s → closed_under F (s_asg s).
  Proof.
    intros [[Ch Cc Ct Ca] _ H5 _] Hq Hh c l Hc Hl Hx.
    apply elem_of_list_fmap in Hc as ([c' r] & -> & Hc). cbn in Hl, Hx.
    assert (c' ≠ []) as Hne by (intros ->; by apply elem_of_nil in Hl).
    destruct (he_all _ _ Hh c' r Hc Hne) as (i & cl & Hi & E & _ & _ & Hcl).
    assert (Eh : hl (s_heap s) i = c_lits cl) by (unfold hl; by rewrite E).
    apply (ao_val _ _ _ _ Ca).
    assert (Hf : ∀ x, x ∈ hl (s_heap s) i → x ≠ l → - x ∈ s_trail s).
    { intros x Hxi Hxl. apply (asg_false _ _ _ _ _ Ca). apply Hx; [|done]. apply Hcl. by rewrite <-Eh. }
    assert (Hlh : l ∈ hl (s_heap s) i) by (rewrite Eh; by apply Hcl).
    assert (Hnd := h_nodup _ _ _ Ch i).
    destruct (hl (s_heap s) i) as [|x [|y r']] eqn:El; [by apply elem_of_nil in Hlh|..].
    { apply elem_of_list_singleton in Hlh as ->. by apply (cl_unit _ _ _ _ Cc i). }
    apply NoDup_cons in Hnd as [Hnx _].
    assert (Hxy : x ≠ y) by (intros ->; apply Hnx; left).
    assert (Hcase : ∀ w o, (w = x ∧ o = y ∨ w = y ∧ o = x) → w ≠ l → l ∈ s_trail s).
    { intros w o Hwo Hwl.
      assert (Hw : w ∈ x :: y :: r') by (destruct Hwo as [[-> _]|[-> _]]; [left|right; left]).
      assert (Ho : o ∈ x :: y :: r') by (destruct Hwo as [[_ ->]|[_ ->]]; [right; left|left]).
      destruct (H5 i x y r' w o Hi El Hwo (Hf w Hw Hwl)) as [[Hin|[_ Hin]]|[Hot _]].
      - rewrite Hq in Hin. by apply elem_of_nil in Hin.
      - by apply elem_of_nil in Hin.
      - destruct (decide (o = l)) as [<-|Hol]; [done|]. by apply (tr_consistent _ _ _ _ Ct) in Hot; destruct Hot; apply Hf. }
    destruct (decide (x = l)) as [->|Hxl]; [apply (Hcase y l); [by right|done]|apply (Hcase x y); [by left|done]].
  Qed.

  Definition Guided (p : P) (s : solver) : Prop := LInv p s ∧ Link p (s_asg s).

  Lemma assigned_sub a a' t t' : AsgOk F Extra a t → AsgOk F Extra a' t' → (∀ l, l ∈ t → l ∈ t') → a_assigned a ⊆ a_assigned a'.
  Proof.
    intros A A' Ht v [Hv [b Hb]]%(awf_assigned _ (ao_wf _ _ _ _ A)). apply (awf_assigned _ (ao_wf _ _ _ _ A')). split; [done|].
    destruct b.
    - apply (ao_val _ _ _ _ A), Ht, (ao_val _ _ _ _ A') in Hb. eauto.
    - apply (asg_false _ _ _ _ _ A), Ht, (asg_false _ _ _ _ _ A') in Hb. eauto.
  Qed.

  Lemma guided_step fuel p s : Guided p s → (nvars ≤ fuel)%nat →
    (∃ p' s', search_step pol fuel 0 p s = Ok (Continue p' s') ∧ Guided p' s') ∨
    (∃ p' s', search_step pol fuel 0 p s = Ok (Found p' s') ∧ Final s').
  Proof.
    intros [L Lk] Hf. pose proof (li_ready _ _ _ _ _ _ L) as Rd.
    pose proof (iv_queue _ _ _ _ _ _ Rd) as [Hq _].
    pose proof (trail_bound _ _ _ _ (iv_core _ _ _ _ _ _ Rd)) as B.
    unfold search_step.
    destruct (propagate_spec F Extra D fuel s Rd) as [(s1 & -> & R1 & Q1 & F1)|(c & s1 & -> & C1 & F1)].
    { unfold SatSearch.nvars in Hf. unfold F in B |- *. lia. }
    - rewrite res_bind_ok. cbn beta iota.
      pose proof (linv_fr PInv R Extra Dg _ _ _ L R1 F1) as L1.
      pose proof (iv_core _ _ _ _ _ _ R1) as C1. pose proof C1 as [Ch Cc Ct Ca].
      pose proof (ao_wf _ _ _ _ Ca) as W.
      assert (Lk1 : Link p (s_asg s1)).
      { eapply Hgrow; [exact Lk|]. eapply assigned_sub; [apply (co_asg _ _ _ _ _ _ _ _ _ _ (iv_core _ _ _ _ _ _ Rd))|exact Ca|].
        destruct (fr_tr _ _ F1) as [t ->]. intros l Hl. apply elem_of_app. by right. }
      case_decide as Hn.
      { right. exists p, s1. split; [done|]. split; [done|apply (li_held _ _ _ _ _ _ L1)|apply (li_seen _ _ _ _ _ _ L1)|done|].
        unfold number_assigned, number_variables, num_assigned, aset_len in Hn.
        destruct (decide (a_seen (s_asg s1) ⊆ a_assigned (s_asg s1))) as [Hsub|Hsub].
        - apply set_eq; intros x; split; [apply (awf_seen _ W)|apply Hsub].
        - assert (a_assigned (s_asg s1) ⊂ a_seen (s_asg s1)) as Hss by (split; [apply (awf_seen _ W)|done]).
          apply subset_size in Hss. lia. }
      left.
      assert (K1 : ∀ c l, c ∈ clause_lits s1 → l ∈ c → l ≠ 0 ∧ (is_var F (Z.abs l) ∨ Z.abs l ∈ Extra)).
      { intros c l Hc Hl. apply elem_of_list_fmap in Hc as (i & -> & Hi).
        change (lits_of s1 i) with (hl (s_heap s1) i) in Hl. by apply (h_var _ _ _ Ch) in Hl. }
      assert (K2 : ∀ c, c ∈ F → c ≠ [] → ∃ c', c' ∈ clause_lits s1 ∧ ∀ l, l ∈ c' ↔ l ∈ c).
      { intros c Hc Hne. apply elem_of_list_fmap in Hc as ([c' r] & -> & Hc).
        destruct (he_all _ _ (li_held _ _ _ _ _ _ L1) c' r Hc Hne) as (i & cl & Hi & E & _ & _ & Hx).
        exists (lits_of s1 i). unfold lits_of. rewrite E. split; [|done].
        apply elem_of_list_fmap. exists i. unfold lits_of. by rewrite E. }
      destruct (Hpol p (s_asg s1) (clause_lits s1)) as (v & p' & a' & Ep & Hp' & Ed & Es & Ea & Hv0 & Hva & Hvu & HD);
        [apply (li_pol _ _ _ _ _ _ L1)|done|apply (li_seen _ _ _ _ _ _ L1)|apply (ao_seen _ _ _ _ Ca)|done|done|..].
      { intros E. apply Hn. unfold number_assigned, number_variables, num_assigned, aset_len. by rewrite E. }
      destruct (Hguide p (s_asg s1) (clause_lits s1) v p' a') as [Hgv Lk'];
        [apply (li_pol _ _ _ _ _ _ L1)|done|done|apply (li_seen _ _ _ _ _ _ L1)|apply (ao_seen _ _ _ _ Ca)|done|done|..|done|].
      { intros l Hl. apply (core_true _ C1). by apply (ao_val _ _ _ _ Ca). }
      { apply ready_closed; [done|done|apply (li_held _ _ _ _ _ _ L1)]. }
      rewrite Ep, res_bind_ok. cbn beta iota.
      assert (A' : AsgOk F Extra a' (s_trail s1)).
      { split.
        - destruct W as [W1 W2 W3 W4 W5]. split; rewrite ?Ed, ?Es, ?Ea; done.
        - intros l. unfold aset_value. rewrite Ed. apply (ao_val _ _ _ _ Ca).
        - intros w. rewrite Es. apply (ao_seen _ _ _ _ Ca). }
      assert (R2 : Ready (set_asg a' s1)).
      { destruct R1 as [_ K3 K4 K5]. split; try done. }
      assert (Hnt : ∀ l, Z.abs l = Z.abs v → l ∉ s_trail s1).
      { intros l E Hl. apply Hva. rewrite <-E. apply (asg_assigned _ _ _ _ _ Ca).
        - intros. by eapply tr_nonzero.
        - apply elem_of_list_fmap. eauto. }
      destruct (assume_spec F Extra D (set_asg a' s1) v R2) as
        (s2 & -> & R3 & Q3 & T3 & L3 & H3 & C3 & CT3 & RS3 & S3 & LV3 & LV3'); try done.
      { by apply Hnt. } { apply Hnt. by rewrite Z.abs_opp. }
      { exists (s_asg s1). split; [done|]. split; [apply (ao_val _ _ _ _ Ca)|done]. }
      rewrite res_bind_ok. exists p', s2. split; [done|]. split.
      + split; [done| | |done].
        * eapply held_same; [apply (li_held _ _ _ _ _ _ L1)|done..|]. rewrite RS3. intros w j.
          destruct (decide (w = Z.abs v)) as [->|].
          -- rewrite lookup_insert. intros [= <-]. by right.
          -- rewrite lookup_insert_ne by done. by left.
        * intros w Hw. apply S3. cbn. rewrite Es. by apply (li_seen _ _ _ _ _ _ L1).
      + eapply Hgrow; [exact Lk'|]. eapply assigned_sub; [exact Ca|apply (co_asg _ _ _ _ _ _ _ _ _ _ (iv_core _ _ _ _ _ _ R3))|].
        rewrite T3. intros l Hl. by right.
    - exfalso. pose proof (cf_core _ _ _ _ _ C1) as Co. pose proof Co as [Ch Cc Ct Ca].
      destruct (cl_range _ _ _ _ Cc c (cf_in _ _ _ _ _ C1)) as [Hc0 Hcl].
      destruct (h_ent _ _ _ Ch c Hc0 Hcl (cl_ne _ _ _ _ Cc c (cf_in _ _ _ _ _ C1)) g Hg) as (x & Hx & Hxt).
      apply (cf_false _ _ _ _ _ C1) in Hx as Hxn. apply (core_true _ Co) in Hxn. apply lit_true_opp in Hxn; [done|].
      by apply (h_var _ _ _ Ch c x).
  Qed.

  Lemma guided_loop pf n : (nvars ≤ pf)%nat → ∀ p s p' s', Guided p s →
    search_loop pol pf n 0 p s = Ok (Normal (p', s')) → Final s'.
  Proof.
    intros Hpf. induction n as [|n IH]; intros p s p' s' G; [done|]. cbn [search_loop].
    destruct (guided_step pf p s G Hpf) as [(p1 & s1 & -> & G1)|(p1 & s1 & -> & Hfi)]; rewrite res_bind_ok; cbn beta iota.
    - by apply IH.
    - by intros [= <- <-].
  Qed.

  (** The solution makes true and false what [g] does. *)
  Lemma guided_solution fuel p a : PInv p → (∀ a, Link p a) → solve_clauses pol fuel p R = Ok (Normal a) →
    ∀ v b, 0 < v → aset_value a v = Some b → g v = b.
  Proof.
    intros Hp HL E v b Hv Hb. apply (solve_mono pol R _ (nvars + fuel)) in E; [|lia]. unfold solve_clauses in E.
    destruct (from_clauses_spec PInv R Extra Dg Hwf p Hp) as [(s & E1 & L & Hl)|(i & l & s & E1 & _)]; rewrite E1 in E; [|done].
    rewrite res_bind_ok in E. unfold search in E.
    assert (Hd : decision_level s = 0) by (unfold decision_level; by rewrite Hl). rewrite Hd in E.
    destruct (search_loop pol (nvars + fuel) (nvars + fuel) 0 p s) as [[[p' s']|c l s']|x] eqn:El; [|done..].
    rewrite res_bind_ok in E. injection E as <-.
    assert (Hfi : Final s') by (eapply guided_loop; [|split; [exact L|apply HL]|exact El]; lia).
    pose proof (iv_core _ _ _ _ _ _ (fi_ready _ _ _ _ Hfi)) as Co. pose proof Co as [_ _ _ Ca].
    assert (Hb' : aset_value (s_asg s') v = Some b) by done. destruct b.
    - apply (ao_val _ _ _ _ Ca) in Hb'. apply (core_true _ Co) in Hb'. unfold lit_true in Hb'. by rewrite decide_True in Hb' by done.
    - apply (asg_false _ _ _ _ _ Ca) in Hb'. apply (core_true _ Co) in Hb'. unfold lit_true in Hb'.
      rewrite decide_False in Hb' by lia. by rewrite Z.opp_involutive in Hb'.
  Qed.
End guided.
