(** * When the newest of everything fits together, the policy of the dependency solver never proposes anything else. *)
From Verif Require Export SatGuided PolicyProofs.

Section uc.
  Context (env : uc_env) (F : list (list Z)) (Extra Q : gset Z) (g : valuation).
  Hypothesis Hwf : wf_cnf F.
  Hypothesis He : uc_env_ok env F Extra Q.

  (** A clause forbids [u] and [t] together; a clause forbids [u]. *)
  Definition rivals (u t : Z) : Prop := 0 < t ∧ ∃ c, c ∈ F ∧ ∀ x, x ∈ c ↔ x = - u ∨ x = - t.
  Definition banned (u : Z) : Prop := ∃ c, c ∈ F ∧ ∀ x, x ∈ c ↔ x = - u.

  Hypothesis G0 : ∀ v, v ∈ uc_prefer env → g v = true.
  Hypothesis G1 : ∀ u, is_var F u ∨ u ∈ Extra → g u = false → banned u ∨
    ∃ t, rivals u t ∧ g t = true ∧
      (t ∈ uc_prefer env ∨ newer_first (uc_version env) t u ∧ (u ∈ Q → t ∈ Q)).

  (** With a package its undecided rivals are in the decision set, too. *)
  Definition uc_link (p : uc_state) (a : aset) : Prop :=
    ∀ u t, u ∈ uc_decision p → rivals u t → u ∉ a_assigned a → t ∉ a_assigned a → t ∈ uc_decision p.
  Lemma uc_link_grow p a a' : uc_link p a → a_assigned a ⊆ a_assigned a' → uc_link p a'.
  Proof. clear. intros H Hs u t Hu Ht H1 H2. apply (H u t); [done|done|intros ?; by apply H1, Hs|intros ?; by apply H2, Hs]. Qed.

  (** Propagation is complete: the rival that [g] prefers to an undecided [u] is undecided. *)
  Lemma rival_undecided a u : AWf a → (∀ l, aset_value a l = Some true → lit_true g l) → closed_under F a →
    is_var F u ∨ u ∈ Extra → u ∉ a_assigned a → g u = false →
    ∃ t, t ∉ a_assigned a ∧ rivals u t ∧
      (t ∈ uc_prefer env ∨ newer_first (uc_version env) t u ∧ (u ∈ Q → t ∈ Q)).
  Proof.
    intros W Ht Hcl Hu Hua Hgu. pose proof (univ_pos env F Extra Q Hwf He u Hu) as Hu0.
    assert (Hno : aset_value a (- u) = Some true → False).
    { intros E. rewrite (value_unassigned a (- u) W) in E; [done|]. by rewrite Z.abs_opp, Z.abs_eq by lia. }
    destruct (G1 u Hu Hgu) as [(c & Hc & Hx)|(t & Hr & Hgt & Hcase)].
    { exfalso. apply Hno. apply (Hcl c); [done|by apply Hx|]. intros x Hxc Hxu. by apply Hx in Hxc. }
    exists t. split; [|done]. intros Hta.
    apply (awf_assigned _ W) in Hta as [_ [b Hb]]. change (aset_value a t = Some b) in Hb. destruct b.
    - destruct Hr as (_ & c & Hc & Hx). apply Hno. apply (Hcl c); [done|apply Hx; by left|].
      intros x Hxc Hxu. apply Hx in Hxc as [->| ->]; [done|]. by rewrite (value_neg a t W), Hb.
    - assert (E : aset_value a (- t) = Some true) by (by rewrite (value_neg a t W), Hb).
      apply Ht in E. unfold lit_true in E. destruct Hr as [Hr _]. rewrite decide_False in E by lia. rewrite Z.opp_involutive in E. congruence.
  Qed.

  Lemma refresh_fields a cls p p' a' : refresh env a cls p = (p', a') →
    a_data a' = a_data a ∧ a_seen a' = a_seen a ∧ a_assigned a' = a_assigned a ∧ uc_requirements p' = uc_requirements p ∧
    uc_all p' = list_to_set (Z.abs <$> mjoin cls) ∪ list_to_set (uc_prefer env) ∧
    ∀ v, v ∈ uc_decision p' ↔ (∃ c l, c ∈ cls ∧ l ∈ c ∧ v = Z.abs l ∧ ∀ x, x ∈ c → aset_value a x ≠ Some true) ∧ v ∉ a_assigned a.
  Proof.
    unfold refresh. destruct (consume_fields a) as (E1 & E2 & E3). destruct (consume_changelog a) as [ch a1]. cbn in E1, E2, E3.
    intros [= <- <-]. cbn. split; [done|]. split; [done|]. split; [done|]. split; [done|]. split; [done|].
    intros v. rewrite elem_of_difference, elem_of_list_to_set, elem_of_list_fmap, E3.
    apply Morphisms_Prop.and_iff_morphism; [|done].
    setoid_rewrite elem_of_list_join. setoid_rewrite elem_of_list_filter. setoid_rewrite Forall_forall.
    unfold aset_value. rewrite E1. naive_solver.
  Qed.
  Lemma refresh_link a cls p p' a' : AWf a →
    (∀ c, c ∈ F → c ≠ [] → ∃ c', c' ∈ cls ∧ ∀ l, l ∈ c' ↔ l ∈ c) →
    refresh env a cls p = (p', a') → uc_link p' a.
  Proof.
    intros W K (E1 & E2 & E3 & E4 & E5 & E6)%refresh_fields u t Hu (Ht0 & c & Hc & Hx) Hua Hta.
    apply E6. split; [|done]. destruct (K c Hc) as (c' & Hc' & Hx'). { intros ->. by apply (elem_of_nil (- u)), Hx; left. }
    assert (0 < u) as Hu0.
    { apply E6 in Hu as [(c1 & l & _ & _ & -> & _) _]. assert (- Z.abs l ∈ c) by (apply Hx; by left).
      pose proof (Hwf c _ Hc H). lia. }
    exists c', (- t). split; [done|]. split; [apply Hx', Hx; by right|]. split; [lia|].
    intros x [->| ->]%Hx'%Hx; rewrite value_unassigned; rewrite ?Z.abs_opp, ?Z.abs_eq by lia; done.
  Qed.

  (** What the policy proposes is true in [g]. *)
  Lemma uc_guided p a cls v p' a' : uc_inv F Extra Q p → uc_link p a → AWf a →
    (∀ c, c ∈ F → c ≠ [] → ∃ c', c' ∈ cls ∧ ∀ l, l ∈ c' ↔ l ∈ c) →
    (∀ c l, c ∈ cls → l ∈ c → l ≠ 0 ∧ (is_var F (Z.abs l) ∨ Z.abs l ∈ Extra)) →
    (∀ l, aset_value a l = Some true → lit_true g l) → closed_under F a →
    uc_policy env p a cls = Ok (v, p', a') → lit_true g v ∧ uc_link p' a.
  Proof.
    intros [HQ0 Hdec0] Lk0 W0 K2 K1 Ht Hcl. unfold uc_policy.
    assert (Hrefi : ∀ b p1 p2 b', a_assigned b = a_assigned a → uc_requirements p1 = Q → refresh env b cls p1 = (p2, b') → uc_inv F Extra Q p2).
    { intros b p1 p2 b' _ Hp1 (_ & _ & _ & E4 & _ & E6)%refresh_fields. split; [congruence|].
      intros w [(c & l & Hc & Hl & -> & _) _]%E6. by apply (K1 c l). }
    assert (∃ q b, (if decide (a_new a = ∅) then (p, a) else refresh env a cls p) = (q, b) ∧
      a_data b = a_data a ∧ a_seen b = a_seen a ∧ a_assigned b = a_assigned a ∧ uc_inv F Extra Q q ∧ uc_link q a)
      as (q & b & -> & Ed & Es & Ea & [HQ Hdec] & Lk).
    { case_decide; [by exists p, a|]. destruct (refresh env a cls p) as [q b] eqn:Er. exists q, b.
      pose proof (refresh_fields _ _ _ _ _ Er) as (E1 & E2 & E3 & _). split; [done|]. split; [done|]. split; [done|]. split; [done|].
      split; [by apply (Hrefi a p q b)|by eapply refresh_link]. }
    clear Lk0 Hdec0 HQ0.
    assert (Hpos : ∀ w, is_var F w ∨ w ∈ Extra → g w = true → lit_true g w).
    { intros w Hw Hgw. pose proof (univ_pos env F Extra Q Hwf He w Hw). unfold lit_true. by rewrite decide_True. }
    assert (Hret : ∀ w q b r, uc_return (Some w) q b = Ok r → r = (w, q, b)).
    { intros w q1 b1 r. unfold uc_return. by destruct (aset_value b1 w); [|intros [= <-]]. }
    destruct (best_sorted env b) as [w|] eqn:Eb.
    { intros [= -> -> ->]%Hret. split; [|done]. unfold best_sorted in Eb. apply head_Some in Eb as [r Ef].
      assert (w ∈ filter (λ v, v ∉ a_assigned b) (uc_prefer env)) as [_ Hin]%elem_of_list_filter by (rewrite Ef; left).
      apply Hpos; [right; apply (ue_extra _ _ _ _ He); by left|by apply G0]. }
    apply best_sorted_none in Eb. rewrite filter_empty_iff in Eb.
    (** The newest undecided member of a set that has, with each member, its undecided rivals. *)
    assert (Hbest : ∀ (X : gset Z) w wv, w ∈ X → w ∉ a_assigned a → is_var F w ∨ w ∈ Extra → uc_version env w = Some wv →
      (∀ x xv, x ∈ X → x ∉ a_assigned a → uc_version env x = Some xv → ver_leb xv wv = true) →
      (∀ t, t ∉ a_assigned a → rivals w t → (w ∈ Q → t ∈ Q) → t ∈ X) → lit_true g w).
    { intros X w wv HwX Hwa Hw Hwv Hmax HX. apply Hpos; [done|]. apply not_false_iff_true. intros Hgw.
      destruct (rival_undecided a w W0 Ht Hcl Hw Hwa Hgw) as (t & Hta & Hr & [Hp|[(tv & uv & Htv & Huv & Hlt) HtQ]]).
      { apply (Eb t Hp). by rewrite Ea. }
      assert (uv = wv) as -> by congruence.
      pose proof (Hmax t tv (HX t Hta Hr HtQ) Hta Htv) as Hle. by rewrite ver_leb_ltb, Hlt in Hle. }
    rewrite HQ.
    assert (HQu : ∀ v, v ∈ Q → is_var F v ∨ v ∈ Extra) by (intros; right; apply (ue_extra _ _ _ _ He); by right).
    destruct (best_candidate_spec env F Extra Q He (uc_clock q) Q b HQu) as [[Ex ->]|(m & mv & -> & Hm & Hna & Hmv & Hmax)];
      rewrite res_bind_ok; cbn beta iota zeta.
    2:{ intros [= -> -> ->]%Hret. rewrite Ea in *. split; [|done]. eapply (Hbest Q); eauto. }
    cbn [tick uc_decision uc_clock].
    destruct (best_candidate_spec env F Extra Q He (S (uc_clock q)) (uc_decision q) b Hdec) as [[Ex2 ->]|(m & mv & -> & Hm & Hna & Hmv & Hmax)];
      rewrite res_bind_ok; cbn beta iota zeta.
    2:{ intros [= -> -> ->]%Hret. rewrite Ea in *. split.
        - eapply (Hbest (uc_decision q)); eauto. 
        - intros u t. cbn. rewrite !elem_of_difference. intros [Hu _] Hr Hua Hta. split; [|done]. by apply (Lk u t). }
    match goal with |- context [refresh env b cls ?p1] => destruct (refresh env b cls p1) as [q2 b2] eqn:Er2; assert (Hi2 := Hrefi b p1 q2 b2 Ea HQ Er2) end.
    assert (Wb : AWf b) by (by eapply awf_fields).
    pose proof (refresh_link _ _ _ _ _ Wb K2 Er2) as Lk2. apply refresh_fields in Er2 as (E1 & E2 & E3 & E4 & E5 & E6).
    assert (Lk2' : uc_link q2 a) by (eapply uc_link_grow; [done|by rewrite Ea]). destruct Hi2 as [HQ2 Hdec2].
    rewrite Ea in E3.
    destruct (best_candidate_spec env F Extra Q He (uc_clock q2) (uc_decision q2) b2 Hdec2) as [[Ex3 ->]|(m & mv & -> & Hm & Hna & Hmv & Hmax)];
      rewrite res_bind_ok; cbn beta iota zeta.
    2:{ intros [= -> -> ->]%Hret. rewrite E3 in *. split; [|done]. eapply (Hbest (uc_decision q2)); eauto. }
    cbn [tick uc_all uc_clock].
    assert (Hallu : ∀ v, v ∈ uc_all q2 → is_var F v ∨ v ∈ Extra).
    { intros w. rewrite E5, elem_of_union, !elem_of_list_to_set. intros [(l & -> & Hl)%elem_of_list_fmap|Hw].
      - apply elem_of_list_join in Hl as (c & Hl & Hc). by apply (K1 c l).
      - right. apply (ue_extra _ _ _ _ He). by left. }
    destruct (best_candidate_spec env F Extra Q He (S (uc_clock q2)) (uc_all q2) b2 Hallu) as [[Ex4 ->]|(m & mv & -> & Hm & Hna & Hmv & Hmax)];
      rewrite res_bind_ok; cbn beta iota zeta; [done|].
    intros [= -> -> ->]%Hret. rewrite E3 in *. split; [|done]. eapply (Hbest (uc_all q2)); eauto.
    intros t _ (Ht0 & c & Hc & Hx) _. rewrite E5, elem_of_union, elem_of_list_to_set. left.
    destruct (K2 c Hc) as (c' & Hc' & Hx'). { intros ->. by apply (elem_of_nil (- t)), Hx; right. }
    apply elem_of_list_fmap. exists (- t). split; [lia|]. apply elem_of_list_join. exists c'. split; [|done]. apply Hx', Hx. by right.
  Qed.

  (** The same for the logging wrapper. *)
  Lemma logged_guided p a cls v p' a' : uc_inv F Extra Q p.1.1 → uc_link p.1.1 a → AWf a →
    (∀ c, c ∈ F → c ≠ [] → ∃ c', c' ∈ cls ∧ ∀ l, l ∈ c' ↔ l ∈ c) →
    (∀ c l, c ∈ cls → l ∈ c → l ≠ 0 ∧ (is_var F (Z.abs l) ∨ Z.abs l ∈ Extra)) →
    (∀ l, aset_value a l = Some true → lit_true g l) → closed_under F a →
    logged_policy (uc_policy env) p a cls = Ok (v, p', a') → lit_true g v ∧ uc_link p'.1.1 a.
  Proof.
    destruct p as [[p sg] chs]. cbn. intros Hi Lk W K2 K1 Ht Hcl.
    destruct (get_fields a) as (E1 & E2 & E3). destruct (get_changelog a) as [ch a1]. cbn in E1, E2, E3.
    destruct (uc_policy env p a1 cls) as [[[w q] a2]|x] eqn:Ep; [|done]. rewrite res_bind_ok. cbn beta iota.
    destruct (consume_changelog a2) as [ch' a3]. intros [= -> <- <-]. cbn.
    apply uc_guided in Ep as [Hv Lk']; try done.
    - split; [done|]. by eapply uc_link_grow; [done|rewrite E3].
    - by eapply uc_link_grow; [done|rewrite E3].
    - by eapply awf_fields.
    - intros l. unfold aset_value. rewrite E1. apply Ht.
    - intros c l Hc Hl Hx. unfold aset_value in *. rewrite E1 in *. by apply (Hcl c).
  Qed.
End uc.
