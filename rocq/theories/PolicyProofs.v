(** * The decision policies satisfy what the solver requires of them. *)
From Verif Require Export SatLex Policy.

(** ** Versions are totally ordered *)
Lemma ver_ltb_lt a b : ver_ltb a b = true ↔
  upstream a < upstream b ∨ upstream a = upstream b ∧ build a < build b.
Proof. unfold ver_ltb. rewrite orb_true_iff, andb_true_iff, !Z.ltb_lt, Z.eqb_eq. done. Qed.
Lemma ver_leb_le a b : ver_leb a b = true ↔
  upstream a < upstream b ∨ upstream a = upstream b ∧ build a ≤ build b.
Proof. unfold ver_leb. rewrite orb_true_iff, andb_true_iff, Z.ltb_lt, Z.leb_le, Z.eqb_eq. done. Qed.
Lemma ver_leb_ltb a b : ver_leb a b = negb (ver_ltb b a).
Proof.
  destruct (ver_leb a b) eqn:E1, (ver_ltb b a) eqn:E2; try done.
  - apply ver_leb_le in E1. apply ver_ltb_lt in E2. lia.
  - exfalso. apply not_true_iff_false in E1, E2. rewrite ver_leb_le in E1. rewrite ver_ltb_lt in E2. lia.
Qed.
Lemma ver_leb_trans a b c : ver_leb a b = true → ver_leb b c = true → ver_leb a c = true.
Proof. rewrite !ver_leb_le. lia. Qed.
Lemma ver_ltb_leb a b : ver_ltb a b = true → ver_leb a b = true.
Proof. rewrite ver_leb_le, ver_ltb_lt. lia. Qed.
Lemma ver_leb_refl a : ver_leb a a = true.
Proof. rewrite ver_leb_le. lia. Qed.
Lemma ver_ltb_irrefl a : ver_ltb a a = false.
Proof. apply not_true_iff_false. rewrite ver_ltb_lt. lia. Qed.

(** ** max *)
Lemma max_from_spec ver l : ∀ best bv, (∀ x, x ∈ l → is_Some (ver x)) → ver best = Some bv →
  ∃ m mv, max_from ver l best bv = Ok m ∧ (m = best ∨ m ∈ l) ∧ ver m = Some mv ∧
    ver_leb bv mv = true ∧ ∀ x xv, x ∈ l → ver x = Some xv → ver_leb xv mv = true.
Proof.
  induction l as [|x l IH]; intros best bv Hl Hb.
  - exists best, bv. split; [done|]. split; [by left|]. split; [done|]. split; [apply ver_leb_refl|].
    intros x xv Hx. by apply elem_of_nil in Hx.
  - cbn [max_from]. destruct (Hl x) as [xv Hx]; [left|]. rewrite Hx. cbn [of_option]. rewrite res_bind_ok.
    assert (Hl' : ∀ x, x ∈ l → is_Some (ver x)) by (intros; apply Hl; by right).
    destruct (ver_ltb bv xv) eqn:E.
    + destruct (IH x xv Hl' Hx) as (m & mv & -> & Hm & Hmv & Hle & Hall).
      exists m, mv. split; [done|]. split; [destruct Hm as [->|?]; right; [left|by right]|].
      split; [done|]. split; [eapply ver_leb_trans; [by apply ver_ltb_leb|done]|].
      intros y yv [->|Hy]%elem_of_cons Ey; [congruence|eauto].
    + destruct (IH best bv Hl' Hb) as (m & mv & -> & Hm & Hmv & Hle & Hall).
      exists m, mv. split; [done|]. split; [destruct Hm as [->|?]; [by left|right; by right]|].
      split; [done|]. split; [done|].
      intros y yv [->|Hy]%elem_of_cons Ey; [|eauto].
      assert (yv = xv) as -> by congruence. eapply ver_leb_trans; [|done]. by rewrite ver_leb_ltb, E.
Qed.
Lemma max_by_version_spec ver l : (∀ x, x ∈ l → is_Some (ver x)) →
  (l = [] ∧ max_by_version ver l = Ok None) ∨
  ∃ m mv, max_by_version ver l = Ok (Some m) ∧ m ∈ l ∧ ver m = Some mv ∧
    ∀ x xv, x ∈ l → ver x = Some xv → ver_leb xv mv = true.
Proof.
  destruct l as [|x l]; intros Hl; [by left|]. right. cbn.
  destruct (Hl x) as [xv Hx]; [left|]. rewrite Hx. cbn [of_option]. rewrite res_bind_ok.
  destruct (max_from_spec ver l x xv) as (m & mv & -> & Hm & Hmv & Hle & Hall).
  { intros y Hy. apply Hl. by right. } { done. }
  exists m, mv. split; [done|]. split; [destruct Hm as [->|?]; [left|by right]|]. split; [done|].
  intros y yv [->|Hy]%elem_of_cons Ey; [congruence|eauto].
Qed.

Lemma value_unassigned a v : AWf a → Z.abs v ∉ a_assigned a → aset_value a v = None.
Proof. intros W H. apply eq_None_not_Some. unfold aset_value. by rewrite awf_abs. Qed.

(** ** The default policy of the SAT solver *)
Lemma default_policy_good F Extra : wf_cnf F →
  good_policy F Extra (λ _ v, 0 < v) default_policy (λ _, True).
Proof.
  intros Hwf [] a cls _ W Hv Hse Hcls Hh Hne. unfold default_policy.
  assert (∃ x, x ∈ a_seen a ∧ x ∉ a_assigned a) as (x & Hx & Hxa).
  { apply dec_stable. intros H. apply Hne. apply set_eq. intros x. split; [apply (awf_seen _ W)|].
    intros Hx. apply dec_stable. intros Hn. apply H. eauto. }
  assert (Hx0 : 0 < x) by by apply (awf_pos _ W).
  assert (Hin : ∀ k b, (k, b) ∈ aset_items a ↔ k ∈ a_seen a ∧ b = a_data a !! k).
  { intros k b. unfold aset_items. rewrite elem_of_list_fmap. setoid_rewrite merge_sort_Permutation.
    setoid_rewrite elem_of_elements. naive_solver. }
  destruct (filter (λ kv, kv.2 = None) (aset_items a)) as [|[v b] r] eqn:E.
  - exfalso. assert ((x, None) ∈ filter (λ kv : Z * option bool, kv.2 = None) (aset_items a)) as Hf.
    { apply elem_of_list_filter. split; [done|]. apply Hin. split; [done|].
      symmetry. apply (value_unassigned a x W). by rewrite Z.abs_eq by lia. }
    rewrite E in Hf. by apply elem_of_nil in Hf.
  - assert ((v, b) ∈ filter (λ kv : Z * option bool, kv.2 = None) (aset_items a)) as Hf by (rewrite E; left).
    apply elem_of_list_filter in Hf as [Hb [Hs Hd]%Hin]. cbn in Hb. subst b.
    assert (0 < v) by by apply (awf_pos _ W).
    exists v, (), a. rewrite Z.abs_eq by lia. split; [done|]. split; [done|]. split; [done|]. split; [done|].
    split; [done|]. split; [lia|]. split; [|auto].
    intros [_ [b Hb']]%(awf_assigned _ W). congruence.
Qed.

(** ** UndeterminedClausePolicy *)
Definition newer_first (ver : Z → option version) (x y : Z) : Prop :=
  ∃ xv yv, ver x = Some xv ∧ ver y = Some yv ∧ ver_ltb yv xv = true.

Record uc_env_ok (env : uc_env) (F : list (list Z)) (Extra : gset Z) (Q : gset Z) : Prop := {
  ue_version : ∀ v, is_var F v ∨ v ∈ Extra → is_Some (uc_version env v);
  ue_order : ∀ n X, uc_order env n X ≡ₚ elements X;
  ue_extra : ∀ v, v ∈ Extra ↔ v ∈ uc_prefer env ∨ v ∈ Q;
  ue_pos : ∀ v, v ∈ Extra → 0 < v }.
Definition uc_inv (F : list (list Z)) (Extra Q : gset Z) (p : uc_state) : Prop :=
  uc_requirements p = Q ∧ ∀ v, v ∈ uc_decision p → is_var F v ∨ v ∈ Extra.

(** Its priorities: preferred ids come before all others, and
    requirements before all others but preferred ids, newer ones first. *)
Definition uc_prio (env : uc_env) (Q : gset Z) (a : aset) (v : Z) : Prop :=
  ∀ u, u ∉ a_assigned a →
    (u ∈ uc_prefer env → v ∈ uc_prefer env) ∧
    (u ∈ Q → v ∈ uc_prefer env ∨ v ∈ Q ∧ ∀ uv vv, uc_version env u = Some uv → uc_version env v = Some vv →
                                             ver_leb uv vv = true).
(** The priorities it follows: the preferred ids in their order, then the requirements from the
    newest to the oldest (a fixed order when their versions differ). *)
Definition uc_follows (env : uc_env) (Q : gset Z) (a : aset) (v : Z) : Prop :=
  follows (uc_prefer env) a v ∧
  (∀ qs, qs ≡ₚ elements Q → StronglySorted (newer_first (uc_version env)) qs →
    follows (uc_prefer env ++ qs) a v) ∧ uc_prio env Q a v.

Lemma consume_fields a : a_data (snd (consume_changelog a)) = a_data a ∧
  a_seen (snd (consume_changelog a)) = a_seen a ∧ a_assigned (snd (consume_changelog a)) = a_assigned a.
Proof. unfold consume_changelog, get_changelog. destruct (a_cached a); done. Qed.
Lemma get_fields a : a_data (snd (get_changelog a)) = a_data a ∧
  a_seen (snd (get_changelog a)) = a_seen a ∧ a_assigned (snd (get_changelog a)) = a_assigned a.
Proof. unfold get_changelog. destruct (a_cached a); done. Qed.
Lemma awf_fields a a' : AWf a → a_data a' = a_data a → a_seen a' = a_seen a →
  a_assigned a' = a_assigned a → AWf a'.
Proof. intros [H1 H2 H3 H4 H5] E1 E2 E3. split; rewrite ?E1, ?E2, ?E3; done. Qed.

Lemma StronglySorted_filter {A} (Rel : A → A → Prop) (P : A → Prop) `{∀ x, Decision (P x)} l :
  StronglySorted Rel l → StronglySorted Rel (filter P l).
Proof.
  induction 1 as [|x l Hs IH Hx]; [constructor|]. destruct (decide (P x)).
  - rewrite filter_cons_True by done. constructor; [done|].
    rewrite Forall_forall in *. intros y [_ Hy]%elem_of_list_filter. auto.
  - by rewrite filter_cons_False.
Qed.

Section uc.
  Context (env : uc_env) (F : list (list Z)) (Extra Q : gset Z).
  Hypothesis Hwf : wf_cnf F.
  Hypothesis He : uc_env_ok env F Extra Q.

  Lemma univ_pos v : is_var F v ∨ v ∈ Extra → 0 < v.
  Proof.
    intros [(c & l & Hc & Hl & ->)|Hv]; [|by apply (ue_pos _ _ _ _ He)].
    pose proof (Hwf c l Hc Hl). lia.
  Qed.

  Lemma best_candidate_spec n ids a : (∀ v, v ∈ ids → is_var F v ∨ v ∈ Extra) →
    (ids ∖ a_assigned a = ∅ ∧ best_candidate env n ids a = Ok (None, ids ∖ a_assigned a)) ∨
    ∃ m mv, best_candidate env n ids a = Ok (Some m, ids ∖ a_assigned a) ∧
      m ∈ ids ∧ m ∉ a_assigned a ∧ uc_version env m = Some mv ∧
      ∀ x xv, x ∈ ids → x ∉ a_assigned a → uc_version env x = Some xv → ver_leb xv mv = true.
  Proof.
    intros Hids. unfold best_candidate.
    assert (Ho : ∀ x, x ∈ uc_order env n (ids ∖ a_assigned a) ↔ x ∈ ids ∧ x ∉ a_assigned a).
    { intros x. rewrite (ue_order _ _ _ _ He), elem_of_elements, elem_of_difference. done. }
    destruct (max_by_version_spec (uc_version env) (uc_order env n (ids ∖ a_assigned a)))
      as [[E ->]|(m & mv & -> & Hm & Hmv & Hall)].
    - intros x [Hx _]%Ho. apply (ue_version _ _ _ _ He). by apply Hids.
    - left. split; [|done]. apply set_eq. intros x.
      rewrite elem_of_difference, <-Ho, E, elem_of_nil, elem_of_empty. done.
    - right. exists m, mv. split; [done|]. apply Ho in Hm as [? ?].
      split; [done|]. split; [done|]. split; [done|]. intros x xv ??. apply Hall. by apply Ho.
  Qed.

  Lemma follows_none a v L : 0 < v → filter (λ u, u ∉ a_assigned a) L = [] → follows L a v.
  Proof. intros. split; [done|]. by rewrite H0. Qed.

  Lemma best_sorted_none a : best_sorted env a = None →
    filter (λ u, u ∉ a_assigned a) (uc_prefer env) = [].
  Proof. unfold best_sorted. destruct (filter _ _); done. Qed.

  Lemma filter_empty_iff (P : Z → Prop) `{∀ x, Decision (P x)} l :
    filter P l = [] ↔ ∀ x, x ∈ l → ¬ P x.
  Proof.
    split.
    - intros E x Hx Hp. assert (x ∈ filter P l) as Hf by (by apply elem_of_list_filter).
      rewrite E in Hf. by apply elem_of_nil in Hf.
    - intros Hn. destruct (filter P l) as [|x r] eqn:E; [done|].
      assert (x ∈ filter P l) as [? ?]%elem_of_list_filter by (rewrite E; left). naive_solver.
  Qed.

  (** Nothing preferred or required is undecided: any positive proposal follows the priorities. *)
  Lemma uc_follows_none a v : 0 < v → best_sorted env a = None → Q ∖ a_assigned a = ∅ →
    uc_follows env Q a v.
  Proof.
    intros Hv Hb HQ. apply best_sorted_none in Hb. split; [by apply follows_none|].
    assert (Hb' := Hb). rewrite filter_empty_iff in Hb'. split; [|by intros u Hu; split; [intros []%Hb'|set_solver]].
    intros qs Hqs _. apply follows_none; [done|]. rewrite filter_app, Hb. cbn.
    apply filter_empty_iff. intros x Hx Hna. rewrite Hqs, elem_of_elements in Hx. set_solver.
  Qed.

  Lemma uc_policy_good : good_policy F Extra (uc_follows env Q) (uc_policy env) (uc_inv F Extra Q).
  Proof.
    intros p0 a0 cls [HQ0 Hdec0] W0 Hv0 Hse0 Hcls Hh Hne0. unfold uc_policy.
    assert (Hcv : ∀ v, v ∈ Z.abs <$> mjoin cls → is_var F v ∨ v ∈ Extra).
    { intros v (l & -> & Hl)%elem_of_list_fmap. apply elem_of_list_join in Hl as (c & Hl & Hc).
      by apply (Hcls c l). }
    assert (Href : ∀ a p, uc_requirements p = Q →
      ∃ a' p', refresh env a cls p = (p', a') ∧ a_data a' = a_data a ∧ a_seen a' = a_seen a ∧
        a_assigned a' = a_assigned a ∧ uc_inv F Extra Q p' ∧
        uc_all p' = list_to_set (Z.abs <$> mjoin cls) ∪ list_to_set (uc_prefer env)).
    { intros a p Hp. unfold refresh. destruct (consume_fields a) as (E1 & E2 & E3).
      destruct (consume_changelog a) as [ch a'] eqn:Ec. cbn in E1, E2, E3.
      eexists _, _. split; [done|]. split; [done|]. split; [done|]. split; [done|]. split; [|done].
      split; [done|]. cbn. intros v [Hv _]%elem_of_difference. rewrite elem_of_list_to_set in Hv.
      apply Hcv. apply elem_of_list_fmap in Hv as (l & -> & Hl). apply elem_of_list_fmap. exists l. split; [done|].
      apply elem_of_list_join in Hl as (c & Hl & [_ Hc]%elem_of_list_filter). apply elem_of_list_join. eauto. }
    (* the first refresh *)
    assert (∃ p a, (if decide (a_new a0 = ∅) then (p0, a0) else refresh env a0 cls p0) = (p, a) ∧
      a_data a = a_data a0 ∧ a_seen a = a_seen a0 ∧ a_assigned a = a_assigned a0 ∧ uc_inv F Extra Q p)
      as (p & a & -> & Ed & Es & Ea & Hp).
    { case_decide; [exists p0, a0; done|]. destruct (Href a0 p0 HQ0) as (a' & p' & E & ? & ? & ? & ? & _).
      exists p', a'. done. }
    pose proof (awf_fields _ _ W0 Ed Es Ea) as W.
    assert (Hret : ∀ v p', uc_inv F Extra Q p' → v ∉ a_assigned a → is_var F v ∨ v ∈ Extra →
      uc_follows env Q a0 v → ∀ a', a_data a' = a_data a → a_seen a' = a_seen a → a_assigned a' = a_assigned a →
      ∃ v0 p'0 a'0, uc_return (Some v) p' a' = Ok (v0, p'0, a'0) ∧ uc_inv F Extra Q p'0 ∧
        a_data a'0 = a_data a0 ∧ a_seen a'0 = a_seen a0 ∧ a_assigned a'0 = a_assigned a0 ∧
        v0 ≠ 0 ∧ Z.abs v0 ∉ a_assigned a0 ∧ (is_var F (Z.abs v0) ∨ Z.abs v0 ∈ Extra) ∧ uc_follows env Q a0 v0).
    { intros v p' Hp' Hna Hu Hfo a' E1 E2 E3. pose proof (univ_pos v Hu). unfold uc_return.
      rewrite (value_unassigned a' v); [|by eapply awf_fields|by rewrite Z.abs_eq, E3 by lia].
      exists v, p', a'. rewrite Z.abs_eq by lia. rewrite <-Ea.
      split; [done|]. split; [done|]. split; [congruence|]. split; [congruence|]. split; [congruence|].
      split; [lia|]. split; [done|]. split; [done|]. done. }
    (* preferred *)
    destruct (best_sorted env a) as [v|] eqn:Eb.
    { unfold best_sorted in Eb. destruct (filter (λ v, v ∉ a_assigned a) (uc_prefer env)) as [|w r] eqn:Ef; [done|].
      cbn in Eb. injection Eb as ->.
      assert (v ∈ filter (λ v, v ∉ a_assigned a) (uc_prefer env)) as [Hna Hin]%elem_of_list_filter by (rewrite Ef; left).
      assert (Hu : is_var F v ∨ v ∈ Extra) by (right; apply (ue_extra _ _ _ _ He); by left).
      apply Hret; try done. pose proof (univ_pos v Hu). rewrite Ea in Ef.
      split; [split; [done|by rewrite Ef]|]. split; [|by intros u _; split; auto].
      intros qs _ _. split; [done|]. by rewrite filter_app, Ef. }
    pose proof Eb as Eb'. unfold best_sorted in Eb'. rewrite Ea in Eb'. fold (best_sorted env a0) in Eb'.
    (* required *)
    destruct Hp as [HQ Hdec]. rewrite HQ.
    assert (HQu : ∀ v, v ∈ Q → is_var F v ∨ v ∈ Extra) by (intros; right; apply (ue_extra _ _ _ _ He); by right).
    destruct (best_candidate_spec (uc_clock p) Q a HQu) as [[Ex ->]|(m & mv & -> & Hm & Hna & Hmv & Hmax)];
      rewrite res_bind_ok; cbn beta iota zeta.
    2:{ apply Hret; try done; [by apply HQu|]. pose proof (univ_pos m (HQu m Hm)).
        apply best_sorted_none in Eb'. split; [by apply follows_none|].
        assert (Hb' := Eb'). rewrite filter_empty_iff in Hb'.
        split; [|intros u Hu; split; [by intros []%Hb'|]; intros HuQ; right; split; [done|];
          intros uv vv Huv Hvv; rewrite Hmv in Hvv; injection Hvv as <-; apply (Hmax u uv); [done|by rewrite Ea|done]].
        intros qs Hqs Hst. split; [done|]. rewrite filter_app, Eb'. cbn.
        apply (StronglySorted_filter _ (λ u, u ∉ a_assigned a0)) in Hst.
        destruct (filter (λ u, u ∉ a_assigned a0) qs) as [|u r] eqn:Ef; [done|].
        assert (Hall : ∀ x, x ∈ u :: r ↔ x ∈ Q ∧ x ∉ a_assigned a).
        { intros x. rewrite <-Ef, elem_of_list_filter, Hqs, elem_of_elements, Ea. tauto. }
        apply StronglySorted_inv in Hst as [_ Hr]. rewrite Forall_forall in Hr.
        assert (m ∈ u :: r) as Hmr by (by apply Hall). apply elem_of_cons in Hmr as [->|Hmr]; [done|].
        destruct (Hr m Hmr) as (uv & mv' & Huv & Hmv' & Hlt).
        assert (mv' = mv) as -> by congruence. destruct (proj1 (Hall u)) as [Hu1 Hu2]; [left|].
        pose proof (Hmax u uv Hu1 Hu2 Huv) as Hle. rewrite ver_leb_ltb, Hlt in Hle. done. }
    assert (Ex0 : Q ∖ a_assigned a0 = ∅) by (by rewrite <-Ea).
    (* undetermined *)
    cbn [tick uc_decision uc_clock].
    destruct (best_candidate_spec (S (uc_clock p)) (uc_decision p) a Hdec) as [[Ex2 ->]|(m & mv & -> & Hm & Hna & Hmv & Hmax)];
      rewrite res_bind_ok; cbn beta iota zeta.
    2:{ apply Hret; try done.
        - split; [done|]. cbn. intros v [Hv _]%elem_of_difference. auto.
        - auto.
        - apply uc_follows_none; [|done|done]. apply univ_pos. auto. }
    match goal with |- context [refresh env a cls ?p1] => destruct (Href a p1) as (a2 & p2 & -> & E1 & E2 & E3 & [HQ2 Hdec2] & Eall) end; [done|].
    destruct (best_candidate_spec (uc_clock p2) (uc_decision p2) a2 Hdec2) as [[Ex3 ->]|(m & mv & -> & Hm & Hna & Hmv & Hmax)];
      rewrite res_bind_ok; cbn beta iota zeta.
    2:{ apply Hret; try done.
        - by rewrite <-E3.
        - auto.
        - apply uc_follows_none; [|done|done]. apply univ_pos. auto. }
    (* anything *)
    cbn [tick uc_all uc_clock].
    assert (Hallu : ∀ v, v ∈ uc_all p2 → is_var F v ∨ v ∈ Extra).
    { intros v. rewrite Eall, elem_of_union, !elem_of_list_to_set. intros [Hv|Hv]; [auto|].
      right. apply (ue_extra _ _ _ _ He). by left. }
    destruct (best_candidate_spec (S (uc_clock p2)) (uc_all p2) a2 Hallu) as [[Ex4 ->]|(m & mv & -> & Hm & Hna & Hmv & Hmax)];
      rewrite res_bind_ok; cbn beta iota zeta.
    2:{ apply Hret; try done.
        - by rewrite <-E3.
        - auto.
        - apply uc_follows_none; [|done|done]. apply univ_pos. auto. }
    exfalso. apply Hne0. apply set_eq. intros x. split; [apply (awf_seen _ W0)|]. intros Hx.
    apply dec_stable. intros Hxa.
    assert (x ∈ uc_all p2 → False) as Hnall by (rewrite E3, Ea in Ex4; set_solver).
    destruct (Hse0 x Hx) as [(c & l & Hc & Hl & ->)|Hxe].
    - destruct (Hh c Hc) as (c' & Hc' & Hll); [by intros ->; apply elem_of_nil in Hl|].
      apply Hnall. rewrite Eall, elem_of_union, !elem_of_list_to_set. left.
      apply elem_of_list_fmap. exists l. split; [done|]. apply elem_of_list_join. exists c'. by rewrite Hll.
    - apply (ue_extra _ _ _ _ He) in Hxe as [Hxp|HxQ].
      + apply Hnall. rewrite Eall, elem_of_union, !elem_of_list_to_set. by right.
      + rewrite Ea in Ex. set_solver.
  Qed.
End uc.

(** ** The logging wrapper *)
Lemma logged_policy_good {P} F Extra (Dec : aset → Z → Prop) (pol : policy P) PInv :
  (∀ a a' v, a_data a' = a_data a → a_seen a' = a_seen a → a_assigned a' = a_assigned a →
     Dec a' v → Dec a v) →
  good_policy F Extra Dec pol PInv →
  good_policy F Extra Dec (logged_policy pol) (λ p, PInv p.1.1).
Proof.
  intros HD Hg [[p sg] chs] a cls Hp W H1 H2 H3 H4 H5. unfold logged_policy. cbn in Hp.
  destruct (get_fields a) as (E1 & E2 & E3). destruct (get_changelog a) as [ch a1]. cbn in E1, E2, E3.
  destruct (Hg p a1 cls Hp) as (v & p' & a2 & -> & Hp' & Ed & Es & Ea & Hv & Hva & Hvu & HDv); rewrite ?E2, ?E3; try done.
  { by eapply awf_fields. }
  rewrite res_bind_ok. cbn beta iota.
  destruct (consume_fields a2) as (E1' & E2' & E3'). destruct (consume_changelog a2) as [ch' a3]. cbn in E1', E2', E3'.
  exists v, (p', sg ++ [v], chs ++ [ch]), a3. split; [done|]. split; [done|].
  split; [congruence|]. split; [congruence|]. split; [congruence|]. split; [done|].
  split; [congruence|]. split; [done|]. by apply (HD a a1).
Qed.

Lemma good_policy_weaken {P} F Extra (Dec Dec' : aset → Z → Prop) (pol : policy P) PInv :
  (∀ a v, Dec a v → Dec' a v) → good_policy F Extra Dec pol PInv → good_policy F Extra Dec' pol PInv.
Proof.
  intros H Hg p a cls H0 H1 H2 H3 H4 H5 H6.
  destruct (Hg p a cls H0 H1 H2 H3 H4 H5 H6) as (v & p' & a' & ? & ? & ? & ? & ? & ? & ? & ? & ?).
  exists v, p', a'. auto 20.
Qed.
