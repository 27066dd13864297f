(** * Set-up, search loop, termination, and the results. *)
From Verif Require Export SatRecord.

(** ** The trail determines the levels *)
Section levels.
  Context (D : list Z → Z → Prop).
  Notation TrOk := (TrOk D).

  Lemma tr_lims_lt h lv rs t lims k : TrOk h lv rs t lims → k ∈ lims → (k < length t)%nat.
  Proof.
    induction 1; intros Hk; [by apply elem_of_nil in Hk|..].
    - cbn. specialize (IHTrOk Hk). lia.
    - apply elem_of_cons in Hk as [->|Hk]; cbn; [lia|]. specialize (IHTrOk Hk). lia.
  Qed.

  Lemma tr_levels_det h lv rs h' lv' rs' t : ∀ lims, TrOk h lv rs t lims → TrOk h' lv' rs' t lims →
    ∀ x, x ∈ t → lvl lv' (Z.abs x) = lvl lv (Z.abs x).
  Proof.
    induction t as [|l t IH]; intros lims T T' x Hx; [by apply elem_of_nil in Hx|].
    inversion T as [|? ? ? ? T1 _ _ _ _ _ _ _ E1|? ? lims1 T1 _ _ _ _ E1]; subst;
    inversion T' as [|? ? ? ? T2 _ _ _ _ _ _ _ E2|? ? lims2 T2 _ _ _ _ E2]; subst.
    - apply elem_of_cons in Hx as [->|Hx]; [congruence|]. by eapply IH.
    - exfalso. pose proof (tr_lims_lt _ _ _ _ _ (length t) T1) as Hlt. feed specialize Hlt; [left|lia].
    - exfalso. pose proof (tr_lims_lt _ _ _ _ _ (length t) T2) as Hlt. feed specialize Hlt; [left|lia].
    - apply elem_of_cons in Hx as [->|Hx]; [congruence|]. by eapply IH.
  Qed.

  Lemma tr_suffix_lims h lv rs t1 t2 lims : TrOk h lv rs (t1 ++ t2) lims →
    (∀ k, k ∈ lims → (k < length t2)%nat) → TrOk h lv rs t2 lims.
  Proof.
    induction t1 as [|l t1 IH]; [done|]. intros T Hk.
    inversion T as [|? ? ? ? T1|? ? lims1 T1]; subst; [by apply IH|].
    exfalso. specialize (Hk (length (t1 ++ t2)) ltac:(left)). rewrite app_length in Hk. lia.
  Qed.
End levels.

Section search.
  Context (R : list (list Z * option rule)) (Extra : gset Z) (D : list Z → Z → Prop).
  Let F := R.*1.
  Notation HeapOk := (HeapOk F Extra).
  Notation core := (core F Extra D).
  Notation Core := (Core F Extra D).
  Notation Inv := (Inv F Extra D).
  Notation AsgOk := (AsgOk F Extra).
  Notation univ := (univ F Extra).
  Notation Conf := (Conf F Extra D).
  Notation TrOk := (TrOk D).
  Notation Ready := (Ready F Extra D).
  Notation uset := (uset F Extra).

  (** ** The measure *)
  Definition nvars : nat := size uset.
  (** The level at the end of a trail. *)
  Definition top (lv : gmap Z Z) (t : list Z) : Z := match t with [] => 0 | l :: _ => lvl lv (Z.abs l) end.
  (** The trail, read from the oldest literal on as a word over decision < implied, and its number among the words of length at most [nvars] in
      lexicographic order. *)
  Fixpoint rk (lv : gmap Z Z) (t : list Z) : nat :=
    match t with [] => 0 | l :: t => rk lv t + (if decide (lvl lv (Z.abs l) = top lv t) then 2 ^ (nvars - length t) else 1) end.
  Definition mu (s : solver) : nat := rk (s_levels s) (s_trail s).

  Lemma rk_ext lv lv' t : (∀ x, x ∈ t → lvl lv' (Z.abs x) = lvl lv (Z.abs x)) → rk lv' t = rk lv t.
  Proof.
    induction t as [|l t IH]; intros H; [done|]. cbn [rk]. rewrite IH by (intros; apply H; by right). rewrite (H l) by left.
    assert (top lv' t = top lv t) as ->; [|done]. destruct t as [|x t]; [done|]. apply H. right; left.
  Qed.
  Lemma pow2_pos k : (0 < 2 ^ k)%nat.
  Proof. apply Nat.neq_0_lt_0, Nat.pow_nonzero. lia. Qed.
  Lemma rk_cons lv l t : (rk lv t < rk lv (l :: t))%nat.
  Proof. cbn [rk]. pose proof (pow2_pos (nvars - length t)). case_decide; lia. Qed.
  Lemma rk_app lv t1 t : (rk lv t ≤ rk lv (t1 ++ t))%nat.
  Proof. induction t1 as [|l t1 IH]; [done|]. cbn [app]. pose proof (rk_cons lv l (t1 ++ t)). lia. Qed.
  (** Literals after [t] add less than the next implied literal followed by nothing would. *)
  Lemma rk_le lv t t1 : (length (t1 ++ t) ≤ S nvars)%nat →
    (rk lv (t1 ++ t) + 2 ^ (S nvars - length (t1 ++ t)) ≤ rk lv t + 2 ^ (S nvars - length t))%nat.
  Proof.
    induction t1 as [|l t1 IH]; intros Hl; [done|]. cbn [app length] in *. specialize (IH ltac:(lia)). cbn [rk].
    replace (S nvars - S (length (t1 ++ t)))%nat with (nvars - length (t1 ++ t))%nat by lia.
    replace (S nvars - length (t1 ++ t))%nat with (S (nvars - length (t1 ++ t))) in IH by lia. rewrite Nat.pow_succ_r' in IH.
    pose proof (pow2_pos (nvars - length (t1 ++ t))). case_decide; lia.
  Qed.

  Lemma mu_bound s : core s → (mu s ≤ 2 ^ S nvars - 2)%nat.
  Proof.
    intros C. pose proof (trail_bound _ _ _ _ C) as B. fold nvars in B. pose proof (rk_le (s_levels s) [] (s_trail s)) as H. rewrite app_nil_r in H.
    specialize (H ltac:(lia)). cbn [rk length] in H. rewrite Nat.sub_0_r in H. unfold mu.
    replace (S nvars - length (s_trail s))%nat with (S (nvars - length (s_trail s))) in H by lia. rewrite Nat.pow_succ_r' in H.
    pose proof (pow2_pos (nvars - length (s_trail s))). lia.
  Qed.

  Lemma tr_top h lv rs t lims : TrOk h lv rs t lims → top lv t = Z.of_nat (length lims).
  Proof. by induction 1. Qed.
  Lemma tr_suffix h lv rs t1 t lims : TrOk h lv rs (t1 ++ t) lims → ∃ lims', TrOk h lv rs t lims'.
  Proof. revert lims. induction t1 as [|l t1 IH]; intros lims H; [eauto|]. inversion H; subst; eauto. Qed.
  Lemma tr_step h lv rs l t lims : TrOk h lv rs (l :: t) lims → lvl lv (Z.abs l) = top lv t ∨ lvl lv (Z.abs l) = top lv t + 1.
  Proof. intros H. inversion H as [|? ? ? ? H'|? ? ? H']; subst; rewrite (tr_top _ _ _ _ _ H'); [by left|right; lia]. Qed.
  Lemma top_ext lv lv' t : (∀ x, x ∈ t → lvl lv' (Z.abs x) = lvl lv (Z.abs x)) → top lv' t = top lv t.
  Proof. destruct t as [|x t]; intros H; [done|]. apply H. left. Qed.

  Lemma mu_learn s s' i b : core s → core s' → Learned s s' i b → (mu s < mu s')%nat.
  Proof.
    intros C C' Ln. pose proof (trail_bound _ _ _ _ C) as B. fold nvars in B.
    destruct (ln_tr _ _ _ _ Ln) as (p & t1 & tb & E1 & E2 & H1 & H2 & H3). pose proof (ln_b _ _ _ _ Ln) as Hb.
    pose proof (co_tr _ _ _ _ _ _ _ _ _ _ C) as T. pose proof (co_tr _ _ _ _ _ _ _ _ _ _ C') as T'.
    destruct t1 as [|x t1 _] using rev_ind.
    { (* nothing was taken back: then the level of the trail would be too large *)
      exfalso. cbn in E1. rewrite E1 in T. rewrite E2 in T'. pose proof (tr_top _ _ _ _ _ T) as Ht. pose proof (tr_step _ _ _ _ _ _ T') as Hs.
      rewrite (top_ext _ _ tb H2), H3 in Hs. lia. }
    rewrite <-app_assoc in E1. cbn in E1. unfold mu. rewrite E1, E2.
    assert (Hx : Z.of_nat b < lvl (s_levels s) (Z.abs x)) by (apply H1, elem_of_app; right; left).
    assert (Htop : top (s_levels s) tb = Z.of_nat b).
    { rewrite E1 in T. destruct (tr_suffix _ _ _ _ _ _ T) as [lims1 T1]. pose proof (tr_step _ _ _ _ _ _ T1) as Hs1.
      rewrite E2 in T'. pose proof (tr_step _ _ _ _ _ _ T') as Hs. rewrite (top_ext _ _ tb H2), H3 in Hs. lia. }
    rewrite E1, app_length in B. cbn in B.
    pose proof (rk_le (s_levels s) (x :: tb) t1) as H. rewrite app_length in H. specialize (H ltac:(cbn; lia)). cbn [rk length] in H |- *.
    rewrite (rk_ext _ _ tb H2), (top_ext _ _ tb H2), H3, Htop in *. rewrite decide_False in H by lia. rewrite decide_True by done.
    replace (S nvars - S (length tb))%nat with (nvars - length tb)%nat in H by lia.
    replace (S nvars - (length t1 + S (length tb)))%nat with (S (nvars - (length t1 + S (length tb)))) in H by lia. rewrite Nat.pow_succ_r' in H.
    pose proof (pow2_pos (nvars - (length t1 + S (length tb)))). lia.
  Qed.

  Lemma mu_fr s s' : core s → core s' → Fr s s' → (mu s ≤ mu s')%nat.
  Proof.
    intros C C' Hf. destruct (fr_tr _ _ Hf) as [t E].
    pose proof (co_tr _ _ _ _ _ _ _ _ _ _ C) as T. pose proof (co_tr _ _ _ _ _ _ _ _ _ _ C') as T'.
    rewrite E, (fr_lims _ _ Hf) in T'.
    assert (T2 : TrOk (s_heap s') (s_levels s') (s_reasons s') (s_trail s) (s_lims s)).
    { eapply tr_suffix_lims; [done|]. intros k. by eapply tr_lims_lt. }
    unfold mu. rewrite E, <-(rk_ext _ _ (s_trail s) (tr_levels_det _ _ _ _ _ _ _ _ _ T T2)). apply rk_app.
  Qed.

  (** ** The added clauses are held *)
  Definition holds_clause (s : solver) (c : list Z) (r : option rule) : Prop :=
    ∃ i cl, i ∈ s_clauses s ∧ s_heap s !! i = Some cl ∧ c_learned cl = false ∧ c_rule cl = r ∧
            ∀ x, x ∈ c_lits cl ↔ x ∈ c.
  (** Where a clause object comes from: the dummy cause of decisions, an added clause with its rule,
      or a learned clause with a trail of older clauses. *)
  Definition prov (done : list (list Z * option rule)) (s : solver) (i : nat) (cl : clause) : Prop :=
    (i = 0%nat ∧ c_learned cl = false ∧ c_rule cl = None) ∨
    (i ≠ 0%nat ∧ c_learned cl = false ∧ ∃ c, (c, c_rule cl) ∈ done ∧ ∀ x, x ∈ c_lits cl ↔ x ∈ c) ∨
    (c_learned cl = true ∧ c_rule cl = None ∧
     ∃ t, s_ctrails s !! i = Some t ∧ ∀ j, j ∈ t → (j < i)%nat ∧ (j = 0%nat ∨ j ∈ s_clauses s)).
  Record Held (done : list (list Z * option rule)) (s : solver) : Prop := {
    he_all : ∀ c r, (c, r) ∈ done → c ≠ [] → holds_clause s c r;
    he_orig : ∀ i cl, i ∈ s_clauses s → s_heap s !! i = Some cl → c_learned cl = false →
                ∃ c, (c, c_rule cl) ∈ done ∧ ∀ x, x ∈ c_lits cl ↔ x ∈ c;
    he_learned : ∀ i cl, i ∈ s_clauses s → s_heap s !! i = Some cl → c_learned cl = true →
                is_Some (s_ctrails s !! i);
    he_prov : ∀ i cl, s_heap s !! i = Some cl → prov done s i cl;
    he_rs : ∀ v i, s_reasons s !! v = Some i → i = 0%nat ∨ i ∈ s_clauses s }.

  Lemma fr_lookup s s' i cl' : Fr s s' → s_heap s' !! i = Some cl' →
    ∃ cl, s_heap s !! i = Some cl ∧ c_learned cl = c_learned cl' ∧ c_rule cl = c_rule cl' ∧
          ∀ x, x ∈ c_lits cl' ↔ x ∈ c_lits cl.
  Proof.
    intros Hf E. pose proof (fr_meta _ _ Hf i) as Hm. unfold meta in Hm. rewrite E in Hm.
    destruct (s_heap s !! i) as [cl|] eqn:E'; [|done]. exists cl. cbn in Hm. injection Hm as -> ->.
    split; [done|]. split; [done|]. split; [done|]. intros x. pose proof (fr_mem _ _ Hf i x) as Hx.
    unfold hl in Hx. by rewrite E, E' in Hx.
  Qed.
  Lemma fr_lookup' s s' i cl : Fr s s' → s_heap s !! i = Some cl →
    ∃ cl', s_heap s' !! i = Some cl' ∧ c_learned cl = c_learned cl' ∧ c_rule cl = c_rule cl' ∧
          ∀ x, x ∈ c_lits cl' ↔ x ∈ c_lits cl.
  Proof.
    intros Hf E. assert (is_Some (s_heap s' !! i)) as [cl' E'].
    { apply lookup_lt_is_Some. rewrite (fr_len _ _ Hf). by eapply lookup_lt_Some. }
    exists cl'. split; [done|]. destruct (fr_lookup _ _ _ _ Hf E') as (cl2 & E2 & H).
    rewrite E in E2. injection E2 as <-. done.
  Qed.

  Lemma held_fr dn s s' : Held dn s → Fr s s' → Held dn s'.
  Proof.
    intros [H1 H2 H3 H4 H5] Hf. split.
    - intros c r Hc Hne. destruct (H1 c r Hc Hne) as (i & cl & Hi & E & Hl & Hr & Hx).
      destruct (fr_lookup' _ _ _ _ Hf E) as (cl' & E' & El & Er & Hx'). exists i, cl'.
      rewrite (fr_cls _ _ Hf). split; [done|]. split; [done|]. split; [congruence|]. split; [congruence|].
      intros x. by rewrite Hx'.
    - intros i cl Hi E Hl. rewrite (fr_cls _ _ Hf) in Hi.
      destruct (fr_lookup _ _ _ _ Hf E) as (cl' & E' & El & Er & Hx').
      destruct (H2 i cl' Hi E') as (c & Hc & Hx); [congruence|]. exists c. rewrite <-Er. split; [done|].
      intros x. by rewrite Hx'.
    - intros i cl Hi E Hl. rewrite (fr_cls _ _ Hf) in Hi. rewrite (fr_ctr _ _ Hf).
      destruct (fr_lookup _ _ _ _ Hf E) as (cl' & E' & El & Er & Hx').
      eapply H3; [done..|]. congruence.
    - intros i cl E. destruct (fr_lookup _ _ _ _ Hf E) as (cl' & E' & El & Er & Hx').
      unfold prov. rewrite (fr_ctr _ _ Hf), (fr_cls _ _ Hf).
      destruct (H4 i cl' E') as [(?&?&?)|[(?&?&c&?&Hc)|(?&?&?)]].
      + left. rewrite <-El, <-Er. done.
      + right; left. rewrite <-El, <-Er. split; [done|]. split; [done|]. exists c. split; [done|]. intros x. by rewrite Hx'.
      + right; right. rewrite <-El, <-Er. done.
    - intros v i Hi. rewrite (fr_cls _ _ Hf). apply (fr_rs _ _ Hf) in Hi as [Hi|Hi]; [by eapply H5|by right].
  Qed.

  Lemma held_learned dn s s' i b : core s → Held dn s → Learned s s' i b → Held dn s'.
  Proof.
    intros C [H1 H2 H3 H4 H5] Ln.
    pose proof (cl_range _ _ _ _ (co_cls _ _ _ _ _ _ _ _ _ _ C)) as Hr.
    destruct (ln_ctr _ _ _ _ Ln) as (ctr & Ectr & Hctr).
    destruct (ln_new _ _ _ _ Ln) as (cn & En & Eln & Ern).
    split.
    - intros c r Hc Hne. destruct (H1 c r Hc Hne) as (j & cl & Hj & E & ?). exists j, cl.
      rewrite (ln_cls _ _ _ _ Ln). split; [apply elem_of_app; by left|].
      rewrite (ln_old _ _ _ _ Ln) by (apply Hr; done). done.
    - intros j cl Hj E Hl. rewrite (ln_cls _ _ _ _ Ln) in Hj. apply elem_of_app in Hj as [Hj|Hj].
      + rewrite (ln_old _ _ _ _ Ln) in E by (apply Hr; done). by eapply H2.
      + apply elem_of_list_singleton in Hj as ->. congruence.
    - intros j cl Hj E Hl. rewrite Ectr. destruct (decide (j = i)) as [->|]; [rewrite lookup_insert; eauto|].
      rewrite lookup_insert_ne by done. rewrite (ln_cls _ _ _ _ Ln) in Hj.
      apply elem_of_app in Hj as [Hj|Hj%elem_of_list_singleton]; [|done].
      rewrite (ln_old _ _ _ _ Ln) in E by (apply Hr; done). by eapply H3.
    - intros j cl E. destruct (decide (j = i)) as [->|Hj].
      + right; right. rewrite En in E. injection E as <-. split; [done|]. split; [done|].
        exists ctr. rewrite Ectr, lookup_insert. split; [done|].
        assert (Hc : ∀ k, k ∈ s_clauses s → (k < i)%nat).
        { intros k Hk. rewrite (ln_i _ _ _ _ Ln). by apply Hr. }
        assert (Hc' : ∀ k, k ∈ s_clauses s → k ∈ s_clauses s').
        { intros k Hk. rewrite (ln_cls _ _ _ _ Ln). apply elem_of_app. by left. }
        intros k Hk. destruct (Hctr k Hk) as [Hk'|[v Hv]]; [auto|].
        destruct (H5 _ _ Hv) as [->|?]; [|auto].
        pose proof (h_nil _ _ _ (co_heap _ _ _ _ _ _ _ _ _ _ C)). rewrite (ln_i _ _ _ _ Ln).
        split; [lia|by left].
      + assert (Hl : (j < length (s_heap s))%nat).
        { apply lookup_lt_Some in E. rewrite (ln_len _ _ _ _ Ln) in E. rewrite (ln_i _ _ _ _ Ln) in Hj. lia. }
        rewrite (ln_old _ _ _ _ Ln) in E by done. specialize (H4 _ _ E). unfold prov.
        rewrite Ectr, lookup_insert_ne by done. destruct H4 as [?|[?|(?&?&t&?&Ht)]]; [by left|by right; left|].
        right; right. split; [done|]. split; [done|]. exists t. split; [done|]. intros k Hk.
        destruct (Ht k Hk) as [? [->|?]]; split; [done|by left|done|right].
        rewrite (ln_cls _ _ _ _ Ln). apply elem_of_app. by left.
    - intros v j Hj. destruct (ln_rs _ _ _ _ Ln) as [w Hw]. rewrite Hw in Hj.
      rewrite (ln_cls _ _ _ _ Ln), elem_of_app, elem_of_list_singleton.
      destruct (decide (v = w)) as [->|Hne].
      + rewrite lookup_insert in Hj. injection Hj as <-. auto.
      + rewrite lookup_insert_ne in Hj by done. apply H5 in Hj as [?|?]; auto.
  Qed.

  Lemma held_same dn s s' : Held dn s → s_heap s' = s_heap s → s_clauses s' = s_clauses s →
    s_ctrails s' = s_ctrails s →
    (∀ v i, s_reasons s' !! v = Some i → s_reasons s !! v = Some i ∨ i = 0%nat) → Held dn s'.
  Proof.
    intros [H1 H2 H3 H4 H5] E1 E2 E3 E4. split; unfold holds_clause, prov in *; rewrite ?E1, ?E2, ?E3; try done.
    intros v i Hi. destruct (E4 v i Hi) as [?|?]; [by eapply H5|by left].
  Qed.

  (** ** Adding the clauses *)
  Record SInv (dn : list (list Z * option rule)) (s : solver) : Prop := {
    si_ready : Ready s;
    si_lims : s_lims s = [];
    si_queue : ∀ l, l ∈ s_trail s → l ∈ s_queue s;
    si_held : Held dn s }.

  Lemma solver_new_ok : SInv [] solver_new.
  Proof.
    split; [|done|by intros ? ?|].
    - split; cbn.
      + split; cbn.
        * split; cbn.
          -- done.
          -- lia.
          -- intros [|i]; constructor.
          -- intros [|i] x Hx; by apply elem_of_nil in Hx.
          -- intros i ??. lia.
        * split; [intros ? Hx|intros ? Hx|intros ? ? Hx]; by apply elem_of_nil in Hx.
        * constructor.
        * split; [apply awf_empty| |].
          -- intros l. cbn. unfold aset_value. cbn. rewrite lookup_empty. split; [done|]. intros Hx. by apply elem_of_nil in Hx.
          -- intros v Hv. by apply elem_of_empty in Hv.
      + split; intros l; rewrite ewatch0, lookup_empty; cbn; [constructor|].
        intros i. rewrite !elem_of_nil. tauto.
      + intros i x y r w o Hi. by apply elem_of_nil in Hi.
      + split; [done|]. intros l Hl. by apply elem_of_nil in Hl.
    - split; [intros c r Hc|intros i cl Hi|intros i cl Hi|intros i cl Hi|intros v i Hi]; cbn in *.
      + by apply elem_of_nil in Hc.
      + by apply elem_of_nil in Hi.
      + by apply elem_of_nil in Hi.
      + apply list_lookup_singleton_Some in Hi as [-> <-]. by left.
      + done.
  Qed.

  Lemma held_add dn s s' c r : core s → Held dn s → 
    let i := length (s_heap s) in
    s_heap s' = s_heap s ++ [mk_clause c false r] → s_ctrails s' = s_ctrails s →
    (s_clauses s' = s_clauses s ++ [i] ∨ c = [] ∧ s_clauses s' = s_clauses s) →
    (∀ v j, s_reasons s' !! v = Some j → s_reasons s !! v = Some j ∨ j ∈ s_clauses s') →
    Held (dn ++ [(c, r)]) s'.
  Proof.
    intros C [H1 H2 H3 H4 H5] i Eh Ect Ec Er.
    pose proof (cl_range _ _ _ _ (co_cls _ _ _ _ _ _ _ _ _ _ C)) as Hr.
    assert (Hin : ∀ j, j ∈ s_clauses s → j ∈ s_clauses s').
    { intros j Hj. destruct Ec as [->|[_ ->]]; [apply elem_of_app; by left|done]. }
    assert (Hin' : ∀ j, j ∈ s_clauses s' → j ∈ s_clauses s ∨ j = i).
    { intros j. destruct Ec as [->|[_ ->]]; [|auto]. rewrite elem_of_app, elem_of_list_singleton. done. }
    assert (Ei : s_heap s' !! i = Some (mk_clause c false r)).
    { rewrite Eh. unfold i. by rewrite lookup_app_r, Nat.sub_diag by lia. }
    assert (Eo : ∀ j, j ∈ s_clauses s → s_heap s' !! j = s_heap s !! j).
    { intros j Hj. rewrite Eh. apply lookup_app_l. by apply Hr. }
    split.
    - intros c' r' [Hc|Hc]%elem_of_app Hne.
      + destruct (H1 c' r' Hc Hne) as (j & cl & Hj & E & ?). exists j, cl.
        split; [auto|]. by rewrite Eo.
      + apply elem_of_list_singleton in Hc as [= -> ->]. exists i, (mk_clause c false r).
        split; [|split; [done|split; [done|split; [done|]]]].
        * destruct Ec as [->|[? _]]; [apply elem_of_app; right; left|done].
        * intros x. cbn. apply elem_of_fromkeys.
    - intros j cl Hj E Hl. apply Hin' in Hj as [Hj| ->].
      + rewrite Eo in E by done. destruct (H2 j cl Hj E Hl) as (c' & Hc & ?). exists c'.
        split; [apply elem_of_app; by left|done].
      + rewrite Ei in E. injection E as <-. exists c. split; [apply elem_of_app; right; left|].
        intros x. cbn. apply elem_of_fromkeys.
    - intros j cl Hj E Hl. rewrite Ect. apply Hin' in Hj as [Hj| ->].
      + rewrite Eo in E by done. by eapply H3.
      + rewrite Ei in E. injection E as <-. done.
    - intros j cl E. unfold prov. rewrite Ect. destruct (decide (j = i)) as [->|Hj].
      + rewrite Ei in E. injection E as <-. right; left.
        split; [pose proof (h_nil _ _ _ (co_heap _ _ _ _ _ _ _ _ _ _ C)); unfold i; lia|].
        split; [done|]. exists c. split; [apply elem_of_app; right; left|]. intros x. cbn. apply elem_of_fromkeys.
      + rewrite Eh in E. rewrite lookup_app_l in E.
        2:{ apply lookup_lt_Some in E. rewrite app_length in E. cbn in E. unfold i in Hj. lia. }
        destruct (H4 j cl E) as [?|[(?&?&c'&?&?)|(?&?&t&?&Ht)]]; [by left|right; left|right; right].
        * split; [done|]. split; [done|]. exists c'. split; [apply elem_of_app; by left|done].
        * split; [done|]. split; [done|]. exists t. split; [done|]. intros k Hk.
          destruct (Ht k Hk) as [? [->|?]]; split; [done|by left|done|right; auto].
    - intros v j Hj. apply Er in Hj as [Hj|?]; [|by right]. apply H5 in Hj as [?|?]; [by left|right; auto].
  Qed.

  (** What the report about unsatisfiability is built from. *)
  Record UnsatOk (dn : list (list Z * option rule)) (c l : nat) (s : solver) : Prop := {
    uo_prov : ∀ i cl, s_heap s !! i = Some cl → prov dn s i cl;
    uo_cls : ∀ i, i ∈ s_clauses s → i ≠ 0%nat ∧ (i < length (s_heap s))%nat ∧ hl (s_heap s) i ≠ [];
    uo_rs : ∀ v i, s_reasons s !! v = Some i → i = 0%nat ∨ i ∈ s_clauses s;
    uo_nz : hl (s_heap s) 0 = [];
    uo_c : c ∈ s_clauses s ∨ c = l;
    uo_l : l ≠ 0%nat ∧ (l < length (s_heap s))%nat;
    uo_unit : ∃ x i, hl (s_heap s) l = [x] ∧ s_reasons s !! Z.abs x = Some i ∧ i ∈ s_clauses s }.
  Lemma uo_mono dn dn' c l s : UnsatOk dn c l s → (∀ x, x ∈ dn → x ∈ dn') → UnsatOk dn' c l s.
  Proof.
    intros [H1 H2 H3 H4 H5 H6 H7] Hd. split; try done. intros i cl E.
    destruct (H1 i cl E) as [?|[(?&?&c'&?&?)|?]]; [by left|right; left|by right; right].
    split; [done|]. split; [done|]. exists c'. auto.
  Qed.
  Lemma tr_reason_in (D' : list Z → Z → Prop) h lv rs t lims l : SatInv.TrOk D' h lv rs t lims → l ∈ t → ∃ i, rs !! Z.abs l = Some i.
  Proof. induction 1; [by intros ?%elem_of_nil|..]; intros [->|?]%elem_of_cons; eauto. Qed.

  Lemma add_clause_spec dn s c r : SInv dn s → c ∈ F → (∀ l, l ∈ c → l ≠ 0) →
    (∃ s', add_clause c r s = Ok (Normal s') ∧ SInv (dn ++ [(c, r)]) s') ∨
    (∃ i l s', add_clause c r s = Ok (Unsat i l s') ∧ ¬ satisfiable (nonempty F) ∧ UnsatOk (dn ++ [(c, r)]) i l s').
  Proof.
    intros [Rd El Hq Hh] Hc Hnz. pose proof Rd as [C W H5 Q]. pose proof C as [Ch Cc Ct Ca].
    set (i := length (s_heap s)). set (cl := mk_clause c false r).
    set (s1 := snd (alloc cl s)).
    assert (Hu : ∀ x, x ∈ c_lits cl → x ≠ 0 ∧ univ (Z.abs x)).
    { intros x Hx. cbn in Hx; rewrite elem_of_fromkeys in Hx. split; [auto|]. left. exists c, x. done. }
    assert (Hh1 : HeapOk (s_heap s1)).
    { apply heap_ok_app; try done.
      - apply NoDup_fromkeys.
      - intros Hcne f Hf. assert (c ≠ []) as Hcne' by (intros ->; done).
        destruct (Hf c) as (l & Hl & ?); [by apply elem_of_nonempty|]. exists l. split; [|done]. by apply elem_of_fromkeys. }
    assert (Hni : i ∉ s_clauses s).
    { intros Hi. apply (cl_range _ _ _ _ Cc) in Hi. unfold i in Hi. lia. }
    assert (Ehi : hl (s_heap s1) i = c_lits cl) by apply hl_app_new.
    assert (Eold : ∀ j, j ∈ s_clauses s → hl (s_heap s1) j = hl (s_heap s) j).
    { intros j Hj. apply hl_app. by apply (cl_range _ _ _ _ Cc). }
    assert (Hi0 : i ≠ 0%nat) by (pose proof (h_nil _ _ _ Ch); unfold i; lia).
    assert (Hil : (i < length (s_heap s1))%nat) by (cbn; rewrite app_length; cbn; unfold i; lia).
    assert (T1 : TrOk (s_heap s1) (s_levels s) (s_reasons s) (s_trail s) (s_lims s)).
    { eapply tr_ext; [done| | |done].
      - intros j x Hj. cbn. by rewrite hl_app.
      - cbn. rewrite app_length. lia. }
    assert (Hlev0 : ∀ l, l ∈ s_trail s → lvl (s_levels s) (Z.abs l) = 0).
    { intros l Hl. pose proof (tr_level _ _ _ _ Ct Hl) as Hlv. rewrite El in Hlv. cbn in Hlv. lia. }
    assert (Hw5 : ∀ h' cls' q, (∀ l, l ∈ s_trail s → l ∈ q) →
       W5 h' cls' (s_levels s) (s_trail s) (ex_prop q 0 [])).
    { intros h' cls' q Hq' j x y rr w o _ _ _ Hw. left. left. auto. }
    (* the clauses with the new one *)
    assert (Cc1 : ∀ cls', (∀ j, j ∈ cls' → j ∈ s_clauses s ∨ j = i) →
        (i ∈ cls' → c_lits cl ≠ [] ∧ ∀ l, c_lits cl = [l] → l ∈ s_trail s) →
        ClsOk (s_heap s1) cls' (s_levels s) (s_trail s)).
    { intros cls' Hcls Hnew. split.
      - intros j Hj. destruct (Hcls j Hj) as [Hj'| ->]; [|done].
        destruct (cl_range _ _ _ _ Cc j Hj') as [? ?]. split; [done|]. cbn. rewrite app_length. lia.
      - intros j Hj. destruct (Hcls j Hj) as [Hj'| ->].
        + rewrite Eold by done. by apply (cl_ne _ _ _ _ Cc).
        + rewrite Ehi. by apply Hnew.
      - intros j l Hj E. destruct (Hcls j Hj) as [Hj'| ->].
        + rewrite Eold in E by done. by eapply (cl_unit _ _ _ _ Cc).
        + rewrite Ehi in E. destruct (Hnew Hj) as [_ Hn]. pose proof (Hn l E). split; [done|]. by apply Hlev0. }
    unfold add_clause. change (alloc (mk_clause c false r) s) with (i, s1). cbn beta iota.
    unfold add_clause_ref. change (lits_of s1 i) with (hl (s_heap s1) i). rewrite Ehi.
    destruct (c_lits cl) as [|x [|y rest]] eqn:Ecl.
    - (* empty clause *)
      left. eexists. split; [done|]. split; [|done|done|].
      + split; cbn; [| | |done].
        * split; cbn; [done| |done|done]. apply (Cc1 (s_clauses s)); [auto|done].
        * split; [apply (wa_nodup _ _ _ _ _ W)|]. intros l j. rewrite (wa_iff _ _ _ _ _ W). split.
          -- intros [Hj Hwl]. rewrite Eold by done. done.
          -- intros [Hj Hwl]. rewrite Eold in Hwl by done. done.
        * apply Hw5. done.
      + eapply held_add; try done; [|by auto]. right. split; [|done].
        destruct c as [|z c]; [done|]. unfold cl, mk_clause in Ecl. cbn in Ecl. done.
    - (* unit clause *)
      destruct (Hu x) as [Hx0 Hxu]; [left|].
      destruct (decide (x ∈ s_trail s)) as [Hxt|Hxt]; [|destruct (decide (- x ∈ s_trail s)) as [Hxf|Hxf]].
      + unfold enqueue. assert (aset_value (s_asg s1) x = Some true) as -> by by apply (ao_val _ _ _ _ Ca).
        rewrite res_bind_ok. left. eexists. split; [done|]. split; [|done|done|].
        * split; cbn; [|  | |done].
          -- split; cbn; [done| |done|done]. apply Cc1.
             ++ intros j. rewrite elem_of_app, elem_of_list_singleton. done.
             ++ intros _. split; [done|]. by intros l [= <-].
          -- eapply wat_add_unit; [done|done|done|exact Ehi].
          -- apply Hw5. done.
        * eapply held_add; try done; [by left|by auto].
      + unfold enqueue. assert (aset_value (s_asg s1) x = Some false) as -> by by apply (asg_false _ _ _ _ _ Ca).
        rewrite res_bind_ok. right. eexists _, _, _. split; [done|]. split; cycle 1.
        { assert (Hcl : ∀ j, j ∈ s_clauses s → (j < length (s_heap s))%nat) by (intros; by apply (cl_range _ _ _ _ Cc)).
          split.
          - intros j cl' E. cbn in E. unfold prov. cbn.
            destruct (decide (j = i)) as [->|Hj].
            + unfold i in E. rewrite lookup_app_r, Nat.sub_diag in E by lia. injection E as <-. right; left.
              split; [done|]. split; [done|]. exists c. split; [apply elem_of_app; right; left|]. intros z. cbn. apply elem_of_fromkeys.
            + rewrite lookup_app_l in E.
              2:{ apply lookup_lt_Some in E. rewrite app_length in E. cbn in E. unfold i in Hj. lia. }
              destruct (he_prov _ _ Hh j cl' E) as [?|[(?&?&c'&?&?)|?]]; [by left|right; left|by right; right].
              split; [done|]. split; [done|]. exists c'. split; [apply elem_of_app; by left|done].
          - intros j Hj. cbn in Hj. rewrite Eold by done. split; [by apply (cl_range _ _ _ _ Cc)|].
            split; [|by apply (cl_ne _ _ _ _ Cc)]. cbn. rewrite app_length. specialize (Hcl j Hj). lia.
          - intros v j. apply (he_rs _ _ Hh).
          - apply (h_zero _ _ _ Hh1).
          - by right.
          - done.
          - exists x. destruct (tr_reason_in _ _ _ _ _ _ _ T1 Hxf) as [j Ej]. rewrite Z.abs_opp in Ej.
            exists j. split; [done|]. split; [done|]. destruct (he_rs _ _ Hh _ _ Ej) as [->|?]; [|done].
            rewrite El in T1. exfalso. eapply no_dec_level0; [exact T1|exact Hxf|]. by rewrite Z.abs_opp. }
        intros [f Hf].
        destruct (h_ent _ _ _ Hh1 i Hi0 Hil ltac:(by rewrite Ehi) f Hf) as (z & Hz & Hzt). rewrite Ehi in Hz.
        apply elem_of_list_singleton in Hz as ->.
        assert (lit_true f (- x)) as Hcon.
        { rewrite El in T1.
          eapply (tr_entail _ _ _ _ _ _ _ _ f (lvl (s_levels s) (Z.abs (- x))) Hh1 T1 Hf); [|done|done].
          intros d Hd1 Hd2. by eapply no_dec_level0 in Hd2. }
        by apply lit_true_opp in Hcon.
      + destruct (enqueue_spec F Extra s1 x i) as (a' & -> & A' & Hs); try done.
        rewrite res_bind_ok. left. eexists. split; [done|]. split.
        * assert (C1 : Core (s_heap s1) (s_clauses s) (s_asg s1) (s_levels s1) (s_trail s1) (s_lims s1) (s_reasons s1)).
          { split; cbn; [done| |done|done]. apply (Cc1 (s_clauses s)); [auto|done]. }
          eapply (core_push _ _ _ _ _ _ _ _ _ _ x i a') in C1; try done; cycle 1.
          { rewrite Ehi. left. }
          { rewrite Ehi. intros z ->%elem_of_list_singleton. done. }
          split; cbn.
          -- destruct C1 as [K1 K2 K3 K4]. split; cbn; try done. split.
             ++ intros j [Hj|Hj]%elem_of_app; [by apply (cl_range _ _ _ _ K2)|].
                apply elem_of_list_singleton in Hj as ->. done.
             ++ intros j [Hj|Hj]%elem_of_app; [by apply (cl_ne _ _ _ _ K2)|].
                apply elem_of_list_singleton in Hj as ->. cbn in Ehi. rewrite Ehi. done.
             ++ intros j l [Hj|Hj]%elem_of_app E; [by apply (cl_unit _ _ _ _ K2 j)|].
                apply elem_of_list_singleton in Hj as ->. cbn in Ehi. rewrite Ehi in E. injection E as <-.
                split; [left|]. rewrite lvl_insert. unfold decision_level. cbn. by rewrite El.
          -- eapply wat_add_unit; [done|done|done|exact Ehi].
          -- intros j x' y' r' w o _ _ _ Hw. left. left. apply elem_of_app.
             apply elem_of_cons in Hw as [->|Hw]; [right; left|left; auto].
          -- destruct Q as [Q1 Q2]. split; [cbn; rewrite app_length; cbn; lia|].
             intros l [Hl|Hl]%elem_of_app.
             ++ destruct (Q2 l Hl) as [Hl1 Hl2]. split; [by right|].
                rewrite lvl_insert_ne; [done|]. intros E. by eapply (abs_ne_in (s_trail s) x l).
             ++ apply elem_of_list_singleton in Hl as ->. split; [left|]. by rewrite lvl_insert.
        * done.
        * cbn. intros l [->|Hl]%elem_of_cons; apply elem_of_app; [right; left|left; auto].
        * eapply held_add; try done; [by left|]. cbn. intros v j. destruct (decide (v = Z.abs x)) as [->|].
          -- rewrite lookup_insert. intros [= <-]. right. apply elem_of_app. right. left.
          -- rewrite lookup_insert_ne by done. by left.
    - (* at least two literals *)
      left. eexists. split; [done|]. 
      assert (Hxy : x ≠ y).
      { pose proof (h_nodup _ _ _ Hh1 i) as N. rewrite Ehi in N. apply NoDup_cons in N as [N _].
        intros ->. apply N. left. }
      split; [|done|done|].
      + split; cbn; [| | |done].
        * split; cbn; [done| |done|done]. apply Cc1.
          -- intros j. rewrite elem_of_app, elem_of_list_singleton. done.
          -- intros _. split; [done|]. by intros l [=].
        * eapply (wat_add (s_heap s)); [done|done|done|exact Ehi|done].
        * apply Hw5. done.
      + eapply held_add; try done; [by left|by auto].
  Qed.

  Lemma add_clauses_spec rs : ∀ dn s, SInv dn s → (∀ c r, (c, r) ∈ rs → c ∈ F ∧ ∀ l, l ∈ c → l ≠ 0) →
    (∃ s', add_clauses rs s = Ok (Normal s') ∧ SInv (dn ++ rs) s') ∨
    (∃ i l s', add_clauses rs s = Ok (Unsat i l s') ∧ ¬ satisfiable (nonempty F) ∧ UnsatOk (dn ++ rs) i l s').
  Proof.
    induction rs as [|[c r] rs IH]; intros dn s Hs Hrs.
    - left. exists s. rewrite app_nil_r. done.
    - cbn [add_clauses]. destruct (Hrs c r) as [Hc Hnz]; [left|].
      destruct (add_clause_spec dn s c r Hs Hc Hnz) as [(s1 & -> & Hs1)|(i & l & s1 & -> & Hun & Huo)].
      + rewrite res_bind_ok. destruct (IH _ _ Hs1) as [(s' & -> & Hs')|(i & l & s' & -> & Hun & Huo)].
        * intros c' r' H'. apply (Hrs c' r'). by right.
        * left. exists s'. split; [done|]. by rewrite <-(assoc_L (++)) in Hs'.
        * right. exists i, l, s'. split; [done|]. split; [done|]. by rewrite <-(assoc_L (++)) in Huo.
      + rewrite res_bind_ok. right. exists i, l, s1. split; [done|]. split; [done|].
        eapply uo_mono; [done|]. intros z. rewrite !elem_of_app, !elem_of_cons, elem_of_nil. tauto.
  Qed.

  Lemma setup_fold vs : ∀ a tr, AsgOk a tr → (∀ v, v ∈ vs → 0 < v ∧ univ v) → 
    ∃ a', foldM (λ a v, if aset_contains a v then Ok a else aset_set v None a) vs a = Ok a' ∧
      AsgOk a' tr ∧ a_seen a ⊆ a_seen a' ∧ ∀ v, v ∈ vs → v ∈ a_seen a'.
  Proof.
    induction vs as [|v vs IH]; intros a tr A Hv.
    - exists a. split; [done|]. split; [done|]. split; [done|]. intros v Hx. by apply elem_of_nil in Hx.
    - cbn [foldM]. destruct (Hv v) as [Hv0 Hvu]; [left|].
      assert (Hv' : ∀ v, v ∈ vs → 0 < v ∧ univ v) by (intros; apply Hv; by right).
      assert (Hc : aset_contains a v = true ∧ v ∈ a_seen a ∨ aset_contains a v = false ∧ v ∉ a_seen a).
      { unfold aset_contains. rewrite Z.abs_eq by lia. case_bool_decide; auto. }
      destruct Hc as [[-> Hs]|[-> Hs]].
      + rewrite res_bind_ok. destruct (IH a tr A Hv') as (a' & -> & A' & Hsub & Hin).
        exists a'. split; [done|]. split; [done|]. split; [done|].
        intros w [->|Hw]%elem_of_cons; [by apply Hsub|auto].
      + destruct (aset_set_spec a v None (ao_wf _ _ _ _ A)) as (a1 & -> & W1 & Hd & Hse & _); [lia|].
        rewrite Z.abs_eq in Hse by lia. rewrite res_bind_ok.
        assert (Hun : a_data a !! v = None ∧ a_data a !! (- v) = None).
        { assert (v ∉ a_assigned a) as Hna by (intros ?; apply Hs, (awf_seen _ (ao_wf _ _ _ _ A)); done).
          split; apply eq_None_not_Some; rewrite awf_abs by apply (ao_wf _ _ _ _ A).
          - by rewrite Z.abs_eq by lia.
          - by rewrite Z.abs_opp, Z.abs_eq by lia. }
        assert (A1 : AsgOk a1 tr).
        { split; [done| |].
          - intros l. rewrite <-(ao_val _ _ _ _ A). unfold aset_value. rewrite Hd.
            repeat case_decide; subst; [by rewrite (proj1 Hun)|by rewrite (proj2 Hun)|done].
          - intros w. rewrite Hse. intros [->%elem_of_singleton|Hw]%elem_of_union; [done|].
            by apply (ao_seen _ _ _ _ A). }
        destruct (IH a1 tr A1 Hv') as (a' & -> & A' & Hsub & Hin).
        exists a'. split; [done|]. split; [done|]. split; [set_solver|].
        intros w [->|Hw]%elem_of_cons; [|auto]. apply Hsub. rewrite Hse. set_solver.
  Qed.
End search.
