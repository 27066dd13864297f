(** * Learning, backtracking and deciding re-establish the invariant. *)
From Verif Require Export SatBack.

(** ** fromkeys *)
Lemma elem_of_fromkeys {A} `{EqDecision A} (l : list A) x : x ∈ fromkeys l ↔ x ∈ l.
Proof.
  induction l as [|y l IH]; [done|]. cbn. rewrite !elem_of_cons, elem_of_list_filter, IH.
  destruct (decide (x = y)); naive_solver.
Qed.
Lemma NoDup_fromkeys {A} `{EqDecision A} (l : list A) : NoDup (fromkeys l).
Proof.
  induction l as [|y l IH]; cbn; [constructor|]. constructor.
  - rewrite elem_of_list_filter. naive_solver.
  - by apply NoDup_filter.
Qed.
Lemma fromkeys_snoc {A} `{EqDecision A} (l : list A) x : x ∉ l → fromkeys (l ++ [x]) = fromkeys l ++ [x].
Proof.
  induction l as [|y l IH]; [done|]. intros Hn. rewrite elem_of_cons in Hn. cbn.
  rewrite IH by naive_solver. rewrite filter_app. rewrite filter_cons_True by naive_solver. done.
Qed.
Lemma fromkeys_nodup {A} `{EqDecision A} (l : list A) : NoDup l → fromkeys l = l.
Proof.
  induction 1 as [|x l Hx _ IH]; [done|]. cbn. rewrite IH. f_equal.
  clear IH. induction l as [|y l IHl]; [done|]. rewrite not_elem_of_cons in Hx.
  rewrite filter_cons_True by naive_solver. f_equal. apply IHl. naive_solver.
Qed.

(** ** The order of the literals of a learned clause *)
Lemma argmax_from_spec ls : ∀ n best bv pre,
  n = length pre → pre !! best = Some bv → (∀ x, x ∈ pre → x ≤ bv) →
  ∃ v, (pre ++ ls) !! argmax_from n ls best bv = Some v ∧ ∀ x, x ∈ pre ++ ls → x ≤ v.
Proof.
  induction ls as [|y ls IH]; intros n best bv pre -> Hb Hm; cbn.
  - rewrite app_nil_r. eauto.
  - replace (pre ++ y :: ls) with ((pre ++ [y]) ++ ls) by by rewrite <-(assoc_L (++)).
    destruct (Z.ltb_spec bv y).
    + apply IH.
      * rewrite app_length. cbn. lia.
      * rewrite lookup_app_r, Nat.sub_diag by lia. done.
      * intros x [Hx| ->%elem_of_list_singleton]%elem_of_app; [|done]. specialize (Hm x Hx). lia.
    + apply IH.
      * rewrite app_length. cbn. lia.
      * apply lookup_app_l_Some. done.
      * intros x [Hx| ->%elem_of_list_singleton]%elem_of_app; [|done]. by apply Hm.
Qed.
Lemma argmax_spec ls : ls ≠ [] → ∃ v, ls !! argmax ls = Some v ∧ ∀ x, x ∈ ls → x ≤ v.
Proof.
  destruct ls as [|y ls]; [done|]. intros _. unfold argmax.
  apply (argmax_from_spec ls 1 0 y [y]); [done|done|].
  intros x ->%elem_of_list_singleton. done.
Qed.

Lemma swap_id i l : swap i i l = l.
Proof.
  unfold swap. destruct (l !! i) eqn:E; [|done]. rewrite list_insert_insert.
  by apply list_insert_id.
Qed.
Lemma insert_perm (l : list Z) i j x y : l !! i = Some x → l !! j = Some y →
  <[j := x]> (<[i := y]> l) ≡ₚ l.
Proof.
  revert i j. induction l as [|z l IH]; intros i j Hi Hj; [done|].
  destruct i as [|i], j as [|j]; simpl in *; simplify_eq; try done.
  - apply elem_of_list_split_length in Hj as (l1 & l2 & -> & Hl1).
    rewrite insert_app_r_alt, Hl1, Nat.sub_diag by lia. cbn.
    by rewrite <-!Permutation_middle, Permutation_swap.
  - apply elem_of_list_split_length in Hi as (l1 & l2 & -> & Hl1).
    rewrite insert_app_r_alt, Hl1, Nat.sub_diag by lia. cbn.
    by rewrite <-!Permutation_middle, Permutation_swap.
  - constructor. by apply IH.
Qed.
Lemma swap_perm i j l : swap i j l ≡ₚ l.
Proof.
  unfold swap. destruct (l !! i) eqn:Ei; [|done]. destruct (l !! j) eqn:Ej; [|done].
  by apply insert_perm.
Qed.

Lemma swap_ends (L : list Z) q : ∃ M, swap 0 (pred (length (L ++ [q]))) (L ++ [q]) = q :: M ∧ M ≡ₚ L.
Proof.
  destruct L as [|x L]; [by exists []|].
  rewrite app_length. cbn [length]. replace (pred (S (length L) + 1)) with (S (length L)) by lia.
  exists (L ++ [x]). split; [|by rewrite Permutation_app_comm].
  unfold swap. simpl. rewrite lookup_app_r, Nat.sub_diag by lia. simpl.
  f_equal. rewrite insert_app_r_alt, Nat.sub_diag by lia. done.
Qed.

Lemma record_order_spec s L q :
  level_of s (Z.abs q) = -1 → (∀ x, x ∈ L → 0 ≤ level_of s (Z.abs x)) →
  (L = [] ∧ record_order s (L ++ [q]) = [q]) ∨
  (∃ y r, record_order s (L ++ [q]) = q :: y :: r ∧ y :: r ≡ₚ L ∧
     ∀ x, x ∈ L → level_of s (Z.abs x) ≤ level_of s (Z.abs y)).
Proof.
  intros Hq HL. unfold record_order. destruct (swap_ends L q) as (M & -> & HM).
  destruct M as [|m M].
  - apply Permutation_nil in HM as ->. left. split; [done|]. rewrite decide_False; [done|simpl; lia].
  - right. rewrite decide_True by (cbn; lia).
    set (ls := (λ l, level_of s (Z.abs l)) <$> (q :: m :: M)).
    destruct (argmax_spec ls) as (v & Hv & Hmax); [done|].
    destruct (argmax ls) as [|k] eqn:Ek.
    { exfalso. cbn in Hv. injection Hv as <-. specialize (Hmax (level_of s (Z.abs m))).
      assert (0 ≤ level_of s (Z.abs m)); [|rewrite Hq in Hmax; assert (level_of s (Z.abs m) ≤ -1); [apply Hmax; right; left|lia]].
      apply HL. rewrite <-HM. left. }
    unfold ls in Hv. rewrite list_lookup_fmap in Hv. change ((q :: m :: M) !! S k) with ((m :: M) !! k) in Hv.
    destruct ((m :: M) !! k) as [y|] eqn:Ey; cbn in Hv; [|done]. injection Hv as <-.
    assert (Hsw : ∃ r, swap 1 (S k) (q :: m :: M) = q :: y :: r).
    { unfold swap. change ((q :: m :: M) !! S k) with ((m :: M) !! k). change ((q :: m :: M) !! 1%nat) with (Some m).
      rewrite Ey. destruct k; simpl in *; [injection Ey as <-; eauto|eauto]. }
    destruct Hsw as [r Er]. exists y, r. split; [done|].
    pose proof (swap_perm 1 (S k) (q :: m :: M)) as Hp. rewrite Er in Hp.
    apply Permutation_cons_inv in Hp. split; [by rewrite Hp|].
    intros x Hx. rewrite <-HM in Hx. apply Hmax. unfold ls.
    apply elem_of_list_fmap. exists x. split; [done|]. by right.
Qed.

Section learn.
  Context (F : list (list Z)) (Extra : gset Z) (D : list Z → Z → Prop).
  Notation HeapOk := (HeapOk F Extra).
  Notation core := (core F Extra D).
  Notation Core := (Core F Extra D).
  Notation Inv := (Inv F Extra D).
  Notation AsgOk := (AsgOk F Extra).
  Notation univ := (univ F Extra).
  Notation Conf := (Conf F Extra D).
  Notation TrOk := (TrOk D).
  Notation Ready := (Ready F Extra D).

  Lemma hl_app h c i : (i < length h)%nat → hl (h ++ [c]) i = hl h i.
  Proof. intros. unfold hl. by rewrite lookup_app_l. Qed.
  Lemma hl_app_new h c : hl (h ++ [c]) (length h) = c_lits c.
  Proof. unfold hl. by rewrite lookup_app_r, Nat.sub_diag by lia. Qed.
  Lemma hl_range h i x : x ∈ hl h i → (i < length h)%nat.
  Proof.
    unfold hl. destruct (h !! i) eqn:E; [|by intros ?%elem_of_nil].
    intros _. by eapply lookup_lt_Some.
  Qed.
  Lemma hl_app_cases h c i : hl (h ++ [c]) i = hl h i ∨ i = length h ∧ hl (h ++ [c]) i = c_lits c.
  Proof.
    destruct (decide (i < length h)%nat); [left; by apply hl_app|].
    destruct (decide (i = length h)) as [->|]; [right; split; [done|]; apply hl_app_new|].
    left. unfold hl. rewrite (lookup_ge_None_2 h) by lia.
    rewrite lookup_ge_None_2; [done|]. rewrite app_length. cbn. lia.
  Qed.

  Lemma heap_ok_app h c : HeapOk h → NoDup (c_lits c) →
    (∀ x, x ∈ c_lits c → x ≠ 0 ∧ univ (Z.abs x)) → (c_lits c ≠ [] → entails (nonempty F) (c_lits c)) → HeapOk (h ++ [c]).
  Proof.
    intros [Hz Hn Hnd Hv He] H1 H2 H3. split.
    - by rewrite hl_app.
    - rewrite app_length. lia.
    - intros i. destruct (hl_app_cases h c i) as [->|[_ ->]]; done.
    - intros i x. destruct (hl_app_cases h c i) as [->|[_ ->]]; [apply Hv|apply H2].
    - intros i Hi Hl Hne. rewrite app_length in Hl. cbn in Hl.
      destruct (decide (i < length h)%nat); [rewrite hl_app in Hne |- * by done; by apply He|].
      assert (i = length h) as -> by lia. rewrite hl_app_new in Hne |- *. by apply H3.
  Qed.

  Lemma cur_lits_empty lv dl t : cur_lits lv dl t ∅ = [].
  Proof.
    clear. unfold cur_lits. induction t as [|x t IH]; [done|].
    rewrite filter_cons_False; [exact IH|]. set_solver.
  Qed.

  (** ** analyze *)
  Lemma analyze_spec c s : Conf c s → 
    ∃ p t1 t L bt ctr s1,
      analyze c s = Ok (length (s_heap s), bt,
        set_ctrail (length (s_heap s)) ctr
          (snd (alloc (Clause (L ++ [- p]) true None) s1))) ∧
      s_trail s = t1 ++ p :: t ∧
      (∀ x, x ∈ t1 → lvl (s_levels s) (Z.abs x) = decision_level s) ∧
      lvl (s_levels s) (Z.abs p) = decision_level s ∧
      Same s s1 ∧ s_lims s1 = s_lims s ∧ s_trail s1 = t ∧ AsgOk (s_asg s1) t ∧
      (∀ x, x ∈ t → lvl (s_levels s1) (Z.abs x) = lvl (s_levels s) (Z.abs x)) ∧
      lvl (s_levels s1) (Z.abs p) = -1 ∧
      NoDup (L ++ [- p]) ∧ entails (nonempty F) (L ++ [- p]) ∧
      (∀ x, x ∈ L → - x ∈ t ∧ lvl (s_levels s) (Z.abs x) < decision_level s ∧
                    lvl (s_levels s) (Z.abs x) ≤ bt) ∧
      0 ≤ bt ∧ (bt = 0 ∨ ∃ x, x ∈ L ∧ lvl (s_levels s) (Z.abs x) = bt) ∧
      (TrOk (s_heap s) (s_levels s1) (s_reasons s) t (s_lims s) ∨
       ∃ lims', s_lims s = length t :: lims' ∧
                TrOk (s_heap s) (s_levels s1) (s_reasons s) t lims') ∧
      (∀ j, j ∈ ctr → j = c ∨ ∃ v, s_reasons s !! v = Some j).
  Proof.
    intros Cf. pose proof (cf_core _ _ _ _ _ Cf) as C. destruct C as [Hh Hc T A].
    set (lv := lvl (s_levels s)). set (dl := decision_level s).
    set (st0 := AState 0 ∅ [] 0 [c]). set (reason := calculate_reason (hl (s_heap s) c) None).
    assert (Hreason : ∀ l, l ∈ reason ↔ - l ∈ hl (s_heap s) c).
    { intros l. unfold reason, calculate_reason. rewrite elem_of_list_fmap.
      setoid_rewrite elem_of_list_filter. split.
      - intros (y & -> & Hy & ?). by rewrite Z.opp_involutive.
      - intros ?. exists (- l). split; [lia|]. done. }
    assert (I0 : AnInv lv dl (s_trail s) st0).
    { split; cbn; try set_solver.
      by rewrite cur_lits_empty. }
    destruct (trace_reason_spec D s (s_trail s) reason) with (st := st0)
      as (I1 & Etr & _ & _ & Hres & _); try done.
    { by eapply tr_nodup. }
    { intros l Hl. by pose proof (tr_level _ _ _ _ T Hl) as [? _]. }
    { intros l Hl%Hreason. apply (cf_false _ _ _ _ _ Cf) in Hl. by rewrite Z.opp_involutive in Hl. }
    set (st1 := trace_reason s st0 reason) in *.
    fold lv dl in I1, Hres.
    destruct (cl_range _ _ _ _ Hc c (cf_in _ _ _ _ _ Cf)) as [Hc0 Hcl].
    destruct (analyze_pop_spec F Extra D (s_trail s) st1 s) as
      (p & t1 & t & st & s1 & Ea & Et & Ht1 & Hp & Sm & El & Et1 & A1 & Hlv1 & Hp1 & I' & Hent & HT & Hctr); try done.
    { pose proof (an1 _ _ _ _ I1) as E1. rewrite E1.
      destruct (cf_dl _ _ _ _ _ Cf) as (x & Hx & Hxl).
      assert (Hxr : - - x ∈ resolvent lv dl (s_trail s) st1).
      { apply Hres. apply Hreason. by rewrite Z.opp_involutive. }
      unfold resolvent in Hxr. rewrite Z.opp_involutive, elem_of_app, elem_of_list_fmap in Hxr.
      destruct Hxr as [Hxr|(y & -> & Hy)].
      - apply (an3 _ _ _ _ I1) in Hxr as [_ Hne]. done.
      - destruct (cur_lits lv dl (s_trail s) (an_seen st1)); [by apply elem_of_nil in Hy|cbn; lia]. }
    { intros f Hf. destruct (h_ent _ _ _ Hh c Hc0 Hcl (cl_ne _ _ _ _ Hc c (cf_in _ _ _ _ _ Cf)) f Hf) as (x & Hx & Hxt).
      exists x. split; [|done]. rewrite <-(Z.opp_involutive x). apply Hres. apply Hreason.
      by rewrite Z.opp_involutive. }
    fold lv dl in Ht1, Hp, Hlv1, I'.
    assert (Hin : ∀ x, x ∈ t → x ∈ s_trail s).
    { intros x Hx. rewrite Et. apply elem_of_app. right. by right. }
    assert (HL : ∀ x, x ∈ an_learned st → - x ∈ t ∧ lv (Z.abs x) ≠ dl ∧ lv (Z.abs x) ≤ an_bt st ∧
                      lvl (s_levels s1) (Z.abs x) = lv (Z.abs x)).
    { intros x Hx. destruct (an3 _ _ _ _ I' x Hx) as [Hx1 Hx2].
      pose proof (an5 _ _ _ _ I' x Hx). rewrite <-(Z.abs_opp x) in *.
      rewrite Hlv1 in * by done. done. }
    assert (Hpn : - p ∉ an_learned st).
    { intros Hpl. apply HL in Hpl as (_ & Hne & _). rewrite Z.abs_opp in Hne. done. }
    exists p, t1, t, (fromkeys (an_learned st)), (an_bt st), (an_trail st), s1.
    split.
    { unfold analyze. change (lits_of s c) with (hl (s_heap s) c).
      change (trace_reason s (AState 0 ∅ [] 0 [c]) (calculate_reason (hl (s_heap s) c) None)) with st1.
      rewrite Ea, res_bind_ok. cbn. rewrite (sm_heap _ _ Sm).
      unfold mk_clause. rewrite fromkeys_snoc by done. done. }
    split; [done|]. split; [done|]. split; [done|]. split; [done|]. split; [done|]. split; [done|].
    split; [done|]. split; [done|]. split; [done|]. split.
    { rewrite <-fromkeys_snoc by done. apply NoDup_fromkeys. }
    split.
    { intros f Hf. destruct (Hent f Hf) as (x & Hx & ?). exists x. split; [|done].
      rewrite <-fromkeys_snoc by done. by apply elem_of_fromkeys. }
    split.
    { intros x Hx. rewrite elem_of_fromkeys in Hx. destruct (HL x Hx) as (H1 & H2 & H3 & _). split; [done|]. split; [|done].
      pose proof (tr_level _ _ _ _ T (Hin _ H1)) as Hlev. rewrite Z.abs_opp in Hlev.
      fold lv in Hlev |- *. unfold dl, decision_level in *. lia. }
    split; [apply (an4 _ _ _ _ I')|]. split.
    { destruct (an6 _ _ _ _ I') as [?|(x & Hx & E)]; [by left|]. right. exists x.
      split; [by apply elem_of_fromkeys|]. destruct (HL x Hx) as (_ & _ & _ & E'). fold lv. congruence. }
    split; [done|].
    intros j Hj%Hctr. rewrite Etr in Hj. destruct Hj as [->%elem_of_list_singleton|?]; [by left|by right].
  Qed.

  (** ** Backtracking *)
  Definition WTr (s : solver) : Prop :=
    TrOk (s_heap s) (s_levels s) (s_reasons s) (s_trail s) (s_lims s) ∨
    ∃ lims', s_lims s = length (s_trail s) :: lims' ∧
             TrOk (s_heap s) (s_levels s) (s_reasons s) (s_trail s) lims'.

  Lemma undo_n_spec t1 : ∀ s t2 lims,
    s_trail s = t1 ++ t2 → AsgOk (s_asg s) (t1 ++ t2) →
    TrOk (s_heap s) (s_levels s) (s_reasons s) (t1 ++ t2) lims →
    ∃ s', undo_n (length t1) s = Ok s' ∧ Same s s' ∧ s_lims s' = s_lims s ∧ s_trail s' = t2 ∧
      AsgOk (s_asg s') t2 ∧
      (∀ x, x ∈ t2 → lvl (s_levels s') (Z.abs x) = lvl (s_levels s) (Z.abs x)).
  Proof.
    induction t1 as [|p t1 IH]; intros s t2 lims Et A T.
    - exists s. split; [done|]. split; [apply same_refl|]. done.
    - cbn in *. destruct (undo_one_full F Extra D s p (t1 ++ t2) lims Et A T)
        as (s1 & -> & Sm & El & Et1 & A1 & Hlv & _).
      rewrite res_bind_ok.
      destruct (tr_tail _ _ _ _ _ _ _ T) as [T1|(lims' & _ & T1)];
      (edestruct (IH s1 t2) as (s' & -> & Sm' & El' & Et' & A' & Hlv');
        [done|done|rewrite (sm_heap _ _ Sm), (sm_rs _ _ Sm); by eapply tr_levels|];
       exists s'; split; [done|]; split; [by eapply same_trans|]; split; [congruence|];
       split; [done|]; split; [done|]; intros x Hx; rewrite Hlv' by done; apply Hlv;
       apply elem_of_app; by right).
  Qed.

  (** The part of the trail above the last decision. *)
  Lemma tr_cancel h lv rs t k lims : TrOk h lv rs t (k :: lims) →
    ∃ t1 t2, t = t1 ++ t2 ∧ length t2 = k ∧ TrOk h lv rs t2 lims ∧
      ∀ x, x ∈ t1 → lvl lv (Z.abs x) = Z.of_nat (S (length lims)).
  Proof.
    remember (k :: lims) as ls eqn:El. intros T. revert k lims El.
    induction T as [|l t lims0 i T IH Hnz Hf Hr Hi Hi' Hl Hx Hlv|l t lims0 T IH Hnz Hf Hr HD Hlv];
      intros k lims El; [done|..].
    - subst. destruct (IH k lims eq_refl) as (t1 & t2 & -> & Hk & T2 & Ht1).
      exists (l :: t1), t2. split; [done|]. split; [done|]. split; [done|].
      intros x [->|Hx']%elem_of_cons; [done|by apply Ht1].
    - injection El as <- <-. exists [l], t. split; [done|]. split; [done|]. split; [done|].
      intros x ->%elem_of_list_singleton. done.
  Qed.

  Lemma cancel_spec s k lims : s_lims s = k :: lims → AsgOk (s_asg s) (s_trail s) → WTr s →
    ∃ t1 s', MiniSat.cancel s = Ok s' ∧ Same s s' ∧ s_lims s' = lims ∧ s_trail s = t1 ++ s_trail s' ∧
      AsgOk (s_asg s') (s_trail s') ∧
      TrOk (s_heap s') (s_levels s') (s_reasons s') (s_trail s') (s_lims s') ∧
      (∀ x, x ∈ s_trail s' → lvl (s_levels s') (Z.abs x) = lvl (s_levels s) (Z.abs x)) ∧
      (∀ x, x ∈ t1 → lvl (s_levels s) (Z.abs x) = Z.of_nat (S (length lims))).
  Proof.
    intros El A HT. unfold MiniSat.cancel. rewrite El. unfold WTr in HT. rewrite El in HT.
    destruct HT as [T|(lims' & E & T)].
    - destruct (tr_cancel _ _ _ _ _ _ T) as (t1 & t2 & Et & Hk & T2 & Ht1).
      destruct (undo_n_spec t1 (set_lims lims s) t2 (k :: lims)) as (s' & Eu & Sm & El' & Et' & A' & Hlv).
      { done. } { by rewrite <-Et. } { cbn. by rewrite <-Et. }
      exists t1, s'. rewrite Et, app_length, Hk.
      replace (length t1 + k - k)%nat with (length t1) by lia.
      split; [done|]. rewrite Et'. split; [by destruct Sm|]. split; [done|]. split; [done|]. split; [done|].
      split; [|done]. rewrite (sm_heap _ _ Sm), (sm_rs _ _ Sm), El'. cbn. by eapply tr_levels.
    - injection E as -> ->. rewrite Nat.sub_diag. cbn. exists [], (set_lims lims' s).
      split; [done|]. split; [split; try done; by left|]. split; [done|]. split; [done|]. split; [done|].
      split; [done|]. split; [done|]. intros x Hx. by apply elem_of_nil in Hx.
  Qed.

  Lemma cancel_loop_tr n : ∀ b s, (0 ≤ b)%nat → (b ≤ length (s_lims s))%nat →
    n = (length (s_lims s) - b)%nat →
    AsgOk (s_asg s) (s_trail s) →
    TrOk (s_heap s) (s_levels s) (s_reasons s) (s_trail s) (s_lims s) →
    ∀ m, (n ≤ m)%nat →
    ∃ t1 s', cancel_loop m (Z.of_nat b) s = Ok s' ∧ Same s s' ∧ length (s_lims s') = b ∧
      s_trail s = t1 ++ s_trail s' ∧ AsgOk (s_asg s') (s_trail s') ∧
      TrOk (s_heap s') (s_levels s') (s_reasons s') (s_trail s') (s_lims s') ∧
      (∀ x, x ∈ s_trail s' → lvl (s_levels s') (Z.abs x) = lvl (s_levels s) (Z.abs x)) ∧
      (∀ x, x ∈ t1 → Z.of_nat b < lvl (s_levels s) (Z.abs x)).
  Proof.
    induction n as [|n IH]; intros b s Hb Hbl En A T m Hm.
    - exists [], s. assert (E : length (s_lims s) = b) by lia.
      split. { destruct m; cbn; rewrite decide_False; try done; unfold decision_level; lia. }
      split; [apply same_refl|]. split; [done|]. split; [done|]. split; [done|]. split; [done|].
      split; [done|]. intros x Hx. by apply elem_of_nil in Hx.
    - destruct m as [|m]; [lia|]. cbn. rewrite decide_True by (unfold decision_level; lia).
      destruct (s_lims s) as [|k lims] eqn:El; [cbn in *; lia|].
      destruct (cancel_spec s k lims) as (t1 & s1 & -> & Sm & El1 & Et & A1 & T1 & Hlv & Ht1); try done.
      { left. by rewrite El. }
      rewrite res_bind_ok. cbn in *.
      destruct (IH b s1) with (m := m) as (t2 & s' & -> & Sm' & El' & Et' & A' & T' & Hlv' & Ht2); try done; try lia.
      { rewrite El1. lia. } { rewrite El1. lia. }
      exists (t1 ++ t2), s'. split; [done|]. split; [by eapply same_trans|]. split; [done|].
      split. { rewrite Et, Et'. by rewrite (assoc_L (++)). }
      split; [done|]. split; [done|]. split.
      { intros x Hx. rewrite Hlv' by done. apply Hlv. rewrite Et'. apply elem_of_app. by right. }
      intros x [Hx|Hx]%elem_of_app.
      + rewrite Ht1 by done. lia.
      + rewrite <-Hlv; [by apply Ht2|]. rewrite Et'. apply elem_of_app. by left.
  Qed.

  Lemma cancel_until_spec (b : nat) s : (b < length (s_lims s))%nat →
    AsgOk (s_asg s) (s_trail s) → WTr s →
    ∃ t1 s', cancel_until (Z.of_nat b) s = Ok s' ∧ Same s s' ∧ length (s_lims s') = b ∧
      s_trail s = t1 ++ s_trail s' ∧ AsgOk (s_asg s') (s_trail s') ∧
      TrOk (s_heap s') (s_levels s') (s_reasons s') (s_trail s') (s_lims s') ∧
      (∀ x, x ∈ s_trail s' → lvl (s_levels s') (Z.abs x) = lvl (s_levels s) (Z.abs x)) ∧
      (∀ x, x ∈ t1 → Z.of_nat b < lvl (s_levels s) (Z.abs x)).
  Proof.
    intros Hb A HT. unfold cancel_until. destruct (s_lims s) as [|k lims] eqn:El; [cbn in *; lia|].
    cbn in *. rewrite decide_True by (unfold decision_level; rewrite El; cbn; lia).
    destruct (cancel_spec s k lims) as (t1 & s1 & -> & Sm & El1 & Et & A1 & T1 & Hlv & Ht1); try done.
    rewrite res_bind_ok.
    destruct (cancel_loop_tr (length (s_lims s1) - b) b s1) with (m := length lims)
      as (t2 & s' & -> & Sm' & El' & Et' & A' & T' & Hlv' & Ht2); try done; try lia.
    { rewrite El1. lia. } { rewrite El1. lia. }
    exists (t1 ++ t2), s'. split; [done|]. split; [by eapply same_trans|]. split; [done|].
    split. { rewrite Et, Et'. by rewrite (assoc_L (++)). }
    split; [done|]. split; [done|]. split.
    { intros x Hx. rewrite Hlv' by done. apply Hlv. rewrite Et'. apply elem_of_app. by right. }
    intros x [Hx|Hx]%elem_of_app.
    + rewrite Ht1 by done. lia.
    + rewrite <-Hlv; [by apply Ht2|]. rewrite Et'. apply elem_of_app. by left.
  Qed.
End learn.
