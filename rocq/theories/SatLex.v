(** * Optimality of solutions, and the states visited by the search. *)
From Verif Require Export SatMain.

(** A policy that follows the priority list [L]: it proposes (positively) the first undecided
    variable of [L] if there is one. *)
Definition follows (L : list Z) (a : aset) (v : Z) : Prop :=
  0 < v ∧ match filter (λ u, u ∉ a_assigned a) L with [] => True | u :: _ => v = u end.

Lemma filter_first {A} (P : A → Prop) `{∀ x, Decision (P x)} (l1 l2 : list A) u :
  P u → ∃ v r, filter P (l1 ++ u :: l2) = v :: r ∧ v ∈ l1 ++ [u] ∧ P v.
Proof.
  intros Hu. induction l1 as [|x l1 IH]; cbn [app].
  - exists u. rewrite filter_cons_True by done. eexists. split; [done|]. split; [left|done].
  - destruct (decide (P x)).
    + rewrite filter_cons_True by done. exists x. eexists. split; [done|]. split; [left|done].
    + rewrite filter_cons_False by done. destruct IH as (v & r & -> & ? & ?).
      exists v, r. split; [done|]. split; [by right|done].
Qed.

Section lex.
  Context (D : list Z → Z → Prop).
  (** Each decision was taken on the part of the trail below it. *)
  Lemma tr_decision h lv rs t lims d : TrOk D h lv rs t lims → d ∈ t → rs !! Z.abs d = Some 0%nat →
    ∃ t1 t2, t = t1 ++ d :: t2 ∧ D t2 d ∧ ∀ x, x ∈ t2 → lvl lv (Z.abs x) < lvl lv (Z.abs d).
  Proof.
    intros T. induction T as [|l t lims i T IH Hnz Hf Hr Hi Hi' Hl Hx Hlv|l t lims T IH Hnz Hf Hr HD Hlv];
      intros Hd Hrs; [by apply elem_of_nil in Hd|..].
    - apply elem_of_cons in Hd as [->|Hd]; [congruence|].
      destruct (IH Hd Hrs) as (t1 & t2 & -> & ? & ?). by exists (l :: t1), t2.
    - apply elem_of_cons in Hd as [->|Hd].
      + exists [], t. split; [done|]. split; [done|]. intros x Hx. pose proof (tr_level _ _ _ _ T Hx). lia.
      + destruct (IH Hd Hrs) as (t1 & t2 & -> & ? & ?). by exists (l :: t1), t2.
  Qed.
End lex.

Section lexmain.
  Context (R : list (list Z * option rule)) (Extra : gset Z) (Dec : aset → Z → Prop).
  Let F := R.*1.
  Notation Final := (Final R Extra Dec).

  (** If every decision taken while [u] was undecided is [u] itself or in [B], then a model that
      makes true whatever the solution makes true in [B] cannot make [u] true if the solution does
      not. *)
  Lemma prio_optimal s (B : Z → Prop) u g : Final s → 0 < u →
    (∀ a v, Dec a v → u ∉ a_assigned a → 0 < v ∧ (B v ∨ v = u)) → model g (nonempty F) →
    (∀ x, B x → aset_value (s_asg s) x = Some true → g x = true) →
    aset_value (s_asg s) u = Some false → g u = false.
  Proof.
    intros Hf Hu0 HB Hg Hag Hu. pose proof (fi_ready _ _ _ _ Hf) as [[Ch Cc Ct Ca] _ _ _].
    assert (Hut : - u ∈ s_trail s) by (by apply (asg_false _ _ _ _ _ Ca)).
    assert (lit_true g (- u)) as Hl.
    2:{ unfold lit_true in Hl. rewrite decide_False in Hl by lia. by rewrite Z.opp_involutive in Hl. }
    eapply (tr_entail _ _ _ _ _ _ _ _ g (lvl (s_levels s) (Z.abs (- u))) Ch Ct Hg); [|done|done].
    intros d Hd Hrs Hle.
    destruct (tr_decision _ _ _ _ _ _ _ Ct Hd Hrs) as (t1 & t2 & Et & (a & Wa & Ha & Hdec) & Hlt).
    assert (Hun : u ∉ t2 ∧ - u ∉ t2).
    { split; intros Hin.
      - assert (u ∈ s_trail s) as Hin' by (rewrite Et; apply elem_of_app; right; by right).
        by apply (tr_consistent _ _ _ _ Ct) in Hin'.
      - apply Hlt in Hin. lia. }
    assert (Huna : u ∉ a_assigned a).
    { intros [_ [b Hb]]%(awf_assigned _ Wa). destruct b.
      - apply Ha in Hb. by destruct Hun.
      - assert (aset_value a (- u) = Some true) as Hb'; [|apply Ha in Hb'; by destruct Hun].
        rewrite value_neg by done. unfold aset_value. by rewrite Hb. }
    destruct (HB a d Hdec Huna) as [Hd0 Hv].
    assert (Hdt : aset_value (s_asg s) d = Some true) by (by apply (ao_val _ _ _ _ Ca)).
    unfold lit_true. rewrite decide_True by done.
    destruct Hv as [Hv| ->]; [by apply Hag|]. congruence.
  Qed.
End lexmain.

Lemma lex_optimal R Extra L s l1 u l2 g : Final R Extra (follows L) s → L = l1 ++ u :: l2 → 0 < u → model g (nonempty R.*1) →
  (∀ x, x ∈ l1 → aset_value (s_asg s) x = Some true → g x = true) →
  aset_value (s_asg s) u = Some false → g u = false.
Proof.
  intros Hf EL Hu0 Hg Hag Hu. eapply (prio_optimal R Extra (follows L) s (λ x, x ∈ l1)); try done.
  intros a d [Hd0 Hfi] Huna. split; [done|].
  destruct (filter_first (λ u, u ∉ a_assigned a) l1 l2 u Huna) as (v & r & Efi & Hv & Hvu).
  rewrite <-EL in Efi. rewrite Efi in Hfi. subst v. apply elem_of_app in Hv as [Hv|Hv%elem_of_list_singleton]; auto.
Qed.


(** ** The states visited by search *)
Inductive reach {P} (pol : policy P) (pf : nat) (R : list (list Z * option rule)) (p0 : P)
  : P → solver → Prop :=
  | reach_init s : from_clauses R = Ok (Normal s) → reach pol pf R p0 p0 s
  | reach_step p s p' s' : reach pol pf R p0 p s →
      search_step pol pf 0 p s = Ok (Continue p' s') → reach pol pf R p0 p' s'.

(** What search keeps: the clauses held are consequences of the added ones, and the added ones
    are held with their original sets of literals. *)
Definition keeps_problem (F : list (list Z)) (s : solver) : Prop :=
  (∀ i, i ∈ s_clauses s → entails (nonempty F) (lits_of s i)) ∧
  (∀ c, c ∈ F → c ≠ [] → ∃ i, i ∈ s_clauses s ∧ ∀ l, l ∈ lits_of s i ↔ l ∈ c).

Section visited.
  Context {P : Type} (pol : policy P) (PInv : P → Prop).
  Context (R : list (list Z * option rule)) (Extra : gset Z) (Dec : aset → Z → Prop).
  Let F := R.*1.
  Hypothesis Hpol : good_policy F Extra Dec pol PInv.
  Hypothesis Hwf : wf_cnf F.

  Lemma reach_linv pf p0 p s : PInv p0 → (nvars R Extra ≤ pf)%nat → reach pol pf R p0 p s →
    LInv PInv R Extra Dec p s.
  Proof.
    intros Hp Hpf. induction 1 as [s E|p s p' s' _ IH E].
    - destruct (from_clauses_spec PInv R Extra Dec Hwf p0 Hp) as [(s1 & E1 & ? & _)|(i & l & s1 & E1 & _)];
        rewrite E1 in E; [|done]. by injection E as <-.
    - destruct (search_step_spec pol PInv R Extra Dec Hpol pf p s IH Hpf)
        as [(p1 & s1 & E1 & ? & _)|[(p1 & s1 & E1 & _)|(c & l & s1 & E1 & _)]]; rewrite E1 in E; try done.
      by injection E as <- <-.
  Qed.

  Lemma keeps_core s : core F Extra (D Dec) s → Held R s → keeps_problem F s.
  Proof.
    intros [Ch Cc _ _] H. split.
    - intros i Hi. change (lits_of s i) with (hl (s_heap s) i).
      destruct (cl_range _ _ _ _ Cc i Hi). apply (h_ent _ _ _ Ch); [done|done|]. by apply (cl_ne _ _ _ _ Cc).
    - intros c Hc Hne. apply elem_of_list_fmap in Hc as ([c' r] & -> & Hc).
      destruct (he_all _ _ H c' r Hc Hne) as (i & cl & Hi & E & _ & _ & Hx).
      exists i. split; [done|]. unfold lits_of. by rewrite E.
  Qed.

  Lemma keeps_ext s s' : keeps_problem F s → s_clauses s' = s_clauses s →
    (∀ i, i ∈ s_clauses s → lits_of s' i = lits_of s i) → keeps_problem F s'.
  Proof.
    intros [H1 H2] Ec El. split.
    - intros i Hi. rewrite Ec in Hi. rewrite El by done. auto.
    - intros c Hc Hne. destruct (H2 c Hc Hne) as (i & Hi & Hx). exists i. rewrite Ec. split; [done|].
      rewrite El by done. done.
  Qed.
End visited.

(** ** Frame properties that hold unconditionally *)
Lemma undo_one_frame s s' : undo_one s = Ok s' → s_heap s' = s_heap s ∧ s_clauses s' = s_clauses s.
Proof.
  unfold undo_one. destruct (s_trail s); [done|]. destruct (aset_set _ _ _); [|done].
  rewrite res_bind_ok. by intros [= <-].
Qed.
Lemma undo_n_frame n : ∀ s s', undo_n n s = Ok s' → s_heap s' = s_heap s ∧ s_clauses s' = s_clauses s.
Proof.
  induction n as [|n IH]; intros s s'; cbn [undo_n]; [by intros [= <-]|].
  destruct (undo_one s) as [s1|] eqn:E; [|done]. rewrite res_bind_ok. intros H%IH.
  apply undo_one_frame in E as [<- <-]. done.
Qed.
Lemma cancel_frame s s' : MiniSat.cancel s = Ok s' → s_heap s' = s_heap s ∧ s_clauses s' = s_clauses s.
Proof. unfold MiniSat.cancel. destruct (s_lims s); [done|]. by intros ?%undo_n_frame. Qed.
Lemma cancel_loop_frame n k : ∀ s s', cancel_loop n k s = Ok s' →
  s_heap s' = s_heap s ∧ s_clauses s' = s_clauses s.
Proof.
  induction n as [|n IH]; intros s s'; cbn [cancel_loop]; case_decide; try done; try by intros [= <-].
  destruct (MiniSat.cancel s) as [s1|] eqn:E; [|done]. rewrite res_bind_ok. intros H'%IH.
  apply cancel_frame in E as [<- <-]. done.
Qed.
Lemma cancel_until_frame k s s' : cancel_until k s = Ok s' →
  s_heap s' = s_heap s ∧ s_clauses s' = s_clauses s.
Proof. apply cancel_loop_frame. Qed.
Lemma analyze_pop_frame t : ∀ st s p st' s', analyze_pop t st s = Ok (p, st', s') →
  s_heap s' = s_heap s ∧ s_clauses s' = s_clauses s.
Proof.
  induction t as [|q t IH]; intros st s p st' s'; cbn [analyze_pop]; [done|].
  destruct (s_reasons s !! Z.abs q); cbn [of_option]; [|done]. rewrite res_bind_ok. cbn zeta.
  destruct (undo_one s) as [s1|] eqn:E; [|done]. rewrite res_bind_ok.
  apply undo_one_frame in E as [<- <-].
  repeat case_decide; [by intros [= _ _ <-]|intros H1%IH; done|intros H1%IH; done].
Qed.
Lemma analyze_frame c s i bt s' : analyze c s = Ok (i, bt, s') →
  (∃ cl, s_heap s' = s_heap s ++ [cl]) ∧ s_clauses s' = s_clauses s.
Proof.
  unfold analyze. destruct (analyze_pop _ _ _) as [[[p st] s1]|] eqn:E; [|done].
  rewrite res_bind_ok. apply analyze_pop_frame in E as [<- <-]. cbn. intros [= <- <- <-]. cbn. eauto.
Qed.

Section visited2.
  Context {P : Type} (pol : policy P) (PInv : P → Prop).
  Context (R : list (list Z * option rule)) (Extra : gset Z) (Dec : aset → Z → Prop).
  Let F := R.*1.
  Hypothesis Hpol : good_policy F Extra Dec pol PInv.
  Hypothesis Hwf : wf_cnf F.

  Lemma visited_keeps pf p0 p s : PInv p0 → (nvars R Extra ≤ pf)%nat → reach pol pf R p0 p s →
    keeps_problem F s ∧
    ∀ o s1, propagate pf s = Ok (o, s1) → keeps_problem F s1 ∧
      ∀ c i bt s2, o = Some c → analyze c s1 = Ok (i, bt, s2) → keeps_problem F s2 ∧
        ∀ k s3, cancel_until k s2 = Ok s3 → keeps_problem F s3.
  Proof.
    intros Hp Hpf Hr. pose proof (reach_linv pol PInv R Extra Dec Hpol Hwf pf p0 p s Hp Hpf Hr) as L.
    pose proof (li_ready _ _ _ _ _ _ L) as Rd.
    split; [apply (keeps_core R Extra Dec); [apply (iv_core _ _ _ _ _ _ Rd)|apply (li_held _ _ _ _ _ _ L)]|].
    intros o s1 Ep.
    pose proof (iv_queue _ _ _ _ _ _ Rd) as [Hq _].
    pose proof (trail_bound _ _ _ _ (iv_core _ _ _ _ _ _ Rd)) as B.
    assert (core F Extra (D Dec) s1 ∧ Fr s s1) as [C1 F1].
    { destruct (propagate_spec (R.*1) Extra (D Dec) pf s Rd) as [(s' & E & R' & _ & F')|(c & s' & E & C' & F')].
      - unfold nvars in Hpf. lia.
      - rewrite E in Ep. injection Ep as <- <-. split; [|done]. apply (iv_core _ _ _ _ _ _ R').
      - rewrite E in Ep. injection Ep as <- <-. split; [|done]. apply (cf_core _ _ _ _ _ C'). }
    assert (K1 : keeps_problem F s1).
    { apply (keeps_core R Extra Dec); [done|]. eapply held_fr; [apply (li_held _ _ _ _ _ _ L)|done]. }
    split; [done|]. intros c i bt s2 _ [[cl Eh] Ec]%analyze_frame.
    assert (K2 : keeps_problem F s2).
    { eapply (keeps_ext R s1); [done|done|]. intros j Hj. unfold lits_of. rewrite Eh, lookup_app_l; [done|].
      by apply (cl_range _ _ _ _ (co_cls _ _ _ _ _ _ _ _ _ _ C1)). }
    split; [done|]. intros k s3 [E1 E2]%cancel_until_frame.
    eapply (keeps_ext R s2); [done|done|]. intros j Hj. unfold lits_of. by rewrite E1.
  Qed.
End visited2.
