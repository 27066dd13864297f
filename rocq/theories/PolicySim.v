(** * Two runs of the solver with policies that make the same suggestions.

    The solver reads from the assignments object the values, the known and the assigned variables; the
    remaining bookkeeping (changelog, new keys) is only read by policies.  Policies that agree on related
    bookkeeping give equal answers. *)
From Verif Require Export Policy.

(** ** Related results *)
Definition res_rel {A B} (R : A → B → Prop) (x : res A) (y : res B) : Prop :=
  match x, y with
  | Ok a, Ok b => R a b
  | Raise e, Raise e' => e = e'
  | _, _ => False
  end.
Lemma res_rel_bind {A B C D} (R : A → B → Prop) (Q : C → D → Prop) x y (f : A → res C) (g : B → res D) :
  res_rel R x y → (∀ a b, R a b → res_rel Q (f a) (g b)) → res_rel Q (x ≫= f) (y ≫= g).
Proof. destruct x, y; cbn; try done; auto. Qed.
Lemma res_rel_eq {A} (x : res A) : res_rel eq x x.
Proof. by destruct x. Qed.
Lemma res_rel_mono {A B} (R Q : A → B → Prop) x y : (∀ a b, R a b → Q a b) → res_rel R x y → res_rel Q x y.
Proof. destruct x, y; cbn; auto. Qed.

Section sim.
  Context (N : gset Z → gset Z → Prop) (HN : ∀ k X Y, N X Y → N ({[k]} ∪ X) ({[k]} ∪ Y)).

  Record RA (a b : aset) : Prop := {
    ra_data : a_data a = a_data b;
    ra_seen : a_seen a = a_seen b;
    ra_assigned : a_assigned a = a_assigned b;
    ra_new : N (a_new a) (a_new b) }.

  Lemma RA_value a b l : RA a b → aset_value a l = aset_value b l.
  Proof. intros R. unfold aset_value. by rewrite (ra_data _ _ R). Qed.

  Lemma RA_del k a b : RA a b → res_rel RA (aset_del k a) (aset_del k b).
  Proof.
    intros [H1 H2 H3 H4]. unfold aset_del, update_diff. cbn. rewrite H1, H2, H3.
    destruct (a_data b !! k); cbn; [|by split].
    destruct (delete k (a_data b) !! (- k)); cbn; [by split|done].
  Qed.
  Lemma RA_set k v a b : RA a b → res_rel RA (aset_set k v a) (aset_set k v b).
  Proof.
    intros R. unfold aset_set.
    set (a' := if decide (Z.abs k ∈ a_seen a) then a else _).
    set (b' := if decide (Z.abs k ∈ a_seen b) then b else _).
    assert (RA a' b') as R'.
    { unfold a', b'. destruct R as [H1 H2 H3 H4]. rewrite H2. case_decide; split; cbn; auto. }
    clearbody a' b'. clear R a b.
    apply (res_rel_bind RA).
    - destruct v as [v|]; [|by apply RA_del].
      destruct R' as [H1 H2 H3 H4]. cbn. split; cbn; auto; by rewrite ?H1, ?H3.
    - intros a b [H1 H2 H3 H4]. cbn. split; cbn; auto. by rewrite H2.
  Qed.

  (** Solvers that differ in the bookkeeping only. *)
  Record RS (s t : solver) : Prop := {
    rs_asg : RA (s_asg s) (s_asg t);
    rs_eq : set_asg (s_asg t) s = t }.

  Lemma RS_of s a b : RA a b → RS (set_asg a s) (set_asg b s).
  Proof. intros R. split; [exact R|]. by destruct s. Qed.
  Lemma RS_inv s t : RS s t → ∃ a b r, RA a b ∧ s = set_asg a r ∧ t = set_asg b r.
  Proof. intros [R E]. exists (s_asg s), (s_asg t), s. split; [done|]. split; [by destruct s|done]. Qed.

  Lemma RS_self a b s : RA a b → RS (set_asg a s) (set_asg b s).
  Proof. apply RS_of. Qed.

  Lemma find_watch_RA a b n l : RA a b → find_watch a n l = find_watch b n l.
  Proof. intros R. induction l as [|o l IH]; [done|]. cbn. by rewrite (RA_value _ _ _ R), IH. Qed.
  Lemma rewatch_RA a b ls l : RA a b → rewatch a ls l = rewatch b ls l.
  Proof.
    intros R. destruct ls as [|x [|y r]]; [done|done|]. cbn.
    case_decide; [|done]. destruct (decide (x = - l)); by rewrite (RA_value _ _ _ R), (find_watch_RA _ _ _ _ R).
  Qed.

  (** Same first component, related solvers. *)
  Definition RO {A} : A * solver → A * solver → Prop := λ x y, x.1 = y.1 ∧ RS x.2 y.2.
  Definition Rout : out solver → out solver → Prop := λ x y,
    match x, y with
    | Normal s, Normal t => RS s t
    | Unsat c l s, Unsat c' l' t => c = c' ∧ l = l' ∧ RS s t
    | _, _ => False
    end.

  Ltac opn H := let a := fresh "a" in let b := fresh "b" in let r := fresh "r" in let R := fresh "R" in
    apply RS_inv in H as (a & b & r & R & -> & ->).

  Lemma enqueue_RS l c s t : RS s t → res_rel RO (enqueue l c s) (enqueue l c t).
  Proof.
    intros H. opn H. unfold enqueue. cbn [set_asg s_asg]. rewrite (RA_value _ _ l R).
    destruct (aset_value b l); [cbn; split; [done|by apply RS_of]|].
    apply (res_rel_bind RA); [by apply RA_set|]. intros a' b' R'. split; [done|]. by split.
  Qed.
  Lemma push_watch_RS l i s t : RS s t → RS (push_watch l i s) (push_watch l i t).
  Proof. intros H. opn H. by split. Qed.
  Lemma set_lits_RS l i s t : RS s t → RS (set_lits i l s) (set_lits i l t).
  Proof. intros H. opn H. by split. Qed.
  Lemma set_watch_RS l i s t : RS s t → RS (set_watch i l s) (set_watch i l t).
  Proof. intros H. opn H. by split. Qed.
  Lemma set_queue_RS l s t : RS s t → RS (set_queue l s) (set_queue l t).
  Proof. intros H. opn H. by split. Qed.
  Lemma set_lims_RS l s t : RS s t → RS (set_lims l s) (set_lims l t).
  Proof. intros H. opn H. by split. Qed.
  Lemma set_status_RS l s t : RS s t → RS (set_status l s) (set_status l t).
  Proof. intros H. opn H. by split. Qed.
  Lemma push_clause_RS l s t : RS s t → RS (push_clause l s) (push_clause l t).
  Proof. intros H. opn H. by split. Qed.
  Lemma set_ctrail_RS l i s t : RS s t → RS (set_ctrail i l s) (set_ctrail i l t).
  Proof. intros H. opn H. by split. Qed.
  Lemma alloc_RS c s t : RS s t → RO (alloc c s) (alloc c t).
  Proof. intros H. opn H. split; [done|]. by split. Qed.
  Lemma lits_of_RS s t i : RS s t → lits_of s i = lits_of t i.
  Proof. intros H. by opn H. Qed.
  Lemma watch_list_RS s t i : RS s t → watch_list s i = watch_list t i.
  Proof. intros H. by opn H. Qed.
  Lemma level_of_RS s t i : RS s t → level_of s i = level_of t i.
  Proof. intros H. by opn H. Qed.
  Lemma dl_RS s t : RS s t → decision_level s = decision_level t.
  Proof. intros H. by opn H. Qed.
  Lemma queue_RS s t : RS s t → s_queue s = s_queue t.
  Proof. intros H. by opn H. Qed.
  Lemma trail_RS s t : RS s t → s_trail s = s_trail t.
  Proof. intros H. by opn H. Qed.
  Lemma lims_RS s t : RS s t → s_lims s = s_lims t.
  Proof. intros H. by opn H. Qed.
  Lemma reasons_RS s t : RS s t → s_reasons s = s_reasons t.
  Proof. intros H. by opn H. Qed.
  Lemma clause_lits_RS s t : RS s t → clause_lits s = clause_lits t.
  Proof. intros H. by opn H. Qed.

  Lemma prop_watch_RS l w s t : RS s t → res_rel RO (prop_watch l w s) (prop_watch l w t).
  Proof.
    revert s t. induction w as [|i w IH]; intros s t H; [by split|]. cbn [prop_watch].
    rewrite (lits_of_RS _ _ _ H), (rewatch_RA _ _ _ _ (rs_asg _ _ H)).
    destruct (rewatch (s_asg t) (lits_of t i) l) as [[ls u]|]; cbn [mbind res_bind]; [|done].
    destruct (ls !! 1%nat) as [x|]; cbn; [|done].
    assert (RS (push_watch (- x) i (set_lits i ls s)) (push_watch (- x) i (set_lits i ls t))) as H'
      by by apply push_watch_RS, set_lits_RS.
    destruct u as [u|]; [|by apply IH].
    rewrite (RA_value _ _ u (rs_asg _ _ H)). case_decide.
    - cbn. split; [done|]. cbn. rewrite (watch_list_RS _ _ _ H'). by apply set_queue_RS, set_watch_RS.
    - eapply res_rel_bind; [by apply enqueue_RS|]. intros [b1 s1] [b2 s2] [_ H2]. by apply IH.
  Qed.

  Lemma propagate_RS f s t : RS s t → res_rel RO (propagate f s) (propagate f t).
  Proof.
    revert s t. induction f as [|f IH]; intros s t H; cbn [propagate]; rewrite (queue_RS _ _ H);
      destruct (s_queue t) as [|l q]; [by split|done|by split|].
    rewrite (watch_list_RS _ _ _ H).
    eapply res_rel_bind; [by apply prop_watch_RS, set_watch_RS, set_queue_RS|].
    intros [c1 s1] [c2 s2] [Hc H1]. cbn in Hc, H1. subst c2. destruct c1; [by split|]. by apply IH.
  Qed.

  Lemma undo_one_RS s t : RS s t → res_rel RS (undo_one s) (undo_one t).
  Proof.
    intros H. opn H. unfold undo_one. cbn [set_asg s_asg s_trail]. destruct (s_trail r) as [|p q]; [done|].
    apply (res_rel_bind RA); [by apply RA_set|]. intros a' b' R'. by split.
  Qed.

  Lemma trace_reason_RS s t st l : RS s t → trace_reason s st l = trace_reason t st l.
  Proof.
    intros H. unfold trace_reason. revert st. induction l as [|x l IH]; intros st; [done|]. cbn.
    rewrite IH. f_equal. unfold trace_lit. by rewrite (level_of_RS _ _ _ H), (dl_RS _ _ H).
  Qed.

  Lemma analyze_pop_RS l st s t : RS s t → res_rel RO (analyze_pop l st s) (analyze_pop l st t).
  Proof.
    revert st s t. induction l as [|p l IH]; intros st s t H; [done|]. cbn [analyze_pop].
    rewrite (reasons_RS _ _ H). destruct (s_reasons t !! Z.abs p) as [c|]; cbn [of_option mbind res_bind]; [|done].
    eapply res_rel_bind; [by apply undo_one_RS|]. intros s1 t1 H1.
    case_decide; [|by apply IH]. case_decide; [by split|].
    rewrite (lits_of_RS _ _ _ H1), (trace_reason_RS _ _ _ _ H1). by apply IH.
  Qed.
  Lemma analyze_RS c s t : RS s t → res_rel RO (analyze c s) (analyze c t).
  Proof.
    intros H. unfold analyze. rewrite (lits_of_RS _ _ _ H), (trace_reason_RS _ _ _ _ H), (trail_RS _ _ H).
    eapply res_rel_bind; [by apply analyze_pop_RS|].
    intros [[p1 st1] s1] [[p2 st2] s2] [E H1]. cbn in E, H1. injection E as -> ->.
    destruct (alloc_RS (mk_clause (an_learned st2 ++ [- p2]) true None) _ _ H1) as [E2 H2].
    destruct (alloc _ s1), (alloc _ s2). cbn in *. subst. split; [done|]. by apply set_ctrail_RS.
  Qed.

  Lemma undo_n_RS n s t : RS s t → res_rel RS (undo_n n s) (undo_n n t).
  Proof.
    revert s t. induction n as [|n IH]; intros s t H; [done|]. cbn.
    eapply res_rel_bind; [by apply undo_one_RS|]. intros. by apply IH.
  Qed.
  Lemma cancel_RS s t : RS s t → res_rel RS (MiniSat.cancel s) (MiniSat.cancel t).
  Proof.
    intros H. unfold MiniSat.cancel. rewrite (lims_RS _ _ H), (trail_RS _ _ H). destruct (s_lims t); [done|].
    by apply undo_n_RS, set_lims_RS.
  Qed.
  Lemma cancel_loop_RS n l s t : RS s t → res_rel RS (cancel_loop n l s) (cancel_loop n l t).
  Proof.
    revert s t. induction n as [|n IH]; intros s t H; cbn; rewrite (dl_RS _ _ H); case_decide; try done.
    eapply res_rel_bind; [by apply cancel_RS|]. intros. by apply IH.
  Qed.
  Lemma cancel_until_RS l s t : RS s t → res_rel RS (cancel_until l s) (cancel_until l t).
  Proof. intros H. unfold cancel_until. rewrite (lims_RS _ _ H). by apply cancel_loop_RS. Qed.

  Lemma add_clause_ref_RS i s t : RS s t → res_rel Rout (add_clause_ref i s) (add_clause_ref i t).
  Proof.
    intros H. unfold add_clause_ref. rewrite (lits_of_RS _ _ _ H).
    destruct (lits_of t i) as [|x [|y l]].
    - by apply set_status_RS.
    - eapply res_rel_bind; [by apply enqueue_RS|]. intros [b1 s1] [b2 s2] [E H1]. cbn in E, H1. subst b2.
      destruct b1; cbn; [by apply push_clause_RS|done].
    - cbn. by apply push_clause_RS, push_watch_RS, push_watch_RS.
  Qed.
  Lemma record_RS i s t : RS s t → res_rel Rout (record i s) (record i t).
  Proof.
    intros H. unfold record. rewrite (lits_of_RS _ _ _ H). destruct (lits_of t i) as [|x l] eqn:El; [done|].
    assert (record_order s (x :: l) = record_order t (x :: l)) as ->.
    { unfold record_order.
      replace ((λ l0, level_of s (Z.abs l0)) <$> swap 0 (pred (length (x :: l))) (x :: l))
        with ((λ l0, level_of t (Z.abs l0)) <$> swap 0 (pred (length (x :: l))) (x :: l)); [done|].
      apply list_fmap_ext. intros ? y _. symmetry. by apply level_of_RS. }
    eapply res_rel_bind; [by apply add_clause_ref_RS, set_lits_RS|].
    intros [s1|c1 l1 s1] [s2|c2 l2 s2]; try done. cbn. intros H1. rewrite (lits_of_RS _ _ _ H1).
    destruct (lits_of s2 i !! 0%nat) as [y|]; cbn [of_option mbind res_bind]; [|done].
    eapply res_rel_bind; [by apply enqueue_RS|]. by intros [? ?] [? ?] [_ ?].
  Qed.
  Lemma assume_RS l s t : RS s t → res_rel RO (assume l s) (assume l t).
  Proof. intros H. unfold assume. rewrite (lims_RS _ _ H), (trail_RS _ _ H). by apply enqueue_RS, set_lims_RS. Qed.

  Context {P Q : Type} (pol : policy P) (qol : policy Q) (RP : P → Q → Prop).
  Definition RC : Z * P * aset → Z * Q * aset → Prop := λ x y, x.1.1 = y.1.1 ∧ RP x.1.2 y.1.2 ∧ RA x.2 y.2.
  Context (Hpol : ∀ p q a b cls, RP p q → RA a b → res_rel RC (pol p a cls) (qol q b cls)).

  Definition Rstep (x : step_res P) (y : step_res Q) : Prop :=
    match x, y with
    | Continue p s, Continue q t => RP p q ∧ RS s t
    | Found p s, Found q t => RP p q ∧ RS s t
    | Failed c l s, Failed c' l' t => c = c' ∧ l = l' ∧ RS s t
    | _, _ => False
    end.
  Lemma search_step_RS f r p q s t : RP p q → RS s t → res_rel Rstep (search_step pol f r p s) (search_step qol f r q t).
  Proof.
    intros HP H. unfold search_step. eapply res_rel_bind; [by apply propagate_RS|].
    intros [c1 s1] [c2 s2] [E H1]. cbn in E, H1. subst c2. destruct c1 as [c|].
    - eapply res_rel_bind; [by apply analyze_RS|]. intros [[l1 b1] s3] [[l2 b2] s4] [E H2]. cbn in E, H2. injection E as -> ->.
      rewrite (dl_RS _ _ H2). case_decide; [done|].
      eapply res_rel_bind; [by apply cancel_until_RS|]. intros s5 s6 H3.
      eapply res_rel_bind; [by apply record_RS|]. by intros [s7|c1 l1 s7] [s8|c2 l3 s8].
    - unfold number_assigned, number_variables, num_assigned, aset_len.
      rewrite (ra_assigned _ _ (rs_asg _ _ H1)), (ra_seen _ _ (rs_asg _ _ H1)), (clause_lits_RS _ _ H1).
      case_decide; [done|].
      eapply res_rel_bind; [apply Hpol; [done|by apply rs_asg]|].
      intros [[v1 p1] a1] [[v2 p2] a2] (E & HP1 & HA). cbn in E, HP1, HA. subst v2.
      eapply res_rel_bind; [apply assume_RS; opn H1; by split|].
      by intros [? ?] [? ?] [_ ?].
  Qed.
  Definition Rloop (x : out (P * solver)) (y : out (Q * solver)) : Prop :=
    match x, y with
    | Normal (p, s), Normal (q, t) => RP p q ∧ RS s t
    | Unsat c l s, Unsat c' l' t => c = c' ∧ l = l' ∧ RS s t
    | _, _ => False
    end.
  Lemma search_loop_RS pf f r p q s t : RP p q → RS s t →
    res_rel Rloop (search_loop pol pf f r p s) (search_loop qol pf f r q t).
  Proof.
    revert p q s t. induction f as [|f IH]; intros p q s t HP H; [done|]. cbn.
    eapply res_rel_bind; [by apply search_step_RS|].
    intros [p1 s1|p1 s1|c1 l1 s1] [p2 s2|p2 s2|c2 l2 s2]; try done. intros [? ?]. by apply IH.
  Qed.

  (** The answers: equal solutions (up to the bookkeeping), or the same error. *)
  Definition same_values (a b : aset) : Prop :=
    a_data a = a_data b ∧ a_seen a = a_seen b ∧ a_assigned a = a_assigned b.
  Definition same_out (x y : out aset) : Prop :=
    match x, y with
    | Normal a, Normal b => same_values a b
    | Unsat c l s, Unsat c' l' t => c = c' ∧ l = l' ∧ RS s t
    | _, _ => False
    end.
  Lemma search_RS f p q s t : RP p q → RS s t → res_rel same_out (search pol f p s) (search qol f q t).
  Proof.
    intros HP H. unfold search. rewrite (dl_RS _ _ H). eapply res_rel_bind; [by apply search_loop_RS|].
    intros [[p1 s1]|c1 l1 s1] [[p2 s2]|c2 l2 s2]; try done. intros [_ H1]. cbn.
    destruct (rs_asg _ _ H1). done.
  Qed.
  (** Two runs on the same clauses.  The solver is created before the policy is used, so both start from
      the same state. *)
  Theorem solve_clauses_sim f p q rules : (∀ X, N X X) → RP p q →
    res_rel same_out (solve_clauses pol f p rules) (solve_clauses qol f q rules).
  Proof.
    intros HX HP. unfold solve_clauses. eapply res_rel_bind; [apply res_rel_eq|]. intros o ? <-.
    assert (∀ s, RS s s) as Hs by (intros s; split; [by split|by destruct s]).
    destruct o as [s|c l s]; [by apply search_RS|cbn; auto].
  Qed.
End sim.
