(** * Proofs about the decision log. *)
From Verif Require Import PolicyProofs.
From Verif Require Export PolicyLog SpecLog.

(** [Q] holds of the result, if there is one. *)
Definition ensures {A} (Q : A → Prop) (m : res A) : Prop := match m with Ok a => Q a | Raise _ => True end.
Lemma ensures_bind {A B} (Q : A → Prop) (R : B → Prop) m (f : A → res B) :
  ensures Q m → (∀ a, Q a → ensures R (f a)) → ensures R (m ≫= f).
Proof. destruct m; cbn; auto. Qed.
Lemma ensures_True {A} (m : res A) : ensures (λ _, True) m.
Proof. by destruct m. Qed.

(** ** What the solver does to its assignments object: it sets non-negative keys. *)
Section keep.
  Context (I : aset → Prop) (HI : ∀ k v a, 0 ≤ k → I a → ensures I (aset_set k v a)).
  Local Notation J := (λ s, I (s_asg s)).

  Lemma enqueue_keep l c s : J s → ensures (λ r, J r.2) (enqueue l c s).
  Proof.
    intros H. unfold enqueue. destruct (aset_value _ _); [done|].
    eapply ensures_bind; [apply HI; [lia|done]|]. done.
  Qed.
  Lemma assume_keep l s : J s → ensures (λ r, J r.2) (assume l s).
  Proof. intros H. unfold assume. by apply enqueue_keep. Qed.
  Definition keep_out (o : out solver) : Prop := match o with Normal s => J s | Unsat _ _ _ => True end.
  Lemma add_clause_ref_keep i s : J s → ensures keep_out (add_clause_ref i s).
  Proof.
    intros H. unfold add_clause_ref. destruct (lits_of s i) as [|x [|y l]]; [done| |done].
    eapply ensures_bind; [by apply enqueue_keep|]. intros [[] s'] H'; [exact H'|exact Logic.I].
  Qed.
  Lemma add_clauses_keep rules s : J s → ensures keep_out (add_clauses rules s).
  Proof.
    revert s. induction rules as [|[l r] rules IH]; intros s H; [done|]. cbn [add_clauses].
    eapply ensures_bind; [apply (add_clause_ref_keep _ _); exact H|]. intros [s'|c l' s'] H'; [by apply IH|done].
  Qed.
  Lemma setup_keep s : J s → ensures J (setup_assignments s).
  Proof.
    intros H. unfold setup_assignments. eapply (ensures_bind I); [|done].
    assert (∀ v, v ∈ Z.abs <$> mjoin (clause_lits s) → 0 ≤ v) as Hpos.
    { intros v (x & -> & _)%elem_of_list_fmap. lia. }
    cbn beta in H. revert Hpos H. generalize (s_asg s) as a. generalize (Z.abs <$> mjoin (clause_lits s)) as l.
    induction l as [|v l IH]; intros a Hpos Ha; cbn [foldM]; [exact Ha|].
    eapply (ensures_bind I).
    - destruct (aset_contains a v); [done|]. apply HI; [|done]. apply Hpos. left.
    - intros a' Ha'. apply IH; [|done]. intros w Hw. apply Hpos. by right.
  Qed.
  Lemma from_clauses_keep rules : I aset_empty → ensures keep_out (from_clauses rules).
  Proof.
    intros H. unfold from_clauses. eapply ensures_bind; [by apply add_clauses_keep|].
    intros [s|c l s] Hs; [|done]. eapply ensures_bind; [by apply setup_keep|]. done.
  Qed.
  Lemma prop_watch_keep lit pending s : J s → ensures (λ r, J r.2) (prop_watch lit pending s).
  Proof.
    revert s. induction pending as [|i rest IH]; intros s H; [done|]. cbn [prop_watch].
    eapply ensures_bind; [apply ensures_True|]. intros [lits u] _.
    eapply ensures_bind; [apply ensures_True|]. intros w _. cbn zeta.
    destruct u as [u|]; [|by apply IH]. case_decide; [done|].
    eapply ensures_bind; [by apply enqueue_keep|]. intros [b s'] H'. by apply IH.
  Qed.
  Lemma propagate_keep fuel s : J s → ensures (λ r, J r.2) (propagate fuel s).
  Proof.
    revert s. induction fuel as [|fuel IH]; intros s H; cbn [propagate]; destruct (s_queue s) as [|l q]; try done.
    eapply ensures_bind; [by apply prop_watch_keep|]. intros [[c|] s'] H'; [done|]. by apply IH.
  Qed.
  Lemma undo_one_keep s : J s → ensures J (undo_one s).
  Proof.
    intros H. unfold undo_one. destruct (s_trail s) as [|p t]; [done|].
    eapply ensures_bind; [apply HI; [lia|done]|]. done.
  Qed.
  Lemma analyze_pop_keep t st s : J s → ensures (λ r, J r.2) (analyze_pop t st s).
  Proof.
    revert st s. induction t as [|p t IH]; intros st s H; [done|]. cbn [analyze_pop].
    eapply ensures_bind; [apply ensures_True|]. intros c _.
    eapply ensures_bind; [by apply undo_one_keep|]. intros s' H'.
    case_decide; [case_decide|]; [done|by apply IH|by apply IH].
  Qed.
  Lemma analyze_keep c s : J s → ensures (λ r, J r.2) (analyze c s).
  Proof.
    intros H. unfold analyze. eapply ensures_bind; [by apply analyze_pop_keep|].
    intros [[p st] s'] H'. exact H'.
  Qed.
  Lemma undo_n_keep n s : J s → ensures J (undo_n n s).
  Proof.
    revert s. induction n as [|n IH]; intros s H; [done|]. cbn [undo_n].
    eapply ensures_bind; [by apply undo_one_keep|]. intros s' H'. by apply IH.
  Qed.
  Lemma cancel_loop_keep n l s : J s → ensures J (cancel_loop n l s).
  Proof.
    revert s. induction n as [|n IH]; intros s H; cbn [cancel_loop]; case_decide; try done.
    apply (ensures_bind (λ s, I (s_asg s))); [|intros s' H'; by apply IH].
    unfold MiniSat.cancel. destruct (s_lims s); [done|]. by apply undo_n_keep.
  Qed.
  Lemma record_keep i s : J s → ensures keep_out (record i s).
  Proof.
    intros H. unfold record. destruct (lits_of s i) as [|x l]; [done|].
    eapply ensures_bind; [by apply add_clause_ref_keep|]. intros [s'|c l' s'] H'; [|done].
    eapply ensures_bind; [apply ensures_True|]. intros y _.
    eapply ensures_bind; [by apply enqueue_keep|]. by intros [b s''] H''.
  Qed.
End keep.

(** ** The bookkeeping of the assignments object relative to the situation at the last consumption. *)
Record tracks (prev : situation) (a : aset) : Prop := {
  tk_some : ∀ k o, a_orig a !! k = Some o → o = prev !! k ∧ 0 ≤ k;
  tk_none : ∀ k, 0 ≤ k → a_orig a !! k = None → prev !! k = a_data a !! k;
  tk_cached : ∀ c, a_cached a = Some c → difference_of prev (current a) c;
  tk_prev : ∀ k, ¬ 0 ≤ k → prev !! k = None }.
Lemma current_lookup a k : current a !! k = if decide (0 ≤ k) then a_data a !! k else None.
Proof.
  unfold current. case_decide as Hk.
  - destruct (a_data a !! k) as [b|] eqn:E.
    + apply map_filter_lookup_Some. done.
    + apply map_filter_lookup_None. by left.
  - apply map_filter_lookup_None. right. intros b _ H. done.
Qed.
Lemma tracks_empty : tracks ∅ aset_empty.
Proof. split; cbn; try done; intros; by rewrite ?lookup_empty in *. Qed.
Lemma tracks_changelog prev a : tracks prev a → difference_of prev (current a) (fst (get_changelog a)).
Proof.
  intros T. unfold get_changelog. destruct (a_cached a) as [c|] eqn:Ec; [by apply (tk_cached _ _ T)|].
  cbn. intros k old new. rewrite current_lookup. unfold compute_changelog. rewrite lookup_omap, map_lookup_imap.
  destruct (a_orig a !! k) as [o|] eqn:Eo; cbn.
  - destruct (tk_some _ _ T _ _ Eo) as [-> Hk]. destruct (decide (0 ≤ k)) as [_|]; [|done].
    case_decide as E; cbn in E.
    + split; [done|]. by intros (-> & -> & H).
    + split; [by intros [= <- <-]|]. by intros (-> & -> & H).
  - split; [done|]. intros (-> & -> & H). case_decide as Hk.
    + by rewrite (tk_none _ _ T _ Hk Eo) in H.
    + by rewrite (tk_prev _ _ T _ Hk) in H.
Qed.

Lemma tracks_set prev k v a : 0 ≤ k → tracks prev a → ensures (tracks prev) (aset_set k v a).
Proof.
  intros Hk T. unfold aset_set.
  set (a1 := if decide (Z.abs k ∈ a_seen a) then a else _).
  assert (tracks prev a1) as T1. { unfold a1. case_decide; [done|]. destruct T. by split. }
  clearbody a1. clear T a. eapply (ensures_bind (tracks prev)); [|intros a2 []; by split].
  assert (∀ k, 0 ≤ k → a_orig a1 !! k = None → prev !! k = a_data a1 !! k) as HN by apply (tk_none _ _ T1).
  destruct v as [b|].
  - cbn [ensures]. unfold update_diff. replace (k <? 0) with false by lia. split; cbn.
    + intros j o. destruct (a_orig a1 !! k) as [o'|] eqn:Eo.
      * apply (tk_some _ _ T1).
      * destruct (decide (j = k)) as [->|Hj].
        -- rewrite lookup_insert. intros [= <-]. split; [|done]. symmetry. by apply HN.
        -- rewrite lookup_insert_ne by done. apply (tk_some _ _ T1).
    + intros j Hj. destruct (decide (j = k)) as [->|Hjk].
      * destruct (a_orig a1 !! k) eqn:Eo; [by rewrite Eo|by rewrite lookup_insert].
      * intros E. rewrite !lookup_insert_ne by lia. apply HN; [done|].
        destruct (a_orig a1 !! k) eqn:Eo; [done|by rewrite lookup_insert_ne in E].
    + done.
    + apply (tk_prev _ _ T1).
  - unfold aset_del. cbn [a_data]. destruct (a_data a1 !! k) as [b|] eqn:Ed; [|destruct T1; by split].
    destruct (delete k _ !! (- k)) eqn:E2; [|done]. cbn [ensures]. unfold update_diff. cbn. rewrite Ed. split; cbn.
    + intros j o. destruct (a_orig a1 !! k) as [o'|] eqn:Eo.
      * apply (tk_some _ _ T1).
      * destruct (decide (j = k)) as [->|Hj].
        -- rewrite lookup_insert. intros [= <-]. split; [|done]. rewrite <- Ed. symmetry. by apply HN.
        -- rewrite lookup_insert_ne by done. apply (tk_some _ _ T1).
    + intros j Hj. destruct (decide (j = k)) as [->|Hjk].
      * destruct (a_orig a1 !! k) eqn:Eo; [by rewrite Eo|by rewrite lookup_insert].
      * intros E. rewrite !lookup_delete_ne by lia. apply HN; [done|].
        destruct (a_orig a1 !! k) eqn:Eo; [done|by rewrite lookup_insert_ne in E].
    + done.
    + apply (tk_prev _ _ T1).
Qed.

(** Consumption starts from the current situation. *)
Lemma tracks_consume a : tracks (current a) (snd (consume_changelog a)).
Proof.
  destruct (consume_fields a) as (Hd & _ & _).
  unfold consume_changelog in *. destruct (get_changelog a) as [c a'] eqn:E. cbn in *. split; cbn.
  - intros k o. by rewrite lookup_empty.
  - intros k Hk _. rewrite current_lookup, decide_True by done. by rewrite Hd.
  - intros c' [= <-]. intros k old new. rewrite lookup_empty.
    assert (current (ASet (a_data a') ∅ (a_seen a') (Some ∅) (a_assigned a') ∅) = current a) as ->.
    { unfold current. cbn. by rewrite Hd. }
    split; [done|]. by intros (-> & -> & H).
  - intros k Hk. rewrite current_lookup, decide_False by done. done.
Qed.

Lemma difference_unique prev now c c' : difference_of prev now c → difference_of prev now c' → c = c'.
Proof.
  intros H H'. apply map_eq. intros k.
  destruct (c !! k) as [[o n]|] eqn:E.
  - symmetry. apply H'. by apply H.
  - destruct (c' !! k) as [[o n]|] eqn:E'; [|done]. apply H', H in E'. congruence.
Qed.
Lemma replay_step_diff prev now c : difference_of prev now c → replay_step prev c = now.
Proof.
  intros H. apply map_eq. intros k. unfold replay_step. rewrite lookup_merge.
  destruct (c !! k) as [[o n]|] eqn:E.
  - apply H in E as (-> & -> & _). by destruct (prev !! k), (now !! k).
  - assert (prev !! k = now !! k) as Hk.
    { destruct (decide (prev !! k = now !! k)) as [|Hne]; [done|].
      assert (c !! k = Some (prev !! k, now !! k)) by (by apply H). congruence. }
    rewrite <- Hk. by destruct (prev !! k).
Qed.

(** ** Runs *)
Section run.
  Context {P Q : Type} (pol : policy P) (qol : policy Q) (R : P → Q → aset → Prop).
  Context (HS : ∀ p q k v a, 0 ≤ k → R p q a → ensures (R p q) (aset_set k v a)).
  Context (Hpol : ∀ p q a cls, R p q a →
    match pol p a cls, qol q a cls with
    | Ok (v, p', a'), Ok (w, q', b') => v = w ∧ a' = b' ∧ R p' q' a'
    | Raise e, Raise e' => e = e'
    | _, _ => False
    end).
  Definition Rs (x : step_res P) (y : step_res Q) : Prop :=
    match x, y with
    | Continue p s, Continue q t | Found p s, Found q t => s = t ∧ R p q (s_asg s)
    | Failed c l s, Failed c' l' t => c = c' ∧ l = l' ∧ s = t
    | _, _ => False
    end.
  Definition Rres {A B} (T : A → B → Prop) (x : res A) (y : res B) : Prop :=
    match x, y with Ok a, Ok b => T a b | Raise e, Raise e' => e = e' | _, _ => False end.
  Lemma step_run f r p q s : R p q (s_asg s) → Rres Rs (search_step pol f r p s) (search_step qol f r q s).
  Proof.
    intros H. unfold search_step.
    pose proof (propagate_keep (R p q) (HS p q) f s H) as Hp.
    destruct (propagate f s) as [[[c|] s1]|e]; cbn [mbind res_bind]; [| |done]; cbn in Hp.
    - pose proof (analyze_keep (R p q) (HS p q) c s1 Hp) as Ha.
      destruct (analyze c s1) as [[[l b] s2]|e]; cbn [mbind res_bind]; [|done]. cbn in Ha.
      case_decide; [done|].
      pose proof (cancel_loop_keep (R p q) (HS p q) (length (s_lims s2)) (Z.max b r) s2 Ha) as Hc.
      unfold cancel_until. destruct (cancel_loop _ _ s2) as [s3|e]; cbn [mbind res_bind]; [|done]. cbn in Hc.
      pose proof (record_keep (R p q) (HS p q) l s3 Hc) as Hr.
      destruct (record l s3) as [[s4|c4 l4 s4]|e]; cbn [mbind res_bind]; done.
    - case_decide; [done|].
      pose proof (Hpol p q (s_asg s1) (clause_lits s1) Hp) as Hq.
      destruct (pol p (s_asg s1) (clause_lits s1)) as [[[v p'] a']|e],
               (qol q (s_asg s1) (clause_lits s1)) as [[[w q'] b']|e']; try done; cbn [mbind res_bind].
      destruct Hq as (<- & <- & HR).
      pose proof (assume_keep (R p' q') (HS p' q') v (set_asg a' s1) HR) as Hs.
      destruct (assume v (set_asg a' s1)) as [[b2 s2]|e]; cbn [mbind res_bind]; done.
  Qed.
  Definition Rl (x : out (P * solver)) (y : out (Q * solver)) : Prop :=
    match x, y with
    | Normal (p, s), Normal (q, t) => s = t ∧ R p q (s_asg s)
    | Unsat c l s, Unsat c' l' t => c = c' ∧ l = l' ∧ s = t
    | _, _ => False
    end.
  Lemma loop_run pf f r p q s : R p q (s_asg s) → Rres Rl (search_loop pol pf f r p s) (search_loop qol pf f r q s).
  Proof.
    revert p q s. induction f as [|f IH]; intros p q s H; [done|]. cbn [search_loop].
    pose proof (step_run pf r p q s H) as Hs.
    destruct (search_step pol pf r p s) as [[p1 s1|p1 s1|c1 l1 s1]|e],
             (search_step qol pf r q s) as [[p2 s2|p2 s2|c2 l2 s2]|e']; try done; cbn [mbind res_bind].
    destruct Hs as [<- HR]. by apply IH.
  Qed.
  Lemma start_run p q rules : R p q aset_empty → ensures (keep_out (R p q)) (from_clauses rules).
  Proof. intros H. apply from_clauses_keep; [apply HS|done]. Qed.
  Lemma solve_run f p q rules : R p q aset_empty → solve_clauses pol f p rules = solve_clauses qol f q rules.
  Proof.
    intros H. unfold solve_clauses. pose proof (start_run p q rules H) as Hk.
    destruct (from_clauses rules) as [[s|c l s]|e]; cbn [mbind res_bind]; [|done|done]. cbn in Hk. unfold search.
    pose proof (loop_run f f (decision_level s) p q s Hk) as Hl.
    destruct (search_loop pol f f _ p s) as [[[p1 s1]|c1 l1 s1]|e],
             (search_loop qol f f _ q s) as [[[p2 s2]|c2 l2 s2]|e']; try done; cbn [mbind res_bind]; cbn in Hl.
    - by destruct Hl as [<- _].
    - by destruct Hl as (<- & <- & <-).
    - by subst.
  Qed.
End run.
