(** * Rule generation terminates and explores exactly the reachable packages. *)
From Verif Require Import PoolProofs PropPool.
From Verif Require Export RulesProofs.

Lemma foldM_inv {A B} (f : B → A → res B) (I : list A → B → Prop) (xs : list A) b b' :
  I [] b → (∀ ys x b b', I ys b → x ∈ xs → f b x = Ok b' → I (ys ++ [x]) b') →
  foldM f xs b = Ok b' → I xs b'.
Proof.
  intros H0 HS. assert (G : ∀ zs ys b, (∀ x, x ∈ zs → x ∈ xs) → I ys b → foldM f zs b = Ok b' → I (ys ++ zs) b').
  { induction zs as [|z zs IH]; intros ys b0 Hz Hb; cbn [foldM].
    - intros [= <-]. by rewrite app_nil_r.
    - intros (b1 & H1 & H2)%mbind_ok. rewrite (cons_middle z ys zs), app_assoc. eapply IH; [|eapply HS; [done| |done]|done].
      + intros x Hx. apply Hz. by right.
      + apply Hz. left. }
  intros H. apply (G xs [] b); [done|done|done].
Qed.
Lemma foldM_total {A B} (f : B → A → res B) (xs : list A) b :
  (∀ x b, x ∈ xs → ∃ b', f b x = Ok b') → ∃ b', foldM f xs b = Ok b'.
Proof.
  revert b. induction xs as [|x xs IH]; intros b H; cbn [foldM]; [eauto|].
  destruct (H x b) as [b1 ->]; [left|]. cbn [mbind res_bind]. apply IH. intros y b2 Hy. apply H. by right.
Qed.

(** Not stopped by the recursion bound of the model. *)
Definition no_fuel {A} (m : res A) : Prop := m ≠ Raise OutOfFuel.
Lemma no_fuel_ok {A} (a : A) : no_fuel (Ok a).
Proof. done. Qed.
Lemma no_fuel_bind {A B} (m : res A) (f : A → res B) :
  no_fuel m → (∀ a, m = Ok a → no_fuel (f a)) → no_fuel (m ≫= f).
Proof. unfold no_fuel. intros Hm Hf. destruct m as [a|e]; cbn; [by apply Hf|]. intros [= ->]. done. Qed.
Lemma no_fuel_foldM {A B} (f : B → A → res B) (xs : list A) b :
  (∀ x b, x ∈ xs → no_fuel (f b x)) → no_fuel (foldM f xs b).
Proof.
  revert b. induction xs as [|x xs IH]; intros b H; cbn [foldM]; [done|].
  apply no_fuel_bind; [apply H; left|]. intros b1 _. apply IH. intros y b2 Hy. apply H. by right.
Qed.
Lemma no_fuel_mapM {A B} (f : A → res B) (xs : list A) :
  (∀ x, x ∈ xs → no_fuel (f x)) → no_fuel (mapM_res f xs).
Proof.
  induction xs as [|x xs IH]; intros H; cbn [mapM_res]; [done|].
  apply no_fuel_bind; [apply H; left|]. intros b1 _. apply no_fuel_bind; [|done]. apply IH. intros y Hy. apply H. by right.
Qed.
Lemma no_fuel_of_option {A} e (o : option A) : e ≠ OutOfFuel → no_fuel (of_option e o).
Proof. unfold no_fuel. destruct o; cbn; congruence. Qed.
Lemma no_fuel_package_id po p : no_fuel (package_id po p).
Proof. by apply no_fuel_of_option. Qed.
Lemma no_fuel_from_constraints cls d : no_fuel (from_constraints cls d).
Proof. destruct d. unfold from_constraints, no_fuel. by destruct (1 <? _)%nat. Qed.
Lemma no_fuel_modify r m : no_fuel (modify_requirement r m).
Proof. unfold modify_requirement, no_fuel. by repeat case_match. Qed.
Lemma no_fuel_what_provides po r b : no_fuel (what_provides po r b).
Proof.
  unfold what_provides. destruct (po_byname po !! r_name r); [|done]. apply no_fuel_bind; [|done].
  destruct b; [|done]. unfold pool_modify. destruct (po_mods po); [apply no_fuel_modify|done].
Qed.
Lemma no_fuel_strict s e reqs : e ≠ OutOfFuel → no_fuel (strict_check s e reqs).
Proof. unfold strict_check, no_fuel. intros. repeat case_match; congruence. Qed.
Lemma no_fuel_requires po s p reqs ds : ∀ acc st, no_fuel (requires_rules po s p reqs ds acc st).
Proof.
  induction ds as [|d ds IH]; intros acc st; cbn [requires_rules]; [done|].
  apply no_fuel_bind; [apply no_fuel_from_constraints|]. intros r _.
  apply no_fuel_bind; [apply no_fuel_what_provides|]. intros [|q cs] _.
  - apply no_fuel_bind; [by apply no_fuel_strict|]. intros _ _. apply no_fuel_bind; [|done].
    apply no_fuel_bind; [apply no_fuel_package_id|done].
  - apply no_fuel_bind; [|intros; apply IH]. apply no_fuel_bind; [apply no_fuel_package_id|]. intros i _.
    apply no_fuel_bind; [|done]. apply no_fuel_mapM. intros. apply no_fuel_package_id.
Qed.
Lemma no_fuel_add_conflicts po p t comb qs st : no_fuel (add_conflicts po p t comb qs st).
Proof.
  apply no_fuel_foldM. intros q st' _. apply no_fuel_bind; [|done]. unfold conflicts_rule.
  destruct (pkg_eq p q); [done|]. do 2 (apply no_fuel_bind; [apply no_fuel_package_id|intros ? _]). done.
Qed.
Lemma no_fuel_name cls n : no_fuel (name_requirement cls n).
Proof.
  intros H. unfold name_requirement in H. apply ReqProofs.req_errors in H.
  destruct H as [|[|[[t H]|[[? _]|[? _]]]]]; done.
Qed.
Lemma no_fuel_conflicts po s p reqs st : no_fuel (conflicts_rules po s p reqs st).
Proof.
  unfold conflicts_rules. apply no_fuel_bind.
  - unfold same_name_rules. apply no_fuel_bind; [apply no_fuel_name|]. intros r _.
    apply no_fuel_bind; [apply no_fuel_what_provides|]. intros. apply no_fuel_add_conflicts.
  - intros st' _. apply no_fuel_foldM. intros d st2 _. apply no_fuel_bind; [apply no_fuel_from_constraints|]. intros r _.
    apply no_fuel_bind; [apply no_fuel_what_provides|]. intros cs _. apply no_fuel_bind.
    + destruct cs; [by apply no_fuel_strict|done].
    + intros _ _. apply no_fuel_add_conflicts.
Qed.

Section loop.
  Context (po : pool) (l : list package) (R : pool_rep po l) (Hinj : well_formed l).
  Context (installed : list (Z * package)) (strict : bool).
  Local Notation pid := (pid po).
  Local Notation next := (next po).

  (** Packages reachable from the roots. *)
  Inductive reach (Rt : package → Prop) : package → Prop :=
    | reach_root p : Rt p → reach Rt p
    | reach_next p q : reach Rt p → q ∈ next p → reach Rt q.
  Lemma reach_mono (Rt Rt' : package → Prop) p : (∀ q, Rt q → Rt' q) → reach Rt p → reach Rt' p.
  Proof. intros H. induction 1; [apply reach_root; auto|by eapply reach_next]. Qed.
  Lemma next_sub p q : q ∈ next p → q ∈ l.
  Proof.
    unfold RulesProofs.next. destruct (all_met _ _); [|by intros ?%elem_of_nil].
    intros (k & Hq & (d & -> & _)%elem_of_list_fmap)%elem_of_list_join. by eapply dcand_sub.
  Qed.

  Definition explored (st : gst) (p : package) : Prop := p ∈ l ∧ pid p ∈ g_added st.
  Record ginv (st : gst) (queue : list package) (Rt : package → Prop) (Jc : list Z → Prop) : Prop := {
    gi_ids : ∀ i, i ∈ g_added st → ∃ p, p ∈ l ∧ i = pid p;
    gi_lits : ∀ c, lits st c ↔ Jc c ∨ ∃ p, explored st p ∧ pkg_clause po l p c;
    gi_fine : ∀ p, explored st p → pkg_fine po p;
    gi_reach : ∀ p, explored st p → reach Rt p;
    gi_closed : ∀ p q, explored st p → q ∈ next p → explored st q ∨ q ∈ queue;
    gi_roots : ∀ p, Rt p → explored st p ∨ p ∈ queue;
    gi_queue : ∀ p, p ∈ queue → p ∈ l ∧ reach Rt p }.

  Lemma ginv_done st Rt Jc p : ginv st [] Rt Jc → explored st p ↔ reach Rt p.
  Proof.
    intros I. split; [apply (gi_reach _ _ _ _ I)|]. induction 1 as [p Hp|p q _ IH Hq].
    - by destruct (gi_roots _ _ _ _ I p Hp) as [?|?%elem_of_nil].
    - by destruct (gi_closed _ _ _ _ I p q IH Hq) as [?|?%elem_of_nil].
  Qed.
  Lemma ginv_proper st queue Rt Rt' Jc Jc' : (∀ p, Rt p ↔ Rt' p) → (∀ c, Jc c ↔ Jc' c) →
    ginv st queue Rt Jc → ginv st queue Rt' Jc'.
  Proof.
    intros HR HJ [I1 I2 I3 I4 I5 I6 I7]. split; [done| |done| |done| |].
    - intros c. by rewrite I2, HJ.
    - intros p Hp. eapply reach_mono; [|by apply I4]. intros q. apply HR.
    - intros p Hp. by apply I6, HR.
    - intros p Hp. split; [by apply I7|]. eapply reach_mono; [|by apply I7]. intros q. apply HR.
  Qed.
  Lemma ginv_root st Rt Jc p : p ∈ l → ginv st [] Rt Jc → ginv st [p] (λ q, Rt q ∨ q = p) Jc.
  Proof.
    intros Hp [I1 I2 I3 I4 I5 I6 I7]. split; [done|done|done| | | |].
    - intros q Hq. eapply reach_mono; [|by apply I4]. auto.
    - intros a b Ha Hb. destruct (I5 a b Ha Hb) as [?|?%elem_of_nil]; [by left|done].
    - intros q [Hq| ->]; [|right; left]. destruct (I6 q Hq) as [?|?%elem_of_nil]; [by left|done].
    - intros q ->%elem_of_list_singleton. split; [done|]. apply reach_root. by right.
  Qed.
  Lemma ginv_rule st Rt Jc r : ginv st [] Rt Jc → ginv (add_rule st r) [] Rt (λ c, Jc c ∨ c = ru_lits r).
  Proof.
    intros [I1 I2 I3 I4 I5 I6 I7].
    assert (He : ∀ q, explored (add_rule st r) q ↔ explored st q) by (intros q; unfold explored; by rewrite added_add).
    split; [by rewrite added_add| | | | | |done]; setoid_rewrite He; try done.
    intros c. rewrite lits_add, I2. tauto.
  Qed.

  Lemma loop_spec : ∀ fuel queue st st' Rt Jc,
    package_rules_loop po strict fuel queue st = Ok st' → ginv st queue.*1 Rt Jc → ginv st' [] Rt Jc.
  Proof.
    induction fuel as [|fuel IH]; intros queue st st' Rt Jc; (destruct queue as [|[p reqs] queue]; cbn [package_rules_loop]; [by intros [= <-]|]).
    { done. }
    rewrite fmap_cons. cbn [fst]. intros H I. destruct I as [I1 I2 I3 I4 I5 I6 I7].
    destruct (I7 p (elem_of_list_here _ _)) as [Hp Hr].
    rewrite (pid_ok _ _ R p Hp) in H. cbn [mbind res_bind] in H. case_decide as Hd.
    - eapply IH; [exact H|]. assert (Hx : explored st p) by done. split; [done..| | |].
      + intros a b Ha Hb. destruct (I5 a b Ha Hb) as [?|[->|?]%elem_of_cons]; auto.
      + intros a Ha. destruct (I6 a Ha) as [?|[->|?]%elem_of_cons]; auto.
      + intros a Ha. apply I7. by right.
    - apply mbind_ok in H as ([st1 more] & H1 & H). apply mbind_ok in H as (st2 & H2 & H).
      apply (requires_rules_spec _ _ R) in H1 as (A1 & L1 & F1 & M1); [|done].
      apply (conflicts_rules_spec _ _ R Hinj) in H2 as (A2 & L2 & F2); [|done].
      rewrite A1 in A2. cbn [g_added] in A2.
      assert (M : more.*1 = next p).
      { rewrite M1. unfold RulesProofs.next. by destruct (all_met _ _). }
      assert (Hex : ∀ q, explored st2 q ↔ q = p ∨ explored st q).
      { intros q. unfold explored. rewrite A2, elem_of_union, elem_of_singleton. split.
        - intros [Hq [He|?]]; [left|by right]. by eapply pid_inj.
        - intros [->|[? ?]]; auto. }
      eapply IH; [exact H|]. rewrite fmap_app, M. split.
      + intros i. rewrite A2, elem_of_union, elem_of_singleton. intros [->|?]; eauto.
      + intros c. rewrite L2, L1. change (lits _ c) with (lits st c). rewrite I2. setoid_rewrite Hex. unfold pkg_clause. split.
        * intros [[[?|(q & ? & ?)]|?]|?]; [by left|right; eauto|right; exists p; auto..].
        * intros [?|(q & [->|?] & Hc)]; [by left; left; left|destruct Hc; [left; by right|by right]|].
          left; left; right. eauto.
      + intros q [->|?]%Hex; [|auto]. by split.
      + intros q [->|?]%Hex; auto.
      + intros a b [->|Ha]%Hex Hb.
        * right. apply elem_of_app. by right.
        * destruct (I5 a b Ha Hb) as [?|[->|?]%elem_of_cons]; [left; apply Hex; auto..|]. right. apply elem_of_app. by left.
      + intros a Ha. destruct (I6 a Ha) as [?|[->|?]%elem_of_cons]; [left; apply Hex; auto..|]. right. apply elem_of_app. by left.
      + intros a [Ha|Ha]%elem_of_app; [apply I7; by right|]. split; [by eapply next_sub|]. by eapply reach_next.
  Qed.

  (** ** Termination *)
  Definition weight (added : gset Z) (p : package) : nat :=
    if decide (pid p ∈ added) then 0%nat else length (next p).
  Definition todo (added : gset Z) : nat := list_sum (weight added <$> remove_dups l).
  Definition bound : nat := S (todo ∅).
  Lemma todo_add added p : p ∈ l → pid p ∉ added → (todo ({[pid p]} ∪ added) + length (next p) = todo added)%nat.
  Proof.
    intros Hp Hn. unfold todo. assert (Hd := NoDup_remove_dups l). assert (Hin : p ∈ remove_dups l) by by apply elem_of_remove_dups.
    assert (Hl : ∀ q, q ∈ remove_dups l → q ∈ l) by (intros q; by rewrite elem_of_remove_dups).
    revert Hd Hin Hl. generalize (remove_dups l) as k. induction k as [|a k IH]; intros Hd Hin Hl.
    { by apply elem_of_nil in Hin. }
    apply NoDup_cons in Hd as [Ha Hd]. rewrite !fmap_cons.
    change (list_sum (?x :: ?y)) with (x + list_sum y)%nat.
    assert (Hsame : ∀ q, q ∈ l → q ≠ p → weight ({[pid p]} ∪ added) q = weight added q).
    { intros q Hq Hne. unfold weight. assert (pid q ≠ pid p) by (intros He; apply Hne; by eapply pid_inj).
      destruct (decide (pid q ∈ added)).
      - by rewrite decide_True by set_solver.
      - by rewrite decide_False by set_solver. }
    apply elem_of_cons in Hin as [<-|Hin].
    - assert (E : weight ({[pid p]} ∪ added) <$> k = weight added <$> k).
      { apply list_fmap_ext. intros i q Hq%elem_of_list_lookup_2. apply Hsame; [apply Hl; by right|]. by intros ->. }
      rewrite E. unfold weight at 1 3. rewrite decide_True by set_solver. rewrite decide_False by done. lia.
    - rewrite Hsame; [|apply Hl; by left|by intros ->]. rewrite <-IH; [lia|done|done|]. intros q Hq. apply Hl. by right.
  Qed.
  Lemma todo_bound added : (todo added ≤ todo ∅)%nat.
  Proof.
    unfold todo. generalize (remove_dups l) as k. induction k as [|a k IH]; [done|].
    rewrite !fmap_cons. change (list_sum (?x :: ?y)) with (x + list_sum y)%nat.
    assert (weight added a ≤ weight ∅ a)%nat; [|lia]. unfold weight. rewrite (decide_False (P := pid a ∈ ∅)) by set_solver.
    case_decide; lia.
  Qed.
  Lemma loop_terminates : ∀ fuel queue st, (∀ p, p ∈ queue.*1 → p ∈ l) →
    (length queue + todo (g_added st) ≤ fuel)%nat → no_fuel (package_rules_loop po strict fuel queue st).
  Proof.
    induction fuel as [|fuel IH]; intros queue st Hq Hf; (destruct queue as [|[p reqs] queue]; cbn [package_rules_loop]; [done|]).
    { cbn in Hf. lia. }
    assert (Hp : p ∈ l) by (apply Hq; left). cbn [length] in Hf.
    rewrite (pid_ok _ _ R p Hp). cbn [mbind res_bind]. case_decide as Hd.
    - apply IH; [intros q Hin; apply Hq; by right|lia].
    - apply no_fuel_bind; [apply no_fuel_requires|]. intros [st1 more] H1.
      apply no_fuel_bind; [apply no_fuel_conflicts|]. intros st2 H2.
      apply (requires_rules_spec _ _ R) in H1 as (A1 & _ & _ & M1); [|done].
      apply (conflicts_rules_spec _ _ R Hinj) in H2 as (A2 & _ & _); [|done].
      rewrite A1 in A2. cbn [g_added] in A2.
      assert (M : more.*1 = next p).
      { rewrite M1. unfold RulesProofs.next. by destruct (all_met _ _). }
      apply IH.
      + rewrite fmap_app, M. intros q [Hin|Hin]%elem_of_app; [apply Hq; by right|by eapply next_sub].
      + rewrite A2, app_length. assert (Hl : length more = length (next p)) by (rewrite <-M; by rewrite fmap_length).
        assert (Ht := todo_add (g_added st) p Hp Hd). lia.
  Qed.
  Lemma loop_total : strict = false → ∀ fuel queue st, (∀ p, p ∈ queue.*1 → p ∈ l) → (∀ p, p ∈ l → pkg_fine po p) →
    (length queue + todo (g_added st) ≤ fuel)%nat → ∃ st', package_rules_loop po strict fuel queue st = Ok st'.
  Proof.
    intros Hs. induction fuel as [|fuel IH]; intros queue st Hq Hfine Hf; (destruct queue as [|[p reqs] queue]; cbn [package_rules_loop]; [eauto|]).
    { cbn in Hf. lia. }
    assert (Hp : p ∈ l) by (apply Hq; left). cbn [length] in Hf.
    rewrite (pid_ok _ _ R p Hp). cbn [mbind res_bind]. case_decide as Hd.
    - apply IH; [intros q Hin; apply Hq; by right|done|lia].
    - destruct (Hfine p Hp) as [F1 F2].
      destruct (requires_rules_total po l R strict p reqs Hp Hs (p_requires p) []
        (Gst (g_rules st) ({[pid p]} ∪ g_added st)) F1) as [[st1 more] H1].
      rewrite H1. cbn [mbind res_bind].
      destruct (conflicts_rules_total po l R Hinj strict p reqs st1 Hp Hs F2) as [st2 H2]. rewrite H2. cbn [mbind res_bind].
      apply (requires_rules_spec _ _ R) in H1 as (A1 & _ & _ & M1); [|done].
      apply (conflicts_rules_spec _ _ R Hinj) in H2 as (A2 & _ & _); [|done].
      rewrite A1 in A2. cbn [g_added] in A2.
      assert (M : more.*1 = next p).
      { rewrite M1. unfold RulesProofs.next. by destruct (all_met _ _). }
      apply IH; [|done|].
      + rewrite fmap_app, M. intros q [Hin|Hin]%elem_of_app; [apply Hq; by right|by eapply next_sub].
      + rewrite A2, app_length. assert (Hl : length more = length (next p)) by (rewrite <-M; by rewrite fmap_length).
        assert (Ht := todo_add (g_added st) p Hp Hd). lia.
  Qed.

  Lemma package_rules_spec fuel p reqs st st' Rt Jc : p ∈ l →
    package_rules po strict fuel p reqs st = Ok st' → ginv st [] Rt Jc → ginv st' [] (λ q, Rt q ∨ q = p) Jc.
  Proof. intros Hp H I. eapply loop_spec; [exact H|]. cbn. by apply ginv_root. Qed.
  Lemma package_rules_terminates fuel p reqs st : p ∈ l → (bound ≤ fuel)%nat →
    no_fuel (package_rules po strict fuel p reqs st).
  Proof.
    intros Hp Hf. apply loop_terminates; [by intros q ->%elem_of_list_singleton|].
    unfold bound in Hf. assert (H := todo_bound (g_added st)). cbn. lia.
  Qed.
  Lemma package_rules_total fuel p reqs st : strict = false → (∀ p, p ∈ l → pkg_fine po p) → p ∈ l → (bound ≤ fuel)%nat →
    ∃ st', package_rules po strict fuel p reqs st = Ok st'.
  Proof.
    intros Hs Hfine Hp Hf. apply loop_total; [done|by intros q ->%elem_of_list_singleton|done|].
    unfold bound in Hf. assert (H := todo_bound (g_added st)). cbn. lia.
  Qed.

  (** ** Jobs *)
  Lemma max_first_elem {A} (lt : A → A → bool) x (xs : list A) : max_first lt x xs ∈ x :: xs.
  Proof.
    unfold max_first. revert x. induction xs as [|y xs IH]; intros x; cbn [foldl]; [left|].
    destruct (lt x y); [right; apply IH|]. specialize (IH x). apply elem_of_cons in IH as [->|?]; [left|by right; right].
  Qed.
  Definition best (r : requirement) : option package :=
    match wp po r false with [] => None | p :: rest => Some (max_first (update_lt po installed) p rest) end.
  Lemma best_elem r p : best r = Some p → p ∈ wp po r false.
  Proof. unfold best. destruct (wp po r false); [done|]. intros [= <-]. apply max_first_elem. Qed.

  Definition job_clause (j : job) (c : list Z) : Prop :=
    match j_kind j, j_req j with
    | (JInstall | JSoftUpdate), Some r => c = sort_Z (pid <$> wp po r false)
    | JRemove, Some r => ∃ p, p ∈ wp po r false ∧ c = sort_Z [- pid p]
    | JHardUpdate, Some r => ∃ p, best r = Some p ∧ c = sort_Z [pid p]
    | _, _ => False
    end.
  Definition job_root (j : job) (p : package) : Prop :=
    match j_kind j, j_req j with
    | (JInstall | JSoftUpdate), Some r => p ∈ wp po r false ∧ pid p ∉ installed.*1
    | JHardUpdate, Some r => best r = Some p
    | _, _ => False
    end.
  Definition job_fine (j : job) : Prop :=
    match j_kind j, j_req j with
    | (JInstall | JSoftUpdate), Some r => wp po r false ≠ []
    | (JRemove | JHardUpdate), Some r => True
    | _, _ => False
    end.

  Lemma install_job_spec fuel r st st' Rt Jc : install_job_rules po installed strict fuel r st = Ok st' →
    ginv st [] Rt Jc → wp po r false ≠ [] ∧
    ginv st' [] (λ p, Rt p ∨ (p ∈ wp po r false ∧ pid p ∉ installed.*1)) (λ c, Jc c ∨ c = sort_Z (pid <$> wp po r false)).
  Proof.
    unfold install_job_rules. rewrite (jcand_ok _ _ R). cbn [mbind res_bind].
    assert (Hsub : ∀ p, p ∈ wp po r false → p ∈ l) by (intros p; by eapply wp_sub).
    destruct (wp po r false) as [|p0 ps0] eqn:E; [done|]. assert (Hne : wp po r false ≠ []) by congruence.
    rewrite <-E in *. clear E.
    generalize dependent (wp po r false). intros ps Hsub Hne (st1 & H1 & H2)%mbind_ok I.
    apply mbind_ok in H2 as (ru & Hru & H2). injection H2 as <-. unfold one_of_rule in Hru.
    rewrite (pids_ok _ _ R) in Hru by done. injection Hru as <-. split; [done|].
    eapply ginv_rule. revert H1. apply (foldM_inv _ (λ ys st, ginv st [] (λ p, Rt p ∨ (p ∈ ys ∧ pid p ∉ installed.*1)) Jc)).
    - eapply ginv_proper; [| |exact I]; [|done]. intros p. split; [by left|]. by intros [?|[?%elem_of_nil _]].
    - intros ys x s s' Hs Hx. rewrite (pid_ok _ _ R) by auto. cbn [mbind res_bind]. case_decide as Hd.
      + intros [= <-]. eapply ginv_proper; [| |exact Hs]; [|done]. intros p. rewrite elem_of_app, elem_of_list_singleton.
        naive_solver.
      + intros H. eapply package_rules_spec in H; [|auto|exact Hs]. eapply ginv_proper; [| |exact H]; [|done].
        intros p. rewrite elem_of_app, elem_of_list_singleton. naive_solver.
  Qed.
  Lemma remove_job_spec r st st' Rt Jc : remove_job_rules po r st = Ok st' →
    ginv st [] Rt Jc → ginv st' [] Rt (λ c, Jc c ∨ ∃ p, p ∈ wp po r false ∧ c = sort_Z [- pid p]).
  Proof.
    unfold remove_job_rules. rewrite (jcand_ok _ _ R). cbn [mbind res_bind].
    assert (Hsub : ∀ p, p ∈ wp po r false → p ∈ l) by (intros p; by eapply wp_sub).
    generalize dependent (wp po r false). intros ps Hsub H I. revert H.
    apply (foldM_inv _ (λ ys st, ginv st [] Rt (λ c, Jc c ∨ ∃ p, p ∈ ys ∧ c = sort_Z [- pid p]))).
    - eapply ginv_proper; [| |exact I]; [done|]. intros c. split; [by left|]. by intros [?|(p & ?%elem_of_nil & _)].
    - intros ys x s s' Hs Hx. unfold remove_rule. rewrite (pid_ok _ _ R) by auto. cbn [mbind res_bind]. intros [= <-].
      eapply ginv_proper; [| |eapply ginv_rule; exact Hs]; [done|]. intros c. setoid_rewrite elem_of_app.
      setoid_rewrite elem_of_list_singleton. cbn [mk_rule ru_lits]. naive_solver.
  Qed.
  Lemma update_job_spec fuel r st st' Rt Jc : update_job_rules po installed strict fuel r st = Ok st' →
    ginv st [] Rt Jc →
    ginv st' [] (λ p, Rt p ∨ best r = Some p) (λ c, Jc c ∨ ∃ p, best r = Some p ∧ c = sort_Z [pid p]).
  Proof.
    unfold update_job_rules. rewrite (jcand_ok _ _ R). cbn [mbind res_bind].
    assert (Hb := best_elem r). unfold best in *.
    assert (Hsub : ∀ p, p ∈ wp po r false → p ∈ l) by (intros p; by eapply wp_sub).
    destruct (wp po r false) as [|p0 ps0] eqn:E.
    - intros [= <-] I. eapply ginv_proper; [| |exact I]; naive_solver.
    - specialize (Hb _ eq_refl). generalize dependent (max_first (update_lt po installed) p0 ps0). intros b Hb.
      intros (st1 & H1 & H2)%mbind_ok I. rewrite (pid_ok _ _ R) in H2 by auto. injection H2 as <-.
      eapply package_rules_spec in H1; [|auto|exact I].
      eapply ginv_proper; [| |eapply ginv_rule; exact H1]; [|]; cbn [mk_rule ru_lits]; naive_solver.
  Qed.
  Lemma job_rules_spec fuel j st st' Rt Jc : job_rules po installed strict fuel j st = Ok st' →
    ginv st [] Rt Jc → job_fine j ∧ ginv st' [] (λ p, Rt p ∨ job_root j p) (λ c, Jc c ∨ job_clause j c).
  Proof.
    unfold job_rules, job_root, job_clause, job_fine. destruct (j_kind j), (j_req j) as [r|]; try done; intros H I.
    - by eapply install_job_spec.
    - split; [done|]. eapply ginv_proper; [| |by eapply remove_job_spec]; naive_solver.
    - by eapply install_job_spec.
    - split; [done|]. by eapply update_job_spec.
  Qed.

  Definition inst_root (p : package) : Prop :=
    ∃ ip, ip ∈ installed ∧ p ∈ l ∧ provides p (p_name ip.2).
  Definition roots (jobs : list job) (p : package) : Prop :=
    (∃ j, j ∈ jobs ∧ job_root j p) ∨ inst_root p.
  Definition job_clauses (jobs : list job) (c : list Z) : Prop := ∃ j, j ∈ jobs ∧ job_clause j c.

  Theorem iter_rules_spec fuel jobs st : (∀ ip, ip ∈ installed → ip.2 ∈ l) →
    iter_rules po installed strict fuel jobs = Ok st →
    (∀ j, j ∈ jobs → job_fine j) ∧ ginv st [] (roots jobs) (job_clauses jobs).
  Proof.
    intros Hin. unfold iter_rules. intros (st1 & H1 & H2)%mbind_ok.
    apply (foldM_inv _ (λ ys st, (∀ j, j ∈ ys → job_fine j) ∧ ginv st [] (λ p, ∃ j, j ∈ ys ∧ job_root j p) (job_clauses ys))) in H1 as [F1 I1].
    - split; [done|]. revert H2.
      apply (foldM_inv _ (λ ys st, ginv st [] (λ p, (∃ j, j ∈ jobs ∧ job_root j p) ∨
        ∃ ip, ip ∈ ys ∧ p ∈ l ∧ provides p (p_name ip.2)) (job_clauses jobs))).
      + eapply ginv_proper; [| |exact I1]; [|done]. intros p. split; [by left|]. by intros [?|(ip & ?%elem_of_nil & _)].
      + intros ys [i q] s s' Hs Hx. cbn [snd]. specialize (Hin _ Hx). cbn [snd] in Hin.
        intros (s1 & G1 & G2)%mbind_ok.
        eapply package_rules_spec in G2; [|done|].
        2:{ unfold installed_package_rules in G1. revert G1.
            apply (foldM_inv _ (λ zs st, ginv st [] (λ p, ((∃ j, j ∈ jobs ∧ job_root j p) ∨
              ∃ ip, ip ∈ ys ∧ p ∈ l ∧ provides p (p_name ip.2)) ∨ p ∈ zs) (job_clauses jobs))).
            - eapply ginv_proper; [| |exact Hs]; [|done]. intros p. split; [by left|]. by intros [?|?%elem_of_nil].
            - intros zs z t t' Ht Hz H. eapply package_rules_spec in H; [| |exact Ht].
              2:{ by apply (name_packages_spec _ _ R) in Hz as [? _]. }
              eapply ginv_proper; [| |exact H]; [|done]. intros p. rewrite elem_of_app, elem_of_list_singleton. tauto. }
        eapply ginv_proper; [| |exact G2]; [|done]. intros p. cbn beta. rewrite (name_packages_spec _ _ R).
        setoid_rewrite elem_of_app. setoid_rewrite elem_of_list_singleton. split.
        * intros [[[?|(ip & ? & ? & ?)]|[? ?]]| ->]; [by left|right; eauto|right; exists (i, q); auto|].
          right. exists (i, q). split; [by right|]. split; [done|]. by left.
        * intros [?|(ip & [?| ->] & ? & ?)]; [auto|left; left; right; eauto|left; right; done].
    - split; [by intros ? ?%elem_of_nil|]. split.
      + intros i Hi. set_solver.
      + intros c. unfold lits, job_clauses, explored. cbn. split.
        * by intros (r & ?%elem_of_nil & _).
        * intros [(j & ?%elem_of_nil & _)|(p & [_ ?] & _)]; [done|set_solver].
      + intros p [_ Hp]. cbn in Hp. set_solver.
      + intros p [_ Hp]. cbn in Hp. set_solver.
      + intros p q [_ Hp]. cbn in Hp. set_solver.
      + by intros p (j & ?%elem_of_nil & _).
      + by intros p ?%elem_of_nil.
    - intros ys x s s' [Fs Is] Hx H. eapply job_rules_spec in H as [Fx Ix]; [|exact Is]. split.
      + intros j [?| ->%elem_of_list_singleton]%elem_of_app; auto.
      + eapply ginv_proper; [| |exact Ix]; intros p; unfold job_clauses; setoid_rewrite elem_of_app;
        setoid_rewrite elem_of_list_singleton; naive_solver.
  Qed.

  Theorem iter_rules_terminates fuel jobs : (∀ ip, ip ∈ installed → ip.2 ∈ l) → (bound ≤ fuel)%nat →
    no_fuel (iter_rules po installed strict fuel jobs).
  Proof.
    intros Hin Hf. unfold iter_rules. apply no_fuel_bind; [|intros st _]; apply no_fuel_foldM.
    - intros j st Hj. unfold job_rules.
      assert (Hsub : ∀ r p, p ∈ wp po r false → p ∈ l) by (intros r p; by eapply wp_sub).
      assert (Hi : ∀ r, no_fuel (install_job_rules po installed strict fuel r st)).
      { intros r. unfold install_job_rules. rewrite (jcand_ok _ _ R). cbn [mbind res_bind].
        specialize (Hsub r). destruct (wp po r false) as [|p0 ps0] eqn:E; [done|]. rewrite <-E in *. clear E.
        apply no_fuel_bind; [apply no_fuel_foldM|intros st1 _].
        - intros p s Hp. rewrite (pid_ok _ _ R) by auto. cbn [mbind res_bind]. case_decide; [done|].
          apply package_rules_terminates; auto.
        - apply no_fuel_bind; [|done]. apply no_fuel_bind; [|done]. apply no_fuel_mapM. intros. apply no_fuel_package_id. }
      destruct (j_kind j), (j_req j) as [r|]; try done.
      + unfold remove_job_rules. apply no_fuel_bind; [apply no_fuel_what_provides|]. intros ps _.
        apply no_fuel_foldM. intros p s _. apply no_fuel_bind; [|done]. apply no_fuel_bind; [apply no_fuel_package_id|done].
      + unfold update_job_rules. rewrite (jcand_ok _ _ R). cbn [mbind res_bind]. specialize (Hsub r).
        destruct (wp po r false) as [|p0 ps0] eqn:E; [done|]. apply no_fuel_bind.
        * apply package_rules_terminates; [|done]. apply Hsub, max_first_elem.
        * intros st1 _. apply no_fuel_bind; [apply no_fuel_package_id|done].
    - intros ip s Hip. apply no_fuel_bind.
      + apply no_fuel_foldM. intros q s' Hq. apply package_rules_terminates; [|done].
        by apply (name_packages_spec _ _ R) in Hq as [? _].
      + intros s1 _. apply package_rules_terminates; auto.
  Qed.

  Theorem iter_rules_total fuel jobs : strict = false → (∀ p, p ∈ l → pkg_fine po p) →
    (∀ ip, ip ∈ installed → ip.2 ∈ l) → (∀ j, j ∈ jobs → job_fine j) → (bound ≤ fuel)%nat →
    ∃ st, iter_rules po installed strict fuel jobs = Ok st.
  Proof.
    intros Hs Hfine Hin Hj Hf. unfold iter_rules.
    destruct (foldM_total (λ st j, job_rules po installed strict fuel j st) jobs (Gst [] ∅)) as [st1 ->].
    { intros j st Hx. specialize (Hj j Hx). unfold job_fine in Hj. unfold job_rules.
      assert (Hsub : ∀ r p, p ∈ wp po r false → p ∈ l) by (intros r p; by eapply wp_sub).
      assert (Hi : ∀ r, wp po r false ≠ [] → ∃ st', install_job_rules po installed strict fuel r st = Ok st').
      { intros r Hne. unfold install_job_rules. rewrite (jcand_ok _ _ R). cbn [mbind res_bind].
        specialize (Hsub r). destruct (wp po r false) as [|p0 ps0] eqn:E; [done|]. rewrite <-E in *. clear E.
        destruct (foldM_total (λ st p, i ← package_id po p;
               if decide (i ∈ installed.*1) then Ok st else package_rules po strict fuel p (Some [r]) st)
               (wp po r false) st) as [st1 Est1]; [|rewrite Est1].
        - intros p s Hp. cbn beta. rewrite (pid_ok _ _ R) by auto. cbn [mbind res_bind]. case_decide; [eauto|].
          apply package_rules_total; auto.
        - cbn [mbind res_bind]. unfold one_of_rule. rewrite (pids_ok _ _ R) by done. cbn [mbind res_bind]. eauto. }
      destruct (j_kind j), (j_req j) as [r|]; try done; auto.
      - unfold remove_job_rules. rewrite (jcand_ok _ _ R). cbn [mbind res_bind].
        apply foldM_total. intros p s Hp. unfold remove_rule. rewrite (pid_ok _ _ R) by eauto. cbn. eauto.
      - unfold update_job_rules. rewrite (jcand_ok _ _ R). cbn [mbind res_bind]. specialize (Hsub r).
        destruct (wp po r false) as [|p0 ps0] eqn:E; [eauto|].
        assert (Hb := max_first_elem (update_lt po installed) p0 ps0). apply Hsub in Hb.
        destruct (package_rules_total fuel _ (Some [r]) st Hs Hfine Hb Hf) as [st1 ->]. cbn [mbind res_bind].
        rewrite (pid_ok _ _ R) by done. cbn. eauto. }
    cbn [mbind res_bind]. apply foldM_total. intros ip s Hip. unfold installed_package_rules.
    edestruct (foldM_total (λ st q, package_rules po strict fuel q None st)) as [s1 Es1]; [|rewrite Es1; cbn [mbind res_bind]].
    - intros q s1 Hq. apply package_rules_total; [done|done| |done]. by apply (name_packages_spec _ _ R) in Hq as [? _].
    - apply package_rules_total; auto.
  Qed.
End loop.
