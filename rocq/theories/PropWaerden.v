(** * Property C62: the van der Waerden example. *)
From Verif Require Import PolicyProofs SatDefs PropSat.
From Verif Require Export SpecSat VanDerWaerden.

(** In the sequence f(1), ..., f(n) there are [len] equally spaced positions with the value [b]. *)
Definition progression (f : valuation) (b : bool) (len n : Z) : Prop :=
  ∃ i d, 1 ≤ i ∧ 1 ≤ d ∧ i + (len - 1) * d ≤ n ∧ ∀ p, 0 ≤ p < len → f (i + p * d) = b.

Lemma elem_of_zrange a b x : x ∈ zrange a b ↔ a ≤ x < b.
Proof.
  unfold zrange. rewrite elem_of_list_fmap. split.
  - intros (k & -> & Hk%elem_of_seq). lia.
  - intros H. exists (Z.to_nat (x - a)). split; [lia|]. apply elem_of_seq. lia.
Qed.
Lemma helper_elem j n s c : 2 ≤ j → c ∈ waerden_helper j n s ↔
  ∃ i d, 1 ≤ i ∧ 1 ≤ d ∧ i + (j - 1) * d ≤ n ∧ c = (λ p, s * (i + p * d)) <$> zrange 0 j.
Proof.
  intros Hj. unfold waerden_helper. rewrite elem_of_list_bind. split.
  - intros (d & (i & ->%elem_of_list_singleton & Hi%elem_of_zrange)%elem_of_list_bind & Hd%elem_of_zrange).
    exists i, d. split; [lia|]. split; [lia|]. split; [lia|done].
  - intros (i & d & Hi & Hd & Hn & ->). exists d. split.
    + apply elem_of_list_bind. exists i. split; [by apply elem_of_list_singleton|]. apply elem_of_zrange. lia.
    + apply elem_of_zrange. split; [lia|]. assert (d ≤ (n - 1) / (j - 1)); [|lia].
      apply Z.div_le_lower_bound; lia.
Qed.
Lemma forall_range (P : Z → Prop) `{∀ x, Decision (P x)} m : (∀ p, 0 ≤ p < m → P p) ∨ ∃ p, 0 ≤ p < m ∧ ¬ P p.
Proof.
  destruct (decide (Forall P (zrange 0 m))) as [Hf|Hf].
  - left. intros p Hp. rewrite Forall_forall in Hf. apply Hf. by apply elem_of_zrange.
  - right. apply not_Forall_Exists in Hf; [|done]. apply Exists_exists in Hf as (p & Hp%elem_of_zrange & ?). eauto.
Qed.
Lemma helper_model j n b f : 2 ≤ j →
  model f (waerden_helper j n (if b : bool then 1 else -1)) ↔ ¬ progression f (negb b) j n.
Proof.
  intros Hj. split.
  - intros Hm (i & d & Hi & Hd & Hn & Hf).
    destruct (Hm ((λ p, (if b then 1 else -1) * (i + p * d)) <$> zrange 0 j)) as (l & (p & -> & Hp%elem_of_zrange)%elem_of_list_fmap & Hl).
    { apply helper_elem; [done|]. eauto 10. }
    specialize (Hf p Hp). assert (0 < i + p * d) by nia. unfold lit_true in Hl. destruct b; cbn in Hf.
    + rewrite Z.mul_1_l in Hl. case_decide; [congruence|lia].
    + case_decide; [lia|]. replace (- (-1 * (i + p * d))) with (i + p * d) in Hl by lia. congruence.
  - intros Hnp c (i & d & Hi & Hd & Hn & ->)%helper_elem; [|done].
    destruct (forall_range (λ p, f (i + p * d) = negb b) j) as [Ha|(p & Hp & Hne)].
    + destruct Hnp. exists i, d. auto.
    + exists ((if b then 1 else -1) * (i + p * d)). split; [apply elem_of_list_fmap; exists p; split; [done|by apply elem_of_zrange]|].
      assert (0 < i + p * d) by nia. unfold lit_true. destruct b; cbn in Hne.
      * rewrite Z.mul_1_l, decide_True by lia. by destruct (f _).
      * rewrite decide_False by lia. replace (- (-1 * (i + p * d))) with (i + p * d) by lia. by destruct (f _).
Qed.
(** The clauses say: no [j] equally spaced zeros and no [k] equally spaced ones. *)
Theorem C62_clauses : ∀ j k n f, 2 ≤ j → 2 ≤ k →
  model f (van_der_waerden j k n) ↔ ¬ progression f false j n ∧ ¬ progression f true k n.
Proof.
  intros j k n f Hj Hk. rewrite <-(helper_model j n true f Hj), <-(helper_model k n false f Hk). unfold van_der_waerden, model.
  setoid_rewrite elem_of_app. split; [intros H; split; intros c Hc; apply H; auto|]. intros [H1 H2] c [Hc|Hc]; auto.
Qed.
Lemma waerden_wf j k n : 2 ≤ j → 2 ≤ k → wf_cnf (van_der_waerden j k n) ∧ [] ∉ van_der_waerden j k n.
Proof.
  intros Hj Hk. split.
  - intros c l [Hc|Hc]%elem_of_app Hl; apply helper_elem in Hc as (i & d & ? & ? & ? & ->); try done;
      apply elem_of_list_fmap in Hl as (p & -> & Hp%elem_of_zrange); nia.
  - intros [Hc|Hc]%elem_of_app; apply helper_elem in Hc as (i & d & ? & ? & ? & E); try done; symmetry in E; apply fmap_nil_inv in E.
    + assert (H2 : 0 ∈ zrange 0 j) by (apply elem_of_zrange; lia). rewrite E in H2. by apply elem_of_nil in H2.
    + assert (H2 : 0 ∈ zrange 0 k) by (apply elem_of_zrange; lia). rewrite E in H2. by apply elem_of_nil in H2.
Qed.
Lemma progression_dec f b m n : 2 ≤ m → progression f b m n ∨ ¬ progression f b m n.
Proof.
  intros Hm. set (L := d ← zrange 1 (n + 1); i ← zrange 1 (n + 1); [(i, d)]).
  destruct (decide (Exists (λ id : Z * Z, id.1 + (m - 1) * id.2 ≤ n ∧ Forall (λ p, f (id.1 + p * id.2) = b) (zrange 0 m)) L)) as [H|H].
  - left. apply Exists_exists in H as ([i d] & Hin & Hn & Hf). unfold L in Hin.
    apply elem_of_list_bind in Hin as (d' & Hin & Hd%elem_of_zrange). apply elem_of_list_bind in Hin as (i' & Hin & Hi%elem_of_zrange).
    apply elem_of_list_singleton in Hin as [= -> ->]. exists i', d'. rewrite Forall_forall in Hf. cbn in *.
    repeat split; try lia. intros p Hp. apply Hf. by apply elem_of_zrange.
  - right. intros (i & d & Hi & Hd & Hn & Hf). apply H. apply Exists_exists. exists (i, d). split.
    + apply elem_of_list_bind. exists d. split; [|apply elem_of_zrange; nia]. apply elem_of_list_bind. exists i.
      split; [by apply elem_of_list_singleton|]. apply elem_of_zrange. nia.
    + cbn. split; [done|]. apply Forall_forall. intros p Hp%elem_of_zrange. by apply Hf.
Qed.
(** So the solver answers the question: it returns a sequence of length [n] without such progressions, or
    raises SatisfiabilityError if every sequence has one. *)
Definition waerden_rules (j k n : Z) : list (list Z * option rule) := (λ c, (c, None)) <$> van_der_waerden j k n.
Theorem C62_answer : ∀ j k n, 2 ≤ j → 2 ≤ k → ∃ N, ∀ fuel, (N ≤ fuel)%nat →
  (∃ a, solve_clauses default_policy fuel () (waerden_rules j k n) = Ok (Normal a) ∧
     ∀ f : valuation, (∀ v b, aset_value a v = Some b → f v = b) →
       ¬ progression f false j n ∧ ¬ progression f true k n) ∨
  ((∃ c l s, solve_clauses default_policy fuel () (waerden_rules j k n) = Ok (Unsat c l s)) ∧
     ∀ f : valuation, progression f false j n ∨ progression f true k n).
Proof.
  intros j k n Hj Hk. destruct (waerden_wf j k n Hj Hk) as [Hwf Hne].
  assert (E : (waerden_rules j k n).*1 = van_der_waerden j k n).
  { unfold waerden_rules. rewrite <-list_fmap_compose. apply list_fmap_id. }
  rewrite <-E in Hwf, Hne.
  assert (Hgood := C12_default_policy _ ∅ Hwf).
  destruct (C03_decides default_policy _ _ _ _ () Hwf Hgood I Hne) as [N HN].
  exists N. intros fuel Hf. destruct (HN fuel Hf) as [[_ [a Ha]]|[Hu Hun]]; [left|right].
  - exists a. split; [done|]. intros f Hfa. apply C62_clauses; [done|done|]. rewrite <-E.
    exact (proj2 (C01_solution_is_model default_policy _ _ _ _ fuel () a Hwf Hgood I Ha) f Hne Hfa).
  - split; [done|]. intros f. destruct (progression_dec f false j n Hj) as [?|H1]; [by left|].
    destruct (progression_dec f true k n Hk) as [?|H2]; [by right|]. destruct Hu. exists f. rewrite E. by apply C62_clauses.
Qed.
(** ** Example: W(2; 3, 3) = 9. *)
Theorem C62_example :
  (∃ a, solve_clauses default_policy 100 () (waerden_rules 3 3 8) = Ok (Normal a) ∧
     ∀ f : valuation, (∀ v b, aset_value a v = Some b → f v = b) →
       ¬ progression f false 3 8 ∧ ¬ progression f true 3 8) ∧
  (∃ c l s, solve_clauses default_policy 100 () (waerden_rules 3 3 9) = Ok (Unsat c l s)) ∧
  ∀ f : valuation, progression f false 3 9 ∨ progression f true 3 9.
Proof.
  assert (Hwf : ∀ n, wf_cnf (waerden_rules 3 3 n).*1 ∧ [] ∉ (waerden_rules 3 3 n).*1 ∧ (waerden_rules 3 3 n).*1 = van_der_waerden 3 3 n).
  { intros n. unfold waerden_rules. rewrite <-list_fmap_compose. assert (E := list_fmap_id (van_der_waerden 3 3 n)).
    unfold compose. cbn. change (λ x : list Z, x) with (@id (list Z)). rewrite E. destruct (waerden_wf 3 3 n); auto; lia. }
  assert (S8 : match solve_clauses default_policy 100 () (waerden_rules 3 3 8) with Ok (Normal _) => true | _ => false end = true)
    by (vm_compute; reflexivity).
  assert (S9 : match solve_clauses default_policy 100 () (waerden_rules 3 3 9) with Ok (Unsat _ _ _) => true | _ => false end = true)
    by (vm_compute; reflexivity).
  split; [|split].
  - destruct (Hwf 8) as (W & Hne & E). assert (Hgood := C12_default_policy _ ∅ W).
    destruct (solve_clauses default_policy 100 () (waerden_rules 3 3 8)) as [[a|]|] eqn:Es; [|discriminate S8..].
    exists a. split; [done|]. intros f Hfa. refine (proj1 (C62_clauses 3 3 8 f _ _) _); [clear; lia|clear; lia|]. rewrite <-E.
    exact (proj2 (C01_solution_is_model default_policy _ _ _ _ 100 () a W Hgood I Es) f Hne Hfa).
  - destruct (solve_clauses default_policy 100 () (waerden_rules 3 3 9)) as [[a|c l s]|]; [discriminate S9|eauto|discriminate S9].
  - destruct (Hwf 9) as (W & Hne & E). assert (Hgood := C12_default_policy _ ∅ W).
    destruct (solve_clauses default_policy 100 () (waerden_rules 3 3 9)) as [[a|c l s]|] eqn:Es; [discriminate S9| |discriminate S9].
    intros f. destruct (progression_dec f false 3 9) as [?|H1]; [lia|by left|].
    destruct (progression_dec f true 3 9) as [?|H2]; [lia|by right|]. exfalso.
    apply (C02_unsat_is_sound default_policy _ _ _ _ 100 () c l s W Hgood I Es). exists f. rewrite E.
    refine (proj2 (C62_clauses 3 3 9 f _ _) (conj H1 H2)); clear; lia.
Qed.
Print Assumptions C62_clauses.
Print Assumptions C62_answer.
Print Assumptions C62_example.
