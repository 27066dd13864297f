(** * Property C26: the hint of solve_with_hint. *)
From Verif Require Import PoolProofs PropPool PropConstraints SpecSat ConstraintProofs PropRules RepositoryProofs.
From Verif Require Export PropTotal.

(** ** minimal_unsat with a callback that is right whenever it answers *)
Section mus.
  Context {A : Type} (callback : list A → res bool) (SAT : list A → Prop).
  Context (Hmono : ∀ l l', (∀ x, x ∈ l → x ∈ l') → SAT l' → SAT l).
  Context (P : list A → Prop) (HP : ∀ l l', l ⊆+ l' → P l' → P l).
  Context (Hyes : ∀ l, P l → callback l = Ok true → SAT l) (Hno : ∀ l, P l → callback l = Ok false → ¬ SAT l).

  Lemma split_parts (clauses : list A) : (2 ≤ length clauses)%nat → ∃ a b, DepSolver.split clauses = (a, b) ∧ clauses = a ++ b ∧
    (length a < length clauses)%nat ∧ (length b < length clauses)%nat.
  Proof.
    intros H2. exists (take (length clauses / 2) clauses), (drop (length clauses / 2) clauses).
    assert (Hk : (1 ≤ length clauses / 2 < length clauses)%nat).
    { split; [apply Nat.div_le_lower_bound; lia|apply Nat.div_lt; lia]. }
    split; [done|]. split; [by rewrite take_drop|]. rewrite take_length, drop_length. lia.
  Qed.

  Lemma mus_partial : ∀ fuel clauses include m, P (clauses ++ include) → SAT include → ¬ SAT (clauses ++ include) →
    minimal_unsat callback fuel clauses include = Ok m →
    m `sublist_of` clauses ∧ ¬ SAT (m ++ include) ∧ ∀ l1 x l2, m = l1 ++ x :: l2 → SAT (l1 ++ l2 ++ include).
  Proof.
    induction fuel as [|fuel IH]; intros clauses include m Hp Hi Hc Hm; [done|].
    cbn [minimal_unsat] in Hm. destruct (Nat.eqb_spec (length clauses) 1) as [H1|H1].
    { injection Hm as <-. split; [done|]. split; [done|]. intros l1 x l2 ->.
      rewrite app_length in H1. cbn in H1. destruct l1, l2; cbn in H1; try lia. done. }
    assert (H2 : (2 ≤ length clauses)%nat).
    { destruct clauses as [|? [|? ?]]; cbn in *; [done|lia|lia]. }
    destruct (split_parts clauses H2) as (a & b & Es & -> & Hla & Hlb). rewrite Es in Hm.
    assert (Pa : P (a ++ include)) by (eapply HP; [|exact Hp]; rewrite <-app_assoc; apply submseteq_skips_l, submseteq_inserts_l; done).
    assert (Pb : P (b ++ include)) by (eapply HP; [|exact Hp]; rewrite <-app_assoc; apply submseteq_inserts_l; done).
    destruct (callback (a ++ include)) as [[|]|] eqn:Ea; cbn [mbind res_bind negb] in Hm; [| |done].
    2:{ destruct (IH a include m Pa Hi (Hno _ Pa Ea) Hm) as (M1 & M2 & M3). split; [|done]. etrans; [exact M1|]. by apply sublist_inserts_r. }
    destruct (callback (b ++ include)) as [[|]|] eqn:Eb; cbn [mbind res_bind negb] in Hm; [| |done].
    2:{ destruct (IH b include m Pb Hi (Hno _ Pb Eb) Hm) as (M1 & M2 & M3). split; [|done]. etrans; [exact M1|]. by apply sublist_inserts_l. }
    apply Hyes in Ea, Eb; [|done|done].
    destruct (minimal_unsat callback fuel a (b ++ include)) as [ma|] eqn:Ema; cbn [mbind res_bind] in Hm; [|done].
    rewrite <-app_assoc in Hp, Hc.
    destruct (IH a (b ++ include) ma Hp Eb Hc Ema) as (A1 & A2 & A3).
    assert (Hma : ∀ x, x ∈ ma → x ∈ a). { intros x Hx. eapply elem_of_submseteq; [done|by apply sublist_submseteq]. }
    destruct (minimal_unsat callback fuel b (ma ++ include)) as [mb|] eqn:Emb; cbn [mbind res_bind] in Hm; [|done]. injection Hm as <-.
    destruct (IH b (ma ++ include) mb) as (B1 & B2 & B3); [| | |exact Emb|].
    - eapply HP; [|exact Hp]. rewrite !app_assoc. apply submseteq_skips_r. etrans; [apply submseteq_app; [reflexivity|apply sublist_submseteq, A1]|].
      rewrite (Permutation_app_comm b a). reflexivity.
    - eapply Hmono; [|exact Ea]. set_solver.
    - intros E. apply A2. eapply Hmono; [|exact E]. set_solver.
    - assert (Hmb : ∀ x, x ∈ mb → x ∈ b). { intros x Hx. eapply elem_of_submseteq; [done|by apply sublist_submseteq]. }
      split; [by apply sublist_app|]. split.
      + intros E. apply B2. eapply Hmono; [|exact E]. set_solver.
      + intros l1 x l2 He. apply app_eq_inv in He as [(k' & -> & He)|(k' & -> & He)].
        * destruct k' as [|y k']; cbn in He.
          -- subst mb. eapply Hmono; [|apply (B3 [] x l2); done]. set_solver.
          -- injection He as <- ->. eapply Hmono; [|apply (A3 l1 x k'); done]. set_solver.
        * eapply Hmono; [|apply (B3 k' x l2); done]. set_solver.
  Qed.

  Lemma mus_total : (∀ l, P l → ∃ b, callback l = Ok b) →
    ∀ fuel clauses include, (length clauses ≤ fuel)%nat → P (clauses ++ include) → SAT include → ¬ SAT (clauses ++ include) →
    ∃ m, minimal_unsat callback fuel clauses include = Ok m.
  Proof.
    intros Hcb. induction fuel as [|fuel IH]; intros clauses include Hf Hp Hi Hc.
    { destruct clauses; [done|cbn in Hf; lia]. }
    cbn [minimal_unsat]. destruct (Nat.eqb_spec (length clauses) 1) as [H1|H1]; [eauto|].
    assert (H2 : (2 ≤ length clauses)%nat).
    { destruct clauses as [|? [|? ?]]; cbn in *; [done|lia|lia]. }
    destruct (split_parts clauses H2) as (a & b & Es & -> & Hla & Hlb). rewrite Es.
    assert (Pa : P (a ++ include)) by (eapply HP; [|exact Hp]; rewrite <-app_assoc; apply submseteq_skips_l, submseteq_inserts_l; done).
    assert (Pb : P (b ++ include)) by (eapply HP; [|exact Hp]; rewrite <-app_assoc; apply submseteq_inserts_l; done).
    destruct (Hcb _ Pa) as [[|] Ea]; rewrite Ea; cbn [mbind res_bind negb].
    2:{ apply IH; auto; lia. }
    destruct (Hcb _ Pb) as [[|] Eb]; rewrite Eb; cbn [mbind res_bind negb].
    2:{ apply IH; auto; lia. }
    apply Hyes in Ea, Eb; [|done|done]. rewrite <-app_assoc in Hp, Hc.
    destruct (IH a (b ++ include)) as [ma Ema]; [lia|done|done|done|]. rewrite Ema. cbn [mbind res_bind].
    destruct (mus_partial _ _ _ _ Hp Eb Hc Ema) as (A1 & A2 & A3).
    assert (Hma : ∀ x, x ∈ ma → x ∈ a). { intros x Hx. eapply elem_of_submseteq; [done|by apply sublist_submseteq]. }
    destruct (IH b (ma ++ include)) as [mb Emb]; [lia| | | |].
    - eapply HP; [|exact Hp]. rewrite !app_assoc. apply submseteq_skips_r. etrans; [apply submseteq_app; [reflexivity|apply sublist_submseteq, A1]|].
      rewrite (Permutation_app_comm b a). reflexivity.
    - eapply Hmono; [|exact Ea]. set_solver.
    - intros E. apply A2. eapply Hmono; [|exact E]. set_solver.
    - rewrite Emb. cbn [mbind res_bind]. eauto.
  Qed.
End mus.

(** ** C26 *)
Lemma plain_ask ds m js : (∀ j, j ∈ js → j_kind j ≠ JUpgrade) → asks ds (Request m js) js.
Proof. intros H. by left. Qed.
Lemma asks_plain ds rq jobs : asks ds rq jobs → ∀ j, j ∈ jobs → j_kind j ≠ JUpgrade.
Proof. intros [[H ->]|[_ H]] j Hj; [auto|]. apply H in Hj as (p & v & _ & _ & ->). done. Qed.
Lemma valid_none pkgs inst m : valid pkgs inst m [] (λ _, False).
Proof. split; [done|by intros j ?%elem_of_nil|intros p d []|intros p q []|intros p d q []]. Qed.

(** The jobs the error names are jobs of the request that cannot be satisfied together, while all
    proper subsets of them can. *)
Theorem C26_hint : ∀ e repos ds fuel rq jobs js, env_ok e → setting repos ds → asks ds rq jobs →
  solve_with_hint e ds fuel rq = Ok (inr js) →
  (∀ j, j ∈ js → j ∈ jobs) ∧ NoDup js ∧
  (¬ ∃ S, valid (mjoin repos) (ds_installed ds) (rq_mods rq) js S) ∧
  ∀ js' j, (∀ x, x ∈ js' → x ∈ js) → j ∈ js → j ∉ js' →
    ∃ S, valid (mjoin repos) (ds_installed ds) (rq_mods rq) js' S.
Proof.
  intros e repos ds fuel rq jobs js He Hset Hask. unfold solve_with_hint.
  destruct (solve e ds fuel rq) as [[t|c k s]|] eqn:Es; cbn [mbind res_bind]; [done| |done].
  destruct (convert_spec _ _ _ Hask) as (rq' & -> & Em & Ej). cbn [mbind res_bind]. rewrite Em.
  unfold minimal_unsatisfiable_subset. destruct (hint_callback e ds fuel (rq_mods rq) (rq_jobs rq')) as [[|]|] eqn:Ec; cbn [mbind res_bind]; [done| |done].
  destruct (minimal_unsat _ fuel (rq_jobs rq') []) as [m|] eqn:Emu; cbn [mbind res_bind]; [|done]. intros [= <-].
  set (SAT := λ l, ∃ S, valid (mjoin repos) (ds_installed ds) (rq_mods rq) l S).
  assert (Hmono : ∀ l l', (∀ x, x ∈ l → x ∈ l') → SAT l' → SAT l).
  { intros l l' Hsub [S HS]. exists S. by eapply valid_jobs. }
  assert (Hplain : ∀ j, j ∈ rq_jobs rq' → j_kind j ≠ JUpgrade) by (intros j Hj%Ej; by eapply asks_plain).
  set (P := λ l : list job, ∀ j, j ∈ l → j_kind j ≠ JUpgrade).
  assert (Hno : ¬ SAT (rq_jobs rq')).
  { intros HS. apply (C15_unsat _ _ _ _ _ _ _ _ _ He Hset Hask Es). destruct HS as [S HS]. exists S. eapply valid_jobs; [|exact HS]. intros j. apply Ej. }
  destruct (mus_partial (hint_callback e ds fuel (rq_mods rq)) SAT Hmono P) with (fuel := fuel) (clauses := rq_jobs rq') (include := @nil job) (m := m) as (M1 & M2 & M3).
  - intros l l' Hl Hp j Hj. apply Hp. by eapply elem_of_submseteq.
  - intros l Hl. unfold hint_callback. destruct (solve e ds fuel (Request (rq_mods rq) l)) as [[t|c' k' s']|] eqn:E; cbn; [|done|done].
    intros _. exact (C15_sat _ _ _ _ _ _ _ He Hset (plain_ask ds (rq_mods rq) l Hl) E).
  - intros l Hl. unfold hint_callback. destruct (solve e ds fuel (Request (rq_mods rq) l)) as [[t|c' k' s']|] eqn:E; cbn; [done| |done].
    intros _. exact (C15_unsat _ _ _ _ _ _ _ _ _ He Hset (plain_ask ds (rq_mods rq) l Hl) E).
  - rewrite app_nil_r. done.
  - exists (λ _, False). apply valid_none.
  - by rewrite app_nil_r.
  - done.
  - rewrite app_nil_r in M2.
    assert (Hdel : ∀ js' l1 j l2, m = l1 ++ j :: l2 → (∀ x, x ∈ js' → x ∈ m) → (j ∉ js' ∨ j ∈ l1 ∨ j ∈ l2) → SAT js').
    { intros js' l1 j l2 E Hsub Hj. eapply Hmono; [|apply (M3 l1 j l2 E)]. rewrite app_nil_r. intros x Hx. pose proof (Hsub x Hx) as Hm. rewrite E in Hm.
      rewrite elem_of_app, elem_of_cons in Hm. rewrite elem_of_app. destruct Hm as [?|[->|?]]; [by left| |by right].
      destruct Hj as [?|[?|?]]; [done|by left|by right]. }
    split; [intros j Hj; apply Ej; eapply elem_of_submseteq; [exact Hj|by apply sublist_submseteq]|]. split.
    + apply NoDup_alt. intros i i' x Hi Hi'. destruct (decide (i = i')) as [|Hne]; [done|]. exfalso. apply M2.
      pose proof (take_drop_middle _ _ _ Hi) as E. symmetry in E. apply (Hdel m _ _ _ E); [done|]. right.
      destruct (decide (i' < i)%nat) as [Hlt|Hge].
      * left. apply elem_of_list_lookup. exists i'. rewrite lookup_take by done. done.
      * right. apply elem_of_list_lookup. exists (i' - S i)%nat. rewrite lookup_drop. replace (S i + (i' - S i))%nat with i' by lia. done.
    + split; [exact M2|]. intros js' j Hsub Hj Hn. apply elem_of_list_split in Hj as (l1 & l2 & E). apply (Hdel js' l1 j l2 E Hsub). by left.
Qed.

(** ** solve_with_hint answers, when solve does (C30) *)
Lemma finite_max {A} (X : list A) (Q : A → nat → Prop) : (∀ x n n', (n ≤ n')%nat → Q x n → Q x n') →
  (∀ x, x ∈ X → ∃ n, Q x n) → ∃ n, ∀ x, x ∈ X → Q x n.
Proof.
  intros Hm. induction X as [|y X IH]; intros H; [exists O; by intros x ?%elem_of_nil|].
  destruct (H y) as [n1 H1]; [left|]. destruct IH as [n2 H2]; [intros x Hx; apply H; by right|].
  exists (n1 + n2)%nat. intros x [->|Hx]%elem_of_cons; [eapply Hm; [|exact H1]; lia|eapply Hm; [|by apply H2]; lia].
Qed.
Lemma lists_max {A} (X : list A) : ∀ k (Q : list A → nat → Prop), (∀ l n n', (n ≤ n')%nat → Q l n → Q l n') →
  (∀ l, (∀ x, x ∈ l → x ∈ X) → ∃ n, Q l n) → ∃ n, ∀ l, (length l ≤ k)%nat → (∀ x, x ∈ l → x ∈ X) → Q l n.
Proof.
  induction k as [|k IH]; intros Q Hm H.
  - destruct (H []) as [n Hn]; [by intros x ?%elem_of_nil|]. exists n. intros [|y l] Hl; [done|cbn in Hl; lia].
  - destruct (H []) as [n1 H1]; [by intros x ?%elem_of_nil|].
    destruct (finite_max X (λ x n, ∀ l, (length l ≤ k)%nat → (∀ y, y ∈ l → y ∈ X) → Q (x :: l) n)) as [n2 H2].
    + intros x n n' Hn HQ l Hl Hx. eapply Hm; [exact Hn|auto].
    + intros x Hx. apply (IH (λ l n, Q (x :: l) n)); [intros; eapply Hm; eauto|]. intros l Hl. apply H. intros y [->|?]%elem_of_cons; auto.
    + exists (n1 + n2)%nat. intros [|x l] Hl Hx; [eapply Hm; [|exact H1]; lia|]. eapply Hm; [|apply H2; [|cbn in Hl; lia|]]; [lia|apply Hx; left|intros y Hy; apply Hx; by right].
Qed.
Theorem C26_total : ∀ e repos ds rq jobs, env_ok e → setting repos ds → asks ds rq jobs →
  ds_pruning ds = true → ds_strict ds = false →
  single_names (mjoin repos) → one_version (λ p, p ∈ ds_installed ds) → removes_known (mjoin repos) (ds_installed ds) jobs →
  (∀ p, p ∈ mjoin repos → interpretable (rq_mods rq) p) → (∀ j, j ∈ jobs → has_candidate (mjoin repos) j) →
  acyclic (mjoin repos) (rq_mods rq) →
  ∃ n, ∀ fuel, (n ≤ fuel)%nat →
    (∃ t, solve_with_hint e ds fuel rq = Ok (inl t)) ∨ (∃ js, solve_with_hint e ds fuel rq = Ok (inr js)).
Proof.
  intros e repos ds rq jobs He Hset Hask Hpr Hst H1 Hone H2 Hint Hcand Hac.
  destruct (convert_spec _ _ _ Hask) as (rq' & Erq & Em & Ej).
  destruct (C30_total e repos ds rq jobs He Hset Hask Hpr Hst H1 Hone H2 Hint Hcand Hac) as [n0 Hn0].
  destruct (lists_max jobs (length (rq_jobs rq')) (λ l n, ∀ fuel, (n ≤ fuel)%nat → ∃ b, hint_callback e ds fuel (rq_mods rq) l = Ok b)) as [n1 Hn1].
  { intros l n n' Hn HQ fuel Hf. apply HQ. lia. }
  { intros l Hl. destruct (C30_total e repos ds (Request (rq_mods rq) l) l He Hset) as [n Hn].
    - apply plain_ask. intros j Hj. eapply asks_plain; [exact Hask|auto].
    - done.
    - done.
    - done.
    - done.
    - intros j r Hj. apply (H2 j r). auto.
    - done.
    - intros j Hj. apply Hcand. auto.
    - done.
    - exists n. intros fuel Hf. unfold hint_callback. destruct (Hn fuel Hf) as [(t & ->)|(c & k & s & ->)]; cbn; eauto. }
  exists (n0 + n1 + length (rq_jobs rq'))%nat. intros fuel Hf. unfold solve_with_hint.
  destruct (Hn0 fuel ltac:(lia)) as [(t & Ht)|(c & k & s & Ht)]; rewrite Ht; cbn [mbind res_bind]; [left; eauto|right].
  rewrite Erq. cbn [mbind res_bind]. rewrite Em. unfold minimal_unsatisfiable_subset.
  assert (Hcb : ∀ l, l ⊆+ rq_jobs rq' → ∃ b, hint_callback e ds fuel (rq_mods rq) l = Ok b).
  { intros l Hl. apply Hn1; [by apply submseteq_length|intros j Hj; apply Ej; by eapply elem_of_submseteq|lia]. }
  set (SAT := λ l, ∃ S, valid (mjoin repos) (ds_installed ds) (rq_mods rq) l S).
  assert (Hpl : ∀ l, l ⊆+ rq_jobs rq' → ∀ j, j ∈ l → j_kind j ≠ JUpgrade).
  { intros l Hl j Hj. eapply asks_plain; [exact Hask|]. apply Ej. by eapply elem_of_submseteq. }
  assert (Hyes : ∀ l, l ⊆+ rq_jobs rq' → hint_callback e ds fuel (rq_mods rq) l = Ok true → SAT l).
  { intros l Hl. unfold hint_callback. destruct (solve e ds fuel (Request (rq_mods rq) l)) as [[t|c' k' s']|] eqn:E; cbn; [|done|done].
    intros _. exact (C15_sat _ _ _ _ _ _ _ He Hset (plain_ask ds (rq_mods rq) l (Hpl l Hl)) E). }
  assert (Hno : ∀ l, l ⊆+ rq_jobs rq' → hint_callback e ds fuel (rq_mods rq) l = Ok false → ¬ SAT l).
  { intros l Hl. unfold hint_callback. destruct (solve e ds fuel (Request (rq_mods rq) l)) as [[t|c' k' s']|] eqn:E; cbn; [done| |done].
    intros _. exact (C15_unsat _ _ _ _ _ _ _ _ _ He Hset (plain_ask ds (rq_mods rq) l (Hpl l Hl)) E). }
  assert (Hun : ¬ SAT (rq_jobs rq')).
  { intros [S HS]. apply (C15_unsat _ _ _ _ _ _ _ _ _ He Hset Hask Ht). exists S. eapply valid_jobs; [|exact HS]. intros j. apply Ej. }
  assert (Hmono : ∀ l l', (∀ x, x ∈ l → x ∈ l') → SAT l' → SAT l).
  { intros l l' Hsub [S HS]. exists S. by eapply valid_jobs. }
  destruct (Hcb (rq_jobs rq') ltac:(done)) as [[|] Eb]; [by destruct Hun; apply Hyes|]. rewrite Eb. cbn [mbind res_bind].
  destruct (mus_total (hint_callback e ds fuel (rq_mods rq)) SAT Hmono (λ l, l ⊆+ rq_jobs rq')) with (fuel := fuel) (clauses := rq_jobs rq') (include := @nil job) as [m Hm].
  - intros l l' ??. by etrans.
  - exact Hyes.
  - exact Hno.
  - exact Hcb.
  - lia.
  - by rewrite app_nil_r.
  - exists (λ _, False). apply valid_none.
  - by rewrite app_nil_r.
  - rewrite Hm. cbn. eauto.
Qed.
