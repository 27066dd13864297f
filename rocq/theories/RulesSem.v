(** * What the generated rules mean. *)
From Verif Require Import PoolProofs PropPool PropConstraints SpecSat ConstraintProofs.
From Verif Require Export RulesLoop DepSolver.

(** ** The newest candidate *)
Section maxfirst.
  Context {A : Type} (lt : A → A → bool).
  Context (lt_asym : ∀ x y, lt x y = true → lt y x = false) (lt_cotrans : ∀ x y z, lt x z = true → lt x y = true ∨ lt y z = true).
  Lemma max_first_spec x xs : ∃ k1 k2, x :: xs = k1 ++ max_first lt x xs :: k2 ∧
    (∀ y, y ∈ k1 → lt y (max_first lt x xs) = true) ∧ (∀ y, y ∈ k2 → lt (max_first lt x xs) y = false).
  Proof.
    induction xs as [|y xs IH] using rev_ind.
    - exists [], []. split; [done|]. split; by intros ? ?%elem_of_nil.
    - destruct IH as (k1 & k2 & E & H1 & H2). unfold max_first in *. rewrite foldl_app. cbn [foldl].
      set (b := foldl _ x xs) in *. clearbody b. destruct (lt b y) eqn:Eb.
      + exists (x :: xs), []. split; [done|]. split; [|by intros ? ?%elem_of_nil].
        rewrite E. intros z [Hz|[->|Hz]%elem_of_cons]%elem_of_app; [|done|].
        * destruct (lt_cotrans b z y Eb) as [H|?]; [|done]. rewrite (lt_asym z b) in H; [done|auto].
        * destruct (lt_cotrans b z y Eb) as [H|?]; [|done]. rewrite H2 in H; done.
      + exists k1, (k2 ++ [y]). split.
        * rewrite app_comm_cons, E. by rewrite <-app_assoc.
        * split; [done|]. intros z [?| ->%elem_of_list_singleton]%elem_of_app; auto.
  Qed.
End maxfirst.

Lemma elem_of_split_first (l : list package) (p : package) : p ∈ l → ∃ l1 l2, l = l1 ++ p :: l2 ∧ p ∉ l1.
Proof.
  induction l as [|a l IH]; intros Hp; [by apply elem_of_nil in Hp|].
  destruct (decide (a = p)) as [->|Hne].
  - exists [], l. split; [done|]. apply not_elem_of_nil.
  - apply elem_of_cons in Hp as [->|Hp]; [done|]. destruct (IH Hp) as (l1 & l2 & -> & Hn).
    exists (a :: l1), l2. split; [done|]. rewrite elem_of_cons. naive_solver.
Qed.

Lemma hard_choice_unique pkgs inst r p q : hard_choice pkgs inst r p → hard_choice pkgs inst r q → p = q.
Proof.
  intros (l1 & l2 & E1 & M1 & A1 & B1) (k1 & k2 & E2 & M2 & A2 & B2). rewrite E1 in E2.
  destruct (app_eq_inv _ _ _ _ E2) as [(z & Hz1 & Hz2)|(z & Hz1 & Hz2)]; destruct z as [|a z]; cbn in Hz2.
  - by injection Hz2.
  - injection Hz2 as <- ->. subst l1. exfalso. apply (B2 p); [|done|].
    + apply elem_of_app. right. left.
    + apply A1; [|done]. apply elem_of_app. right. left.
  - by injection Hz2.
  - injection Hz2 as <- ->. subst k1. exfalso. apply (B1 q); [|done|].
    + apply elem_of_app. right. left.
    + apply A2; [|done]. apply elem_of_app. right. left.
Qed.

Section sem.
  Context (po : pool) (l : list package) (R : pool_rep po l) (Hinj : well_formed l).
  Local Notation pid := (pid po).
  Context (inst : list package) (Hinst : ∀ p, p ∈ inst → p ∈ l).

  (** installed_package_ids: the ids of the installed packages. *)
  Lemma iset_elem d i p ip : (∀ jq, jq ∈ d → jq.2 ∈ l ∧ jq.1 = pid jq.2) → p ∈ l → i = pid p →
    ip ∈ iset d i p ↔ ip ∈ d ∨ ip = (i, p).
  Proof.
    intros Hd Hp ->. induction d as [|[j q] d IH]; cbn.
    - rewrite elem_of_list_singleton. split; [by right|]. intros [?%elem_of_nil|?]; done.
    - destruct (Z.eqb_spec j (pid p)) as [Hj|Hj].
      + destruct (Hd (j, q)) as [Hq Hjq]; [left|]. cbn in *.
        assert (q = p) as -> by (eapply pid_inj; [done..|congruence]). subst j.
        rewrite !elem_of_cons. tauto.
      + rewrite !elem_of_cons, IH; [tauto|]. intros jq ?. apply Hd. by right.
  Qed.
  Lemma installed_ids_spec : ∃ iids, installed_ids po inst = Ok iids ∧
    ∀ ip, ip ∈ iids ↔ ∃ p, p ∈ inst ∧ ip = (pid p, p).
  Proof.
    unfold installed_ids. assert (G : ∀ ps d, (∀ p, p ∈ ps → p ∈ l) → (∀ jq, jq ∈ d → jq.2 ∈ l ∧ jq.1 = pid jq.2) →
      ∃ iids, foldM (λ d p, i ← package_id po p; Ok (iset d i p)) ps d = Ok iids ∧
      ∀ ip, ip ∈ iids ↔ ip ∈ d ∨ ∃ p, p ∈ ps ∧ ip = (pid p, p)).
    { induction ps as [|p ps IH]; intros d Hps Hd; cbn [foldM].
      - exists d. split; [done|]. intros ip. split; [by left|]. by intros [?|(p & ?%elem_of_nil & _)].
      - assert (Hp : p ∈ l) by (apply Hps; left). rewrite (pid_ok _ _ R) by done. cbn [mbind res_bind].
        destruct (IH (iset d (pid p) p)) as (iids & E & H).
        + intros q Hq. apply Hps. by right.
        + intros jq. rewrite iset_elem by done. intros [?| ->]; auto.
        + exists iids. split; [done|]. intros ip. rewrite H, iset_elem by done. setoid_rewrite elem_of_cons. naive_solver. }
    destruct (G inst []) as (iids & E & H); [done|by intros ? ?%elem_of_nil|]. exists iids. split; [done|].
    intros ip. rewrite H. split; [|by right]. intros [?%elem_of_nil|?]; done.
  Qed.

  Context (iids : list (Z * package)) (Hiids : ∀ ip, ip ∈ iids ↔ ∃ p, p ∈ inst ∧ ip = (pid p, p)).
  Lemma iids_ids p : p ∈ l → pid p ∈ iids.*1 ↔ p ∈ inst.
  Proof.
    intros Hp. rewrite elem_of_list_fmap. split.
    - intros (ip & Hi & (q & Hq & ->)%Hiids). cbn in Hi. by rewrite (pid_inj _ _ R Hinj p q) by auto.
    - intros Hi. exists (pid p, p). split; [done|]. apply Hiids. eauto.
  Qed.
  Lemma iids_pkgs ip : ip ∈ iids → ip.2 ∈ l.
  Proof. intros (p & Hp & ->)%Hiids. by apply Hinst. Qed.
  Lemma inst_root_spec p : inst_root l iids p ↔ p ∈ l ∧ ∃ i, i ∈ inst ∧ provides p (p_name i).
  Proof.
    unfold inst_root. split.
    - intros (ip & (q & Hq & ->)%Hiids & Hp & Hn). eauto.
    - intros (Hp & i & Hi & Hn). exists (pid i, i). split; [apply Hiids; eauto|]. done.
  Qed.

  Lemma update_lt_spec p q : p ∈ l → q ∈ l → update_lt po iids p q = true ↔ older_or_remote inst p q.
  Proof.
    intros Hp Hq. unfold update_lt, older_or_remote, is_installed_id. rewrite !(pid_ok _ _ R) by done.
    rewrite orb_true_iff, !andb_true_iff, negb_true_iff, bool_decide_eq_false, bool_decide_eq_true.
    rewrite !iids_ids by done. rewrite ver_ltb_vlt, ver_eqb_eq. tauto.
  Qed.
  Lemma update_lt_asym p q : update_lt po iids p q = true → update_lt po iids q p = false.
  Proof.
    unfold update_lt. destruct (p_version p) as [u b], (p_version q) as [u' b']. unfold ver_ltb, ver_eqb. cbn.
    destruct (is_installed_id po iids p), (is_installed_id po iids q); cbn;
    destruct (Z.ltb_spec u u'), (Z.ltb_spec u' u), (Z.eqb_spec u u'), (Z.eqb_spec u' u), (Z.ltb_spec b b'), (Z.ltb_spec b' b),
      (Z.eqb_spec b b'), (Z.eqb_spec b' b); cbn; try done; lia.
  Qed.
  Lemma update_lt_cotrans p q r : update_lt po iids p r = true →
    update_lt po iids p q = true ∨ update_lt po iids q r = true.
  Proof.
    unfold update_lt. destruct (p_version p) as [u b], (p_version q) as [u' b'], (p_version r) as [v c]. unfold ver_ltb, ver_eqb. cbn.
    rewrite !orb_true_iff, !andb_true_iff, !negb_true_iff, !Z.ltb_lt, !Z.eqb_eq.
    intros [[H|[H1 H2]]|[[[H1 H2] H3] H4]].
    - destruct (decide (u < u')); [auto|]. right. left. left. lia.
    - destruct (decide (u < u')); [auto|]. destruct (decide (u' < v)); [auto|].
      assert (u = u' ∧ u' = v) as [-> ->] by lia. destruct (decide (b < b')); [auto|]. right. left. right. lia.
    - subst v c. destruct (decide (u < u')); [auto|]. destruct (decide (u' < u)); [auto|].
      assert (u = u') as -> by lia. destruct (decide (b < b')); [auto|]. destruct (decide (b' < b)); [auto|].
      assert (b = b') as -> by lia. destruct (is_installed_id po iids q) eqn:E; [left|right]; right; auto.
  Qed.

  Lemma wp_false_app r l1 l2 : l = l1 ++ l2 →
    wp po r false = filter (λ p, req_matches r (p_version p) = true) (by_name l1 (r_name r))
                    ++ filter (λ p, req_matches r (p_version p) = true) (by_name l2 (r_name r)).
  Proof.
    intros E. rewrite <-filter_app, <-by_name_app, <-E.
    assert (H := jcand_ok po l R r). rewrite (rep_what_provides _ _ R) in H.
    destruct (by_name l (r_name r)) as [|x bl]; [by injection H as <-|]. by injection H as <-.
  Qed.
  Lemma best_spec r p : best po iids r = Some p ↔ hard_choice l inst r p.
  Proof.
    assert (G : ∀ p, best po iids r = Some p → hard_choice l inst r p).
    { clear p. intros p Hb. assert (Hw := best_elem _ _ _ _ Hb). assert (Hl := wp_sub _ _ R _ _ _ Hw).
      unfold best in Hb. destruct (elem_of_split_first l p Hl) as (l1 & l2 & E & Hn).
      exists l1, l2. split; [done|]. split; [by apply (jcand_spec _ _ R)|].
      assert (Hex : ∃ k1 k2, wp po r false = k1 ++ p :: k2 ∧ (∀ y, y ∈ k1 → update_lt po iids y p = true) ∧
        (∀ y, y ∈ k2 → update_lt po iids p y = false)).
      { destruct (wp po r false) as [|x xs]; [done|]. injection Hb as <-.
        apply max_first_spec; [apply update_lt_asym|apply update_lt_cotrans]. }
      destruct Hex as (k1 & k2 & Ek & K1 & K2). split.
      - intros q Hq Hm. apply update_lt_spec; [rewrite E; apply elem_of_app; auto|done|]. apply K1.
        assert (Hs := wp_false_app r l1 (p :: l2) E). rewrite Ek in Hs.
        assert (Hin : q ∈ filter (λ p, req_matches r (p_version p) = true) (by_name l1 (r_name r))).
        { apply elem_of_list_filter. destruct Hm as [Hm1 Hm2]. split; [by apply C39_requirement_matches|].
          by apply elem_of_by_name. }
        assert (Hnin : p ∉ filter (λ p, req_matches r (p_version p) = true) (by_name l1 (r_name r))).
        { intros [_ [? _]%elem_of_by_name]%elem_of_list_filter. done. }
        destruct (app_eq_inv _ _ _ _ Hs) as [(z & Hz1 & Hz2)|(z & Hz1 & Hz2)].
        + rewrite Hz1. apply elem_of_app. by left.
        + rewrite Hz1 in Hin, Hnin. destruct z as [|a z]; [by rewrite app_nil_r in Hin|].
          cbn in Hz2. injection Hz2 as <- _. exfalso. apply Hnin, elem_of_app. right. left.
      - intros q Hq Hm. rewrite <-update_lt_spec; [|done|rewrite E; apply elem_of_app; right; by right].
        rewrite not_true_iff_false.
        assert (Hin : q ∈ wp po r false).
        { apply (jcand_spec _ _ R). split; [|done]. rewrite E. apply elem_of_app; right; by right. }
        rewrite Ek in Hin. apply elem_of_app in Hin as [?|[->|?]%elem_of_cons]; [|..|auto].
        + apply update_lt_asym. auto.
        + destruct (update_lt po iids p p) eqn:Ep; [|done]. by rewrite <-(update_lt_asym p p). }
    split; [apply G|]. intros Hc. destruct (best po iids r) as [q|] eqn:Eb.
    - f_equal. eapply hard_choice_unique; [by apply G|done].
    - exfalso. destruct Hc as (l1 & l2 & E & Hm & _). unfold best in Eb.
      assert (Hin : p ∈ wp po r false).
      { apply (jcand_spec _ _ R). split; [|done]. rewrite E. apply elem_of_app; right; left. }
      destruct (wp po r false); [by apply elem_of_nil in Hin|done].
  Qed.

End sem.

Section vals.
  Context (po : pool) (l : list package) (R : pool_rep po l) (Hinj : well_formed l).
  Local Notation pid := (pid po).
  (** ** Valuations and sets of packages *)
  Definition chosen (f : valuation) (p : package) : Prop := p ∈ l ∧ f (pid p) = true.
  Lemma lit_pos f p : p ∈ l → lit_true f (pid p) ↔ chosen f p.
  Proof. intros Hp. unfold lit_true, chosen. assert (H := pid_pos _ _ R p Hp). rewrite decide_True by lia. tauto. Qed.
  Lemma lit_neg f p : p ∈ l → lit_true f (- pid p) ↔ ¬ chosen f p.
  Proof.
    intros Hp. unfold lit_true, chosen. assert (H := pid_pos _ _ R p Hp). rewrite decide_False by lia.
    rewrite Z.opp_involutive. destruct (f (pid p)); naive_solver.
  Qed.
  Lemma dep_clause_true f p d : p ∈ l → clause_true f (dep_clause po p d) ↔
    (chosen f p → ∃ q, q ∈ dcand po d ∧ q ≠ p ∧ chosen f q).
  Proof.
    intros Hp. unfold clause_true, dep_clause. setoid_rewrite elem_of_sort_Z. split.
    - intros (x & [->|(q & -> & [He Hq]%elem_of_list_filter)%elem_of_list_fmap]%elem_of_cons & Hx) Hc.
      + by apply lit_neg in Hx.
      + assert (Hl : q ∈ l) by (by eapply dcand_sub). exists q. split; [done|]. split; [by apply (pkg_eq_ne _ Hinj) in He|].
        by apply lit_pos in Hx.
    - intros H. destruct (f (pid p)) eqn:E.
      + destruct H as (q & Hq & Hne & Hc); [done|]. assert (Hl : q ∈ l) by (by eapply dcand_sub).
        exists (pid q). split; [|by apply lit_pos]. right. apply elem_of_list_fmap. exists q. split; [done|].
        apply elem_of_list_filter. split; [|done]. by apply (pkg_eq_ne _ Hinj).
      + exists (- pid p). split; [left|]. apply lit_neg; [done|]. intros [_ ?]. congruence.
  Qed.
  Lemma broken_clause_true f p : p ∈ l → clause_true f (broken_clause po p) ↔ ¬ chosen f p.
  Proof.
    intros Hp. unfold clause_true, broken_clause. setoid_rewrite elem_of_sort_Z. setoid_rewrite elem_of_list_singleton.
    rewrite <-lit_neg by done. naive_solver.
  Qed.
  Lemma pair_clause_true f p q : p ∈ l → q ∈ l → clause_true f (pair_clause po p q) ↔ ¬ (chosen f p ∧ chosen f q).
  Proof.
    intros Hp Hq. unfold clause_true, pair_clause. setoid_rewrite elem_of_sort_Z. split.
    - intros (x & [->|[->|?%elem_of_nil]%elem_of_cons]%elem_of_cons & Hx) [? ?]; [..|done]; by apply lit_neg in Hx.
    - intros H. destruct (f (pid p)) eqn:E.
      + exists (- pid q). split; [right; left|]. apply lit_neg; [done|]. intros ?. by apply H.
      + exists (- pid p). split; [left|]. apply lit_neg; [done|]. intros [_ ?]. congruence.
  Qed.
End vals.
