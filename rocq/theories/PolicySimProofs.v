(** * Which policies agree: logging changes nothing, and the order in which sets are read matters only
    between packages of equal versions. *)
From Verif Require Import PolicyProofs.
From Verif Require Export PolicySim.

(** ** max does not depend on the order if versions differ *)
Lemma max_from_none ver l : ∀ b bv, (∃ x, x ∈ l ∧ ver x = None) → max_from ver l b bv = Raise ValueError.
Proof.
  induction l as [|y l IH]; intros b bv (x & Hx & Hn); [by apply elem_of_nil in Hx|]. cbn.
  destruct (ver y) as [v|] eqn:Ey; cbn; [|done].
  apply elem_of_cons in Hx as [->|Hx]; [congruence|].
  destruct (ver_ltb bv v); apply IH; eauto.
Qed.
Lemma max_by_version_none ver l : (∃ x, x ∈ l ∧ ver x = None) → max_by_version ver l = Raise ValueError.
Proof.
  intros (x & Hx & Hn). destruct l as [|y l]; [by apply elem_of_nil in Hx|]. cbn.
  destruct (ver y) as [v|] eqn:Ey; cbn; [|done].
  rewrite max_from_none; [done|]. apply elem_of_cons in Hx as [->|Hx]; [congruence|eauto].
Qed.
Lemma ver_leb_antisym a b : ver_leb a b = true → ver_leb b a = true → a = b.
Proof. rewrite !ver_leb_le. destruct a as [a1 a2], b as [b1 b2]. cbn. intros. f_equal; lia. Qed.

Definition distinct_versions (ver : Z → option version) : Prop :=
  ∀ x y v, ver x = Some v → ver y = Some v → x = y.

Lemma max_by_version_perm ver l l' : distinct_versions ver → l ≡ₚ l' → max_by_version ver l = max_by_version ver l'.
Proof.
  intros Hd Hp.
  destruct (decide (Exists (λ x, ver x = None) l)) as [H|H].
  - apply Exists_exists in H as (x & Hx & Hn).
    rewrite !max_by_version_none; [done| |]; exists x; [by rewrite <- Hp|done].
  - assert (∀ x, x ∈ l → is_Some (ver x)) as Hs.
    { intros x Hx. destruct (ver x) eqn:E; [eauto|]. destruct H. apply Exists_exists. eauto. }
    destruct (max_by_version_spec ver l Hs) as [[-> ->]|(m & mv & -> & Hm & Ev & Hmax)].
    { apply Permutation_nil in Hp as ->. done. }
    destruct (max_by_version_spec ver l') as [[-> E]|(m' & mv' & -> & Hm' & Ev' & Hmax')].
    { intros x Hx. apply Hs. by rewrite Hp. }
    { apply Permutation_sym, Permutation_nil in Hp as ->. by apply elem_of_nil in Hm. }
    assert (mv = mv') as <-.
    { apply ver_leb_antisym; [apply (Hmax' m); [by rewrite <- Hp|done]|apply (Hmax m'); [by rewrite Hp|done]]. }
    by rewrite (Hd m m' mv).
Qed.

(** ** The policy of the dependency solver *)
Record same_env (e f : uc_env) : Prop := {
  se_version : uc_version e = uc_version f;
  se_prefer : uc_prefer e = uc_prefer f;
  se_order : ∀ n n' X, max_by_version (uc_version e) (uc_order e n X) = max_by_version (uc_version f) (uc_order f n' X) }.
Lemma same_env_distinct e f : uc_version e = uc_version f → uc_prefer e = uc_prefer f →
  (∀ n X, uc_order e n X ≡ₚ elements X) → (∀ n X, uc_order f n X ≡ₚ elements X) →
  distinct_versions (uc_version e) → same_env e f.
Proof.
  intros Ev Ep H1 H2 Hd. split; [done|done|]. intros n n' X. rewrite <- Ev.
  apply max_by_version_perm; [done|]. by rewrite H1, H2.
Qed.

Record RU (p q : uc_state) : Prop := {
  ru_decision : uc_decision p = uc_decision q;
  ru_req : uc_requirements p = uc_requirements q;
  ru_all : uc_all p = uc_all q }.
Local Notation RAe := (RA (=)).
Local Notation RCe := (RC (=) RU).

Section uc.
  Context (e f : uc_env).
  (** Either the environments read sets alike or, at equal clocks, they are the same. *)
  Context (T : nat → nat → Prop) (HT : ∀ n n', T n n' → T (S n) (S n')).
  Context (Hv : uc_version e = uc_version f) (Hp : uc_prefer e = uc_prefer f).
  Context (Ho : ∀ n n' X, T n n' → max_by_version (uc_version e) (uc_order e n X) = max_by_version (uc_version f) (uc_order f n' X)).

  Lemma best_candidate_sim n n' X a b : T n n' → RAe a b → best_candidate e n X a = best_candidate f n' X b.
  Proof. intros H R. unfold best_candidate. rewrite (ra_assigned _ _ _ R). by rewrite (Ho n n' _ H). Qed.
  Lemma best_sorted_sim a b : RAe a b → best_sorted e a = best_sorted f b.
  Proof. intros R. unfold best_sorted. by rewrite (ra_assigned _ _ _ R), Hp. Qed.
  Definition RT (p q : uc_state) : Prop := RU p q ∧ T (uc_clock p) (uc_clock q).
  Lemma consume_RA a b : RAe a b → RAe (snd (consume_changelog a)) (snd (consume_changelog b)).
  Proof.
    intros [H1 H2 H3 H4]. unfold consume_changelog, get_changelog.
    destruct (a_cached a), (a_cached b); by split.
  Qed.
  Lemma refresh_sim a b cls p q : RAe a b → RT p q →
    RT (refresh e a cls p).1 (refresh f b cls q).1 ∧ RAe (refresh e a cls p).2 (refresh f b cls q).2.
  Proof.
    intros R [[H1 H2 H3] H4]. pose proof (consume_RA _ _ R) as R'. unfold refresh.
    destruct (consume_changelog a) as [? a'], (consume_changelog b) as [? b']. cbn in R'. cbn [fst snd].
    split; [|done]. split; [|done]. split; cbn.
    - rewrite (ra_assigned _ _ _ R').
      replace (filter (λ c : list Z, Forall (λ l : Z, aset_value a' l ≠ Some true) c) cls)
        with (filter (λ c : list Z, Forall (λ l : Z, aset_value b' l ≠ Some true) c) cls); [done|].
      apply list_filter_iff. intros c. rewrite !Forall_forall.
      split; intros HH l Hl; [rewrite (RA_value _ _ _ _ R')|rewrite <- (RA_value _ _ _ _ R')]; by apply HH.
    - done.
    - by rewrite Hp.
  Qed.
  Lemma uc_return_sim c a b p q : RAe a b → RT p q → res_rel (RC (=) RT) (uc_return c p a) (uc_return c q b).
  Proof.
    intros R H. unfold uc_return. destruct c as [v|]; [|done]. rewrite (RA_value _ _ _ v R).
    destruct (aset_value b v); [done|]. by split.
  Qed.
  Lemma uc_policy_sim p q a b cls : RT p q → RAe a b → res_rel (RC (=) RT) (uc_policy e p a cls) (uc_policy f q b cls).
  Proof.
    intros HP R. unfold uc_policy.
    set (X := if decide (a_new a = ∅) then (p, a) else refresh e a cls p).
    set (Y := if decide (a_new b = ∅) then (q, b) else refresh f b cls q).
    assert (RT X.1 Y.1 ∧ RAe X.2 Y.2) as [HP1 R1].
    { unfold X, Y. rewrite (ra_new _ _ _ R). case_decide; [done|]. by apply refresh_sim. }
    clearbody X Y. destruct X as [p1 a1], Y as [q1 b1]. cbn in HP1, R1. clear HP R p q a b.
    rewrite (best_sorted_sim _ _ R1). destruct (best_sorted f b1) as [v|]; [by apply uc_return_sim|].
    assert (∀ p q, RT p q → RT (tick p) (tick q)) as Htick by (intros ?? [[] ?]; split; [by split|cbn; auto]).
    assert (∀ d p q, RT p q → RT (set_decision d p) (set_decision d q)) as Hset by (intros ??? [[] ?]; split; [by split|done]).
    rewrite (ru_req _ _ (proj1 HP1)), (best_candidate_sim _ _ _ _ _ (proj2 HP1) R1).
    destruct (best_candidate f (uc_clock q1) (uc_requirements q1) b1) as [[c un]|x]; cbn [mbind res_bind]; [|done].
    pose proof (Htick _ _ HP1) as HP2. destruct c as [v|]; [by apply uc_return_sim|].
    rewrite (ru_decision _ _ (proj1 HP2)), (best_candidate_sim _ _ _ _ _ (proj2 HP2) R1).
    destruct (best_candidate f _ _ b1) as [[c un2]|x]; cbn [mbind res_bind]; [|done].
    pose proof (Hset un2 _ _ (Htick _ _ HP2)) as HP3. destruct c as [v|]; [by apply uc_return_sim|].
    pose proof (refresh_sim a1 b1 cls _ _ R1 HP3) as [HP4 R4].
    destruct (refresh e a1 cls _) as [p5 a5], (refresh f b1 cls _) as [q5 b5]. cbn in HP4, R4.
    rewrite (ru_decision _ _ (proj1 HP4)), (best_candidate_sim _ _ _ _ _ (proj2 HP4) R4).
    destruct (best_candidate f _ _ b5) as [[c un3]|x]; cbn [mbind res_bind]; [|done].
    pose proof (Htick _ _ HP4) as HP5. destruct c as [v|]; [by apply uc_return_sim|].
    rewrite (ru_all _ _ (proj1 HP5)), (best_candidate_sim _ _ _ _ _ (proj2 HP5) R4).
    destruct (best_candidate f _ _ b5) as [[c un4]|x]; cbn [mbind res_bind]; [|done].
    apply uc_return_sim; [done|]. by apply Htick.
  Qed.
  (** Its answer leaves no new keys. *)
End uc.

Local Ltac bc c := match goal with |- (best_candidate ?a ?b ?c' ?d ≫= _) = _ → _ =>
  destruct (best_candidate a b c' d) as [[c ?]|]; cbn [mbind res_bind]; [|done] end.
Lemma uc_policy_new e p a cls v p' a' : uc_policy e p a cls = Ok (v, p', a') → a_new a' = ∅.
Proof.
  unfold uc_policy. set (X := if decide (a_new a = ∅) then (p, a) else refresh e a cls p).
  assert (∀ a cls p, a_new (refresh e a cls p).2 = ∅) as Hr.
  { intros. unfold refresh, consume_changelog. destruct (get_changelog _). done. }
  assert (a_new X.2 = ∅) as HX by (unfold X; case_decide; [done|apply Hr]).
  clearbody X. destruct X as [p1 a1]. cbn in HX.
  assert (∀ c p2 a2, uc_return c p2 a2 = Ok (v, p', a') → a2 = a') as Hret.
  { intros c p2 a2. unfold uc_return. destruct c; [|done]. by destruct (aset_value a2 _); intros [=]. }
  destruct (best_sorted e a1); [by intros <-%Hret|].
  bc c. destruct c; [by intros <-%Hret|].
  bc c. destruct c; [by intros <-%Hret|].
  match goal with |- context [refresh e a1 cls ?s] => pose proof (Hr a1 cls s) as H2; destruct (refresh e a1 cls s) as [p5 a5] end.
  cbn in H2.
  bc c. destruct c; [by intros <-%Hret|].
  bc c. by intros <-%Hret.
Qed.

(** ** The logging wrapper *)
Lemma get_RA (N : gset Z → gset Z → Prop) a b : RA N a b → RA N (snd (get_changelog a)) (snd (get_changelog b)).
Proof. intros [H1 H2 H3 H4]. unfold get_changelog. destruct (a_cached a), (a_cached b); by split. Qed.
Lemma get_RA_l (N : gset Z → gset Z → Prop) a b : RA N a b → RA N (snd (get_changelog a)) b.
Proof. intros [H1 H2 H3 H4]. unfold get_changelog. destruct (a_cached a); by split. Qed.
Lemma consume_RA_any (N N' : gset Z → gset Z → Prop) a b : N' ∅ ∅ → RA N a b → RA N' (snd (consume_changelog a)) (snd (consume_changelog b)).
Proof.
  intros H0 [H1 H2 H3 H4]. unfold consume_changelog, get_changelog. destruct (a_cached a), (a_cached b); by split.
Qed.
Lemma consume_RA_l (N N' : gset Z → gset Z → Prop) a b : N' ∅ (a_new b) → RA N a b → RA N' (snd (consume_changelog a)) b.
Proof. intros H0 [H1 H2 H3 H4]. unfold consume_changelog, get_changelog. destruct (a_cached a); by split. Qed.

Notation log := (list Z * list (gmap Z (option bool * option bool)))%type.
Definition inner {P} (x : P * list Z * list (gmap Z (option bool * option bool))) : P := x.1.1.

(** Logging two policies that agree. *)
Lemma logged_sim {P Q} (N : gset Z → gset Z → Prop) (pol : policy P) (qol : policy Q) (RP : P → Q → Prop) : N ∅ ∅ →
  (∀ p q a b cls, RP p q → RA N a b → res_rel (RC N RP) (pol p a cls) (qol q b cls)) →
  ∀ p q a b cls, RP (inner p) (inner q) → RA N a b →
    res_rel (RC N (λ p q, RP (inner p) (inner q))) (logged_policy pol p a cls) (logged_policy qol q b cls).
Proof.
  intros H0 H [[p s1] c1] [[q s2] c2] a b cls HP R. unfold inner in HP. cbn in HP. unfold logged_policy.
  pose proof (get_RA _ _ _ R) as R1. destruct (get_changelog a) as [k1 a1], (get_changelog b) as [k2 b1]. cbn in R1.
  eapply res_rel_bind; [by apply H|]. intros [[v1 p1] a2] [[v2 q1] b2] (E & HP1 & R2). cbn in E, HP1, R2. subst v2.
  pose proof (consume_RA_any N N _ _ H0 R2) as R3. destruct (consume_changelog a2), (consume_changelog b2).
  by split.
Qed.
(** Logging a policy against the policy itself. *)
Lemma logged_plain {P} (N : gset Z → gset Z → Prop) (pol : policy P) :
  (∀ p a b cls, RA N a b → res_rel (RC N eq) (pol p a cls) (pol p b cls)) →
  (∀ p a cls v p' a' X, pol p a cls = Ok (v, p', a') → N X (a_new a') → N ∅ (a_new a')) →
  ∀ p q a b cls, inner p = q → RA N a b →
    res_rel (RC N (λ p q, inner p = q)) (logged_policy pol p a cls) (pol q b cls).
Proof.
  intros H Hn [[p s1] c1] q a b cls <- R. unfold inner. cbn [fst]. unfold logged_policy.
  pose proof (get_RA_l _ _ _ R) as R1. destruct (get_changelog a) as [k1 a1]. cbn in R1.
  pose proof (H p a1 b cls R1) as H2. destruct (pol p a1 cls) as [[[v p1] a2]|], (pol p b cls) as [[[v' p1'] b2]|] eqn:Eb;
    cbn in H2; try done; try (subst; done). destruct H2 as (E & HP & R2). cbn in E, HP, R2. subst v' p1'. cbn [mbind res_bind].
  pose proof (consume_RA_l N N _ _ (Hn _ _ _ _ _ _ _ Eb (ra_new _ _ _ R2)) R2) as R3. destruct (consume_changelog a2). by split.
Qed.
