(** * The invariant of the solver state, and its basic consequences. *)
From Verif Require Export MiniSat SpecSat AssignmentProofs.

Global Instance lit_true_dec f l : Decision (lit_true f l).
Proof. unfold lit_true. case_decide; apply _. Defined.

Lemma lit_true_opp f l : l ≠ 0 → lit_true f (- l) ↔ ¬ lit_true f l.
Proof.
  intros Hl. unfold lit_true. repeat case_decide; try lia.
  - destruct (f (- l)); naive_solver.
  - rewrite Z.opp_involutive. destruct (f l); naive_solver.
Qed.

Definition hl (h : list clause) (i : nat) : list Z :=
  match h !! i with Some c => c_lits c | None => [] end.
Definition lvl (lv : gmap Z Z) (v : Z) : Z := default 0 (lv !! v).

(** The trail (last assigned literal first) with the positions of the decisions.  [D t l] is what
    is known of a decision [l] taken when the trail was [t]. *)
Inductive TrOk (D : list Z → Z → Prop) (h : list clause) (lv : gmap Z Z) (rs : gmap Z nat)
  : list Z → list nat → Prop :=
  | tr_nil : TrOk D h lv rs [] []
  | tr_prop l t lims i :
      TrOk D h lv rs t lims → l ≠ 0 → Z.abs l ∉ Z.abs <$> t →
      rs !! Z.abs l = Some i → i ≠ 0%nat → (i < length h)%nat →
      l ∈ hl h i → (∀ x, x ∈ hl h i → x ≠ l → - x ∈ t) →
      lvl lv (Z.abs l) = Z.of_nat (length lims) →
      TrOk D h lv rs (l :: t) lims
  | tr_dec l t lims :
      TrOk D h lv rs t lims → l ≠ 0 → Z.abs l ∉ Z.abs <$> t →
      rs !! Z.abs l = Some 0%nat → D t l →
      lvl lv (Z.abs l) = Z.of_nat (S (length lims)) →
      TrOk D h lv rs (l :: t) (length t :: lims).

Section inv.
  Context (F : list (list Z)) (Extra : gset Z) (D : list Z → Z → Prop).

  Definition univ (v : Z) : Prop := is_var F v ∨ v ∈ Extra.

  Record HeapOk (h : list clause) : Prop := {
    h_zero : hl h 0 = [];
    h_nil : (0 < length h)%nat;
    h_nodup : ∀ i, NoDup (hl h i);
    h_var : ∀ i x, x ∈ hl h i → x ≠ 0 ∧ univ (Z.abs x);
    h_ent : ∀ i, i ≠ 0%nat → (i < length h)%nat → hl h i ≠ [] → entails (nonempty F) (hl h i) }.

  Record ClsOk (h : list clause) (cls : list nat) (lv : gmap Z Z) (tr : list Z) : Prop := {
    cl_range : ∀ i, i ∈ cls → i ≠ 0%nat ∧ (i < length h)%nat;
    cl_ne : ∀ i, i ∈ cls → hl h i ≠ [];
    cl_unit : ∀ i l, i ∈ cls → hl h i = [l] → l ∈ tr ∧ lvl lv (Z.abs l) = 0 }.

  Record AsgOk (a : aset) (tr : list Z) : Prop := {
    ao_wf : AWf a;
    ao_val : ∀ l, aset_value a l = Some true ↔ l ∈ tr;
    ao_seen : ∀ v, v ∈ a_seen a → univ v }.

  Record Core (h : list clause) (cls : list nat) (a : aset) (lv : gmap Z Z) (tr : list Z)
      (lims : list nat) (rs : gmap Z nat) : Prop := {
    co_heap : HeapOk h;
    co_cls : ClsOk h cls lv tr;
    co_tr : TrOk D h lv rs tr lims;
    co_asg : AsgOk a tr }.

  Definition core (s : solver) : Prop :=
    Core (s_heap s) (s_clauses s) (s_asg s) (s_levels s) (s_trail s) (s_lims s) (s_reasons s).

  (** Watch lists; [pend] are clauses detached from the list of [cur]. *)
  Definition ewatch (w : gmap Z (list nat)) (cur : Z) (pend : list nat) (l : Z) : list nat :=
    default [] (w !! l) ++ (if decide (l = cur) then pend else []).
  Definition watches_lit (lits : list Z) (l : Z) : Prop :=
    ∃ x y r, lits = x :: y :: r ∧ (l = - x ∨ l = - y).
  Record WatOk (h : list clause) (cls : list nat) (w : gmap Z (list nat)) (cur : Z) (pend : list nat)
    : Prop := {
    wa_nodup : ∀ l, NoDup (ewatch w cur pend l);
    wa_iff : ∀ l i, i ∈ ewatch w cur pend l ↔ i ∈ cls ∧ watches_lit (hl h i) l }.

  (** If a watched literal is false, the other one is true, and was so at the same level or below;
      except where [ex]. *)
  Definition W5 (h : list clause) (cls : list nat) (lv : gmap Z Z) (tr : list Z)
      (ex : nat → Z → Prop) : Prop :=
    ∀ i x y r w o, i ∈ cls → hl h i = x :: y :: r → (w = x ∧ o = y ∨ w = y ∧ o = x) →
      - w ∈ tr → ex i w ∨ (o ∈ tr ∧ lvl lv (Z.abs o) ≤ lvl lv (Z.abs w)).

  Definition QueueOk (lv : gmap Z Z) (tr : list Z) (lims : list nat) (q : list Z) : Prop :=
    (length q ≤ length tr)%nat ∧
    ∀ l, l ∈ q → l ∈ tr ∧ lvl lv (Z.abs l) = Z.of_nat (length lims).

  Definition ex_prop (q : list Z) (cur : Z) (pend : list nat) (i : nat) (w : Z) : Prop :=
    - w ∈ q ∨ (- w = cur ∧ i ∈ pend).

  (** The full invariant while the watch list of [cur] is being processed. *)
  Record Inv (cur : Z) (pend : list nat) (s : solver) : Prop := {
    iv_core : core s;
    iv_wat : WatOk (s_heap s) (s_clauses s) (s_watches s) cur pend;
    iv_w5 : W5 (s_heap s) (s_clauses s) (s_levels s) (s_trail s) (ex_prop (s_queue s) cur pend);
    iv_queue : QueueOk (s_levels s) (s_trail s) (s_lims s) (s_queue s) }.

  (** ** Consequences *)
  Section trail.
    Context {h : list clause} {lv : gmap Z Z} {rs : gmap Z nat}.

    Lemma tr_nonzero t lims l : TrOk D h lv rs t lims → l ∈ t → l ≠ 0.
    Proof.
      induction 1; intros Hl; [by apply elem_of_nil in Hl|..];
        apply elem_of_cons in Hl as [->|?]; auto.
    Qed.

    Lemma tr_nodup t lims : TrOk D h lv rs t lims → NoDup (Z.abs <$> t).
    Proof. induction 1; [constructor|..]; cbn; constructor; done. Qed.

    Lemma tr_consistent t lims l : TrOk D h lv rs t lims → l ∈ t → - l ∉ t.
    Proof.
      intros T. induction T as [|l' t lims i T IH Hnz Hf _ _ _ _ _ _|l' t lims T IH Hnz Hf _ _ _];
        intros Hl Hl'; [by apply elem_of_nil in Hl|..];
        apply elem_of_cons in Hl as [->|Hl]; apply elem_of_cons in Hl' as [E|Hl'];
        try lia; try by apply IH.
      all: apply Hf; apply elem_of_list_fmap.
      - exists (- l'). split; [lia|done].
      - exists l. split; [lia|done].
      - exists (- l'). split; [lia|done].
      - exists l. split; [lia|done].
    Qed.

    Lemma tr_level t lims l : TrOk D h lv rs t lims → l ∈ t →
      0 ≤ lvl lv (Z.abs l) ≤ Z.of_nat (length lims).
    Proof.
      induction 1; intros Hl; [by apply elem_of_nil in Hl|..];
        apply elem_of_cons in Hl as [->|Hl]; cbn [length]; try lia.
      - by apply IHTrOk.
      - specialize (IHTrOk Hl). lia.
    Qed.

    Lemma tr_lims_len t lims : TrOk D h lv rs t lims → (length lims ≤ length t)%nat.
    Proof. induction 1; cbn; lia. Qed.

    (** Levels only grow along the trail. *)
    Lemma tr_mono l t lims x : TrOk D h lv rs (l :: t) lims → x ∈ t →
      lvl lv (Z.abs x) ≤ lvl lv (Z.abs l).
    Proof.
      intros T Hx. inversion T as [|? ? ? ? T'|? ? ? T']; subst;
        pose proof (tr_level _ _ _ T' Hx); lia.
    Qed.

    Lemma tr_mono_app t1 t2 lims x y : TrOk D h lv rs (t1 ++ t2) lims → x ∈ t1 → y ∈ t2 →
      lvl lv (Z.abs y) ≤ lvl lv (Z.abs x).
    Proof.
      revert lims. induction t1 as [|l t1 IH]; intros lims T Hx Hy; [by apply elem_of_nil in Hx|].
      apply elem_of_cons in Hx as [->|Hx].
      - apply (tr_mono _ _ _ _ T). apply elem_of_app. by right.
      - inversion T; subst; by eapply IH.
    Qed.

    Lemma tr_suffix t1 t2 lims : TrOk D h lv rs (t1 ++ t2) lims →
      ∃ l1 l2, lims = l1 ++ l2 ∧ TrOk D h lv rs t2 l2.
    Proof.
      revert lims. induction t1 as [|l t1 IH]; intros lims T; [by exists [], lims|].
      inversion T as [|? ? ? ? T'|? ? lims' T']; subst; destruct (IH _ T') as (l1 & l2 & -> & ?).
      - eauto.
      - by exists (length (t1 ++ t2) :: l1), l2.
    Qed.
  End trail.

  (** The trail judgement only depends on the set of literals of the clauses, and on the levels
      and reasons of the variables of the trail. *)
  Lemma tr_ext h h' lv lv' rs rs' t lims :
    TrOk D h lv rs t lims →
    (∀ i x, (i < length h)%nat → x ∈ hl h' i ↔ x ∈ hl h i) → (length h ≤ length h')%nat →
    (∀ l, l ∈ t → lvl lv' (Z.abs l) = lvl lv (Z.abs l) ∧ rs' !! Z.abs l = rs !! Z.abs l) →
    TrOk D h' lv' rs' t lims.
  Proof.
    intros T Hh Hlen. induction T as [|l t lims i T IH Hnz Hf Hr Hi Hi' Hl Hx Hlv|l t lims T IH Hnz Hf Hr HD Hlv];
      intros Ht; [constructor|..].
    - destruct (Ht l) as [E1 E2]; [left|].
      apply (tr_prop D h' lv' rs' l t lims i); rewrite ?E1, ?E2; try done.
      + apply IH. intros x ?. apply Ht. by right.
      + lia.
      + by apply Hh.
      + intros x Hx'%Hh; [|done]. by apply Hx.
    - destruct (Ht l) as [E1 E2]; [left|].
      apply tr_dec; rewrite ?E1, ?E2; try done.
      apply IH. intros x ?. apply Ht. by right.
  Qed.

  Lemma asg_false a tr l : AsgOk a tr → aset_value a l = Some false ↔ - l ∈ tr.
  Proof.
    intros A. rewrite <-(ao_val _ _ A), value_neg by apply (ao_wf _ _ A).
    destruct (aset_value a l) as [[]|]; cbn; split; congruence.
  Qed.
  Lemma asg_none a tr l : AsgOk a tr → aset_value a l = None ↔ l ∉ tr ∧ - l ∉ tr.
  Proof.
    clear D. intros A. rewrite <-(ao_val _ _ A), <-(asg_false _ _ _ A).
    destruct (aset_value a l) as [[]|]; naive_solver.
  Qed.
  Lemma asg_assigned a tr v : AsgOk a tr → (∀ l, l ∈ tr → l ≠ 0) →
    v ∈ a_assigned a ↔ v ∈ Z.abs <$> tr.
  Proof.
    intros A Hnz. rewrite (awf_assigned _ (ao_wf _ _ A)), elem_of_list_fmap. split.
    - intros [Hv [b Hb]]. destruct b.
      + exists v. split; [lia|]. by apply (ao_val _ _ A).
      + exists (- v). split; [lia|]. by apply (asg_false _ _ _ A).
    - intros (l & -> & Hl). pose proof (Hnz _ Hl). split; [lia|].
      destruct (decide (0 < l)).
      + rewrite Z.abs_eq by lia. apply (ao_val _ _ A) in Hl. unfold aset_value in Hl. eauto.
      + rewrite Z.abs_neq by lia. replace l with (- - l) in Hl by lia.
        apply (asg_false _ _ _ A) in Hl. unfold aset_value in Hl. eauto.
  Qed.
End inv.
