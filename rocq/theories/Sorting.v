(** * Stable sorting (Python's [list.sort] and [sorted]) and the order on strings. *)
From Verif Require Export Base.

(** [sorted(l, key=...)] where [lt a b] says [key(a) < key(b)].  Python's sort is stable, so the
    result is determined; insertion sort is one way to compute it. *)
Section sort.
  Context {A : Type} (lt : A → A → bool).

  Fixpoint insert_by (x : A) (l : list A) : list A :=
    match l with
    | [] => [x]
    | y :: r => if lt y x then y :: insert_by x r else x :: l
    end.
  Definition sort_by (l : list A) : list A := foldr insert_by [] l.

  Lemma insert_by_perm x l : insert_by x l ≡ₚ x :: l.
  Proof.
    induction l as [|y l IH]; cbn; [done|]. destruct (lt y x); [|done].
    rewrite IH. constructor.
  Qed.
  Lemma sort_by_perm l : sort_by l ≡ₚ l.
  Proof. induction l as [|x l IH]; cbn; [done|]. by rewrite insert_by_perm, IH. Qed.
  Lemma elem_of_sort_by x l : x ∈ sort_by l ↔ x ∈ l.
  Proof. by rewrite sort_by_perm. Qed.
  Lemma sort_by_length l : length (sort_by l) = length l.
  Proof. by rewrite sort_by_perm. Qed.
  Lemma sort_by_nodup l : NoDup (sort_by l) ↔ NoDup l.
  Proof. by rewrite sort_by_perm. Qed.

  (** Sorted: no later element has a smaller key than an earlier one. *)
  Definition sorted_by : list A → Prop := StronglySorted (λ a b, lt b a = false).

  Context (lt_trans : ∀ a b c, lt a b = true → lt b c = true → lt a c = true).
  Context (lt_asym : ∀ a b, lt a b = true → lt b a = false).
  Context (lt_cotrans : ∀ a b c, lt b a = false → lt c b = false → lt c a = false).

  Lemma insert_by_sorted x l : sorted_by l → sorted_by (insert_by x l).
  Proof.
    unfold sorted_by. induction 1 as [|y l Hs IH Hall]; cbn; [repeat constructor|].
    destruct (lt y x) eqn:E.
    - constructor; [done|]. rewrite insert_by_perm. constructor; [by apply lt_asym|done].
    - constructor; [by constructor|]. constructor; [done|].
      eapply Forall_impl; [exact Hall|]. cbn. intros z Hz. by eapply lt_cotrans.
  Qed.
  Lemma sort_by_sorted l : sorted_by (sort_by l).
  Proof. induction l as [|x l IH]; cbn; [constructor|]. by apply insert_by_sorted. Qed.

  (** A sorted list is not changed (stability). *)
  Lemma sort_by_id l : sorted_by l → sort_by l = l.
  Proof.
    unfold sorted_by. induction 1 as [|y l Hs IH Hall]; [done|].
    change (insert_by y (sort_by l) = y :: l). rewrite IH.
    destruct l as [|z l]; [done|]. cbn. apply Forall_cons in Hall as [-> _]. done.
  Qed.

  (** Stability: elements of one key class keep their order. *)
  Lemma insert_by_filter_in (P : A → Prop) `{∀ x, Decision (P x)} x l :
    (∀ y, P y → lt y x = false) → P x → filter P (insert_by x l) = x :: filter P l.
  Proof.
    intros HP Hx. induction l as [|y l IH]; cbn [insert_by].
    - rewrite filter_cons_True by done. done.
    - destruct (lt y x) eqn:E.
      + rewrite !(filter_cons_False P y); [done|..]; intros Hy; rewrite HP in E; done.
      + by rewrite filter_cons_True.
  Qed.
  Lemma insert_by_filter_out (P : A → Prop) `{∀ x, Decision (P x)} x l :
    ¬ P x → filter P (insert_by x l) = filter P l.
  Proof.
    intros Hx. induction l as [|y l IH]; cbn [insert_by].
    - by rewrite filter_cons_False.
    - destruct (lt y x).
      + rewrite !filter_cons. by case_decide; rewrite IH.
      + by rewrite filter_cons_False.
  Qed.
  Lemma sort_by_filter (P : A → Prop) `{∀ x, Decision (P x)} l :
    (∀ x y, P x → P y → lt y x = false) → filter P (sort_by l) = filter P l.
  Proof.
    intros HP. induction l as [|x l IH]; [done|].
    change (sort_by (x :: l)) with (insert_by x (sort_by l)).
    destruct (decide (P x)) as [Hx|Hx].
    - rewrite insert_by_filter_in by auto. rewrite filter_cons_True by done. by rewrite IH.
    - rewrite insert_by_filter_out by done. by rewrite filter_cons_False.
  Qed.
End sort.

(** The order of Python strings: lexicographic by code point (for UTF-8 the same as by byte). *)
Definition str_ltb (a b : string) : bool :=
  match String.compare a b with Lt => true | _ => false end.

Lemma ascii_compare_lt_trans a b c :
  Ascii.compare a b = Lt → Ascii.compare b c = Lt → Ascii.compare a c = Lt.
Proof. unfold Ascii.compare. rewrite !N.compare_lt_iff. lia. Qed.
Lemma ascii_compare_eq a b : Ascii.compare a b = Eq → a = b.
Proof. apply Ascii.compare_eq_iff. Qed.
Lemma ascii_compare_refl a : Ascii.compare a a = Eq.
Proof. unfold Ascii.compare. apply N.compare_refl. Qed.
Lemma string_compare_refl a : String.compare a a = Eq.
Proof. induction a as [|x a IH]; cbn; [done|]. by rewrite ascii_compare_refl. Qed.
Lemma string_compare_trans a : ∀ b c,
  String.compare a b = Lt → String.compare b c = Lt → String.compare a c = Lt.
Proof.
  induction a as [|x a IH]; intros [|y b] [|z c]; cbn; try done.
  destruct (Ascii.compare x y) eqn:E1; [..|done]; destruct (Ascii.compare y z) eqn:E2; try done.
  - apply ascii_compare_eq in E1 as ->. apply ascii_compare_eq in E2 as ->.
    rewrite ascii_compare_refl. apply IH.
  - apply ascii_compare_eq in E1 as ->. by rewrite E2.
  - apply ascii_compare_eq in E2 as ->. by rewrite E1.
  - by rewrite (ascii_compare_lt_trans x y z).
Qed.
Lemma str_ltb_trans a b c : str_ltb a b = true → str_ltb b c = true → str_ltb a c = true.
Proof.
  unfold str_ltb. destruct (String.compare a b) eqn:E1; try done.
  destruct (String.compare b c) eqn:E2; try done. by rewrite (string_compare_trans a b c).
Qed.
Lemma str_ltb_irrefl a : str_ltb a a = false.
Proof. unfold str_ltb. by rewrite string_compare_refl. Qed.
Lemma str_ltb_asym a b : str_ltb a b = true → str_ltb b a = false.
Proof.
  intros H1. destruct (str_ltb b a) eqn:H2; [|done].
  rewrite <-(str_ltb_irrefl a). symmetry. by eapply str_ltb_trans.
Qed.
Lemma str_total a b : str_ltb a b = true ∨ a = b ∨ str_ltb b a = true.
Proof.
  unfold str_ltb. rewrite (String.compare_antisym b a).
  destruct (String.compare a b) eqn:E; cbn; auto. right; left. by apply String.compare_eq_iff.
Qed.
Lemma str_cotrans a b c : str_ltb b a = false → str_ltb c b = false → str_ltb c a = false.
Proof.
  intros H1 H2. destruct (str_ltb c a) eqn:H3; [|done].
  destruct (str_total b c) as [H|[->|H]]; [|congruence|congruence].
  rewrite (str_ltb_trans b c a) in H1; done.
Qed.
