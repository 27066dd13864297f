(** * A stable sort is determined by sortedness and by the order within each key class. *)
From Verif Require Export Sorting.

Section uniq.
  Context {A : Type} (lt : A → A → bool).
  Context (lt_irrefl : ∀ a, lt a a = false).
  Context (lt_asym : ∀ a b, lt a b = true → lt b a = false).
  Context (lt_cotrans : ∀ a b c, lt b a = false → lt c b = false → lt c a = false).

  (** Same key. *)
  Definition keq (x y : A) : Prop := lt x y = false ∧ lt y x = false.
  Global Instance keq_dec x y : Decision (keq x y).
  Proof. unfold keq. apply _. Defined.
  Lemma keq_refl x : keq x x.
  Proof. split; apply lt_irrefl. Qed.
  Lemma keq_sym x y : keq x y → keq y x.
  Proof. intros [? ?]. by split. Qed.
  Lemma keq_trans x y z : keq x y → keq y z → keq x z.
  Proof. intros [? ?] [? ?]. split; by eapply lt_cotrans. Qed.

  Lemma sorted_unique a : ∀ b, sorted_by lt a → sorted_by lt b →
    (∀ x, filter (keq x) a = filter (keq x) b) → a = b.
  Proof.
    unfold sorted_by. induction a as [|x a IH]; intros [|y b] Ha Hb Hf; [done|..].
    - specialize (Hf y). rewrite filter_cons_True in Hf by apply keq_refl. done.
    - specialize (Hf x). rewrite filter_cons_True in Hf by apply keq_refl. done.
    - inversion Ha as [|?? Ha' Fa]; subst. inversion Hb as [|?? Hb' Fb]; subst.
      rewrite Forall_forall in Fa, Fb.
      assert (Hyx : lt y x = false).
      { assert (Hy : y ∈ filter (keq y) (x :: a)).
        { rewrite Hf. apply elem_of_list_filter. split; [apply keq_refl|left]. }
        apply elem_of_list_filter in Hy as [_ [->|Hy]%elem_of_cons]; [apply lt_irrefl|auto]. }
      assert (Hxy : lt x y = false).
      { assert (Hy : x ∈ filter (keq x) (y :: b)).
        { rewrite <-Hf. apply elem_of_list_filter. split; [apply keq_refl|left]. }
        apply elem_of_list_filter in Hy as [_ [->|Hy]%elem_of_cons]; [apply lt_irrefl|auto]. }
      assert (x = y) as <-.
      { specialize (Hf x). rewrite !filter_cons_True in Hf by (try apply keq_refl; by split).
        by injection Hf. }
      f_equal. apply IH; [done|done|]. intros z. specialize (Hf z).
      rewrite !filter_cons in Hf. case_decide; [by injection Hf|done].
  Qed.

  Lemma sort_by_keq_filter x l : filter (keq x) (sort_by lt l) = filter (keq x) l.
  Proof.
    apply sort_by_filter. intros u v Hu Hv. apply (keq_trans v x u); [by apply keq_sym|done].
  Qed.

  Lemma sort_by_unique a l : sorted_by lt a → (∀ x, filter (keq x) a = filter (keq x) l) → a = sort_by lt l.
  Proof.
    intros Ha Hf. apply sorted_unique; [done|by apply sort_by_sorted|].
    intros x. by rewrite sort_by_keq_filter.
  Qed.

  Lemma sort_by_app_l l k : sort_by lt (sort_by lt l ++ k) = sort_by lt (l ++ k).
  Proof.
    apply sort_by_unique; [by apply sort_by_sorted|]. intros x.
    by rewrite sort_by_keq_filter, !filter_app, sort_by_keq_filter.
  Qed.

  (** If the elements with equal keys are equal, the result depends only on the multiset. *)
  Lemma all_equal_perm (a b : list A) : a ≡ₚ b → (∀ x y, x ∈ a → y ∈ a → x = y) → a = b.
  Proof.
    intros Hp He. assert (Hl := Permutation_length Hp).
    assert (He' : ∀ x y, x ∈ a → y ∈ b → x = y) by (intros x y Hx Hy; rewrite <-Hp in Hy; auto).
    clear He Hp. revert b Hl He'. induction a as [|x a IH]; intros [|y b] Hl He; try done.
    f_equal; [apply He; left|]. apply IH; [by injection Hl|]. intros u v Hu Hv. apply He; by right.
  Qed.
  Lemma sort_by_perm_eq l k : l ≡ₚ k → (∀ x y, x ∈ l → y ∈ l → keq x y → x = y) →
    sort_by lt l = sort_by lt k.
  Proof.
    intros Hp He. apply sort_by_unique; [by apply sort_by_sorted|]. intros x.
    rewrite sort_by_keq_filter. apply all_equal_perm; [by rewrite Hp|].
    intros u v [Hu ?]%elem_of_list_filter [Hv ?]%elem_of_list_filter. apply He; [done|done|].
    apply (keq_trans u x v); [by apply keq_sym|done].
  Qed.
End uniq.

(** A strictly sorted list of strings. *)
Lemma insert_str_nodup n l : n ∉ l → NoDup l → NoDup (insert_by str_ltb n l).
Proof. intros. rewrite insert_by_perm. by constructor. Qed.
