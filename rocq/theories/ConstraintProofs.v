(** * Constraints: the code against SpecConstraints.v. *)
From Verif Require Export SpecConstraints.

Lemma ver_eqb_eq a b : ver_eqb a b = true ↔ a = b.
Proof.
  unfold ver_eqb. rewrite andb_true_iff, !Z.eqb_eq. destruct a, b; cbn. split; [intros [-> ->]; done|].
  by intros [= -> ->].
Qed.
Lemma ver_ltb_vlt a b : ver_ltb a b = true ↔ vlt a b.
Proof. unfold ver_ltb, vlt. rewrite orb_true_iff, andb_true_iff, !Z.ltb_lt, Z.eqb_eq. done. Qed.
Lemma vle_iff a b : vle a b ↔ upstream a < upstream b ∨ (upstream a = upstream b ∧ build a ≤ build b).
Proof.
  unfold vle, vlt. destruct a as [u1 b1], b as [u2 b2]; cbn. split.
  - intros [?|[= -> ->]]; lia.
  - intros [?|[-> ?]]; [lia|]. destruct (decide (b1 = b2)) as [->|]; [by right|lia].
Qed.
Lemma ver_leb_vle a b : ver_leb a b = true ↔ vle a b.
Proof. unfold ver_leb. rewrite vle_iff, orb_true_iff, andb_true_iff, Z.ltb_lt, Z.leb_le, Z.eqb_eq. done. Qed.

Lemma cmatches_sem c v : cmatches c v = true ↔ constr_sem c v.
Proof.
  destruct c; cbn; rewrite ?negb_true_iff, ?ver_leb_vle, ?ver_ltb_vlt, ?Z.eqb_eq; try done.
  - rewrite ver_eqb_eq. done.
  - rewrite <-not_true_iff_false, ver_eqb_eq. done.
Qed.
Lemma multi_matches_sem cs v : multi_matches cs v = true ↔ ∀ c, c ∈ cs → constr_sem c v.
Proof.
  induction cs as [|c cs IH]; cbn [multi_matches].
  - split; [|done]. intros _ c Hc. by apply elem_of_nil in Hc.
  - destruct (cmatches c v) eqn:E; cbn [negb].
    + rewrite IH. apply cmatches_sem in E. split.
      * intros H c' [->|Hc]%elem_of_cons; auto.
      * intros H c' Hc. apply H. by right.
    + split; [done|]. intros H. apply not_true_iff_false in E. exfalso. apply E, cmatches_sem, H. left.
Qed.

(** Removing duplicates keeps the elements. *)
Lemma fromkeys_elem {A} `{EqDecision A} (l : list A) x : x ∈ fromkeys l ↔ x ∈ l.
Proof.
  induction l as [|y l IH]; cbn; [done|]. rewrite !elem_of_cons, elem_of_list_filter, IH.
  destruct (decide (x = y)); tauto.
Qed.

(** What a modified requirement accepts. *)
Lemma modify_install_sem r m v :
  (∀ c, c ∈ r_cons (fst (modify_install r m)) → constr_sem c v) ↔
  ∀ c, c ∈ r_cons r → relaxed m (r_name r) c v.
Proof.
  unfold modify_install. set (n := r_name r).
  set (f := λ c, let c := if decide (n ∈ allow_older m) then allow_older_map c else c in
                 let c := if decide (n ∈ allow_newer m) then allow_newer_map c else c in
                 if decide (n ∈ allow_any m) then allow_any_map c else c).
  assert (Hf : ∀ c, constr_sem (f c) v ↔ relaxed m n c v).
  { intros c. unfold f, relaxed. repeat case_decide; destruct c; cbn; done. }
  assert (E : ∀ (cs : list constr) (b : list constr * bool), (let '(c1, m1) := if decide (n ∈ allow_older m) then (allow_older_map <$> cs, true) else (cs, false) in
     let '(c2, m2) := if decide (n ∈ allow_newer m) then (allow_newer_map <$> c1, true) else (c1, m1) in
     let '(c3, m3) := if decide (n ∈ allow_any m) then (allow_any_map <$> c2, true) else (c2, m2) in (c3, m3)) = b →
     b.1 = f <$> cs ∧ (b.2 = false → f <$> cs = cs)).
  { intros cs b <-. unfold f. repeat case_decide; cbn; split; rewrite <-?list_fmap_compose; try done;
      rewrite ?list_fmap_id; try done; intros _; apply list_fmap_id. }
  specialize (E (r_cons r) _ eq_refl). cbn zeta in E.
  destruct (if decide (n ∈ allow_older m) then _ else _) as [c1 m1].
  destruct (if decide (n ∈ allow_newer m) then _ else _) as [c2 m2].
  destruct (if decide (n ∈ allow_any m) then _ else _) as [c3 m3]. cbn in E. destruct E as [-> E].
  assert (Hmain : (∀ c, c ∈ f <$> r_cons r → constr_sem c v) ↔ ∀ c, c ∈ r_cons r → relaxed m n c v).
  { split.
    - intros H c Hc. apply Hf, H. apply elem_of_list_fmap. eauto.
    - intros H c (c' & -> & Hc)%elem_of_list_fmap. by apply Hf, H. }
  destruct m3; cbn [andb].
  - case_bool_decide as Hne; cbn [fst r_cons].
    + rewrite <-Hmain. by setoid_rewrite fromkeys_elem.
    + rewrite <-Hmain, Hne. done.
  - cbn [fst]. rewrite <-Hmain, E by done. done.
Qed.

Lemma modify_install_name r m : r_name (fst (modify_install r m)) = r_name r.
Proof.
  unfold modify_install. repeat case_decide; cbn; try case_bool_decide; cbn; done.
Qed.
Lemma modify_install_same r m : snd (modify_install r m) = false → fst (modify_install r m) = r.
Proof.
  unfold modify_install. destruct (if decide _ then _ else _) as [c1 m1].
  destruct (if decide _ then _ else _) as [c2 m2]. destruct (if decide _ then _ else _) as [c3 m3].
  destruct (m3 && _); done.
Qed.
Lemma modify_install_untouched r m : r_name r ∉ targets m → fst (modify_install r m) = r ∧ snd (modify_install r m) = false.
Proof.
  unfold targets. rewrite !not_elem_of_union. intros [[? ?] ?]. unfold modify_install.
  rewrite !decide_False by done. done.
Qed.
