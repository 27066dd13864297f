(** * Proofs about the parsers. *)
From Verif Require Export SpecParser.
From Coq Require Import Ascii String.
Open Scope list_scope.

(** ** Languages of matchers *)
Definition recog (a : matcher) (L : text → Prop) : Prop :=
  ∀ p q, q ∈ a p ↔ ∃ w, L w ∧ p.2 = w ++ q.2 ∧ q.1 = rev w ++ p.1.

Lemma recog_char f : recog (re_char f) (λ w, ∃ c, w = [c] ∧ f c = true).
Proof.
  intros [p1 p2] [q1 q2]. unfold re_char. cbn. destruct p2 as [|c r].
  - rewrite elem_of_nil. split; [done|]. by intros (w & (c & -> & _) & ? & _).
  - destruct (f c) eqn:E.
    + rewrite elem_of_list_singleton. split.
      * intros [= -> ->]. exists [c]. split; [by exists c|done].
      * intros (w & (c' & -> & _) & [= <- <-] & ->). done.
    + rewrite elem_of_nil. split; [done|]. intros (w & (c' & -> & Hf) & [= <- <-] & _). congruence.
Qed.

Lemma recog_seq a b L M : recog a L → recog b M → recog (re_seq a b) (λ w, ∃ x y, L x ∧ M y ∧ w = x ++ y).
Proof.
  intros Ha Hb p q. unfold re_seq. rewrite elem_of_list_bind. split.
  - intros (r & Hr & Hq). apply Ha in Hq as (x & Hx & E1 & E2). apply Hb in Hr as (y & Hy & E3 & E4).
    exists (x ++ y). split; [by exists x, y|]. rewrite E1, E3, E4, E2, rev_app_distr, <-!app_assoc. done.
  - intros (w & (x & y & Hx & Hy & ->) & E1 & E2).
    exists (rev x ++ p.1, y ++ q.2). split.
    + apply Hb. exists y. split; [done|]. split; [done|]. cbn. by rewrite E2, rev_app_distr, <-app_assoc.
    + apply Ha. exists x. split; [done|]. split; [|done]. cbn. by rewrite E1, <-app_assoc.
Qed.

Lemma recog_opt a L : recog a L → recog (re_opt a) (λ w, L w ∨ w = []).
Proof.
  intros Ha p q. unfold re_opt. rewrite elem_of_app, elem_of_list_singleton, (Ha p q). split.
  - intros [(w & ? & ? & ?)| ->]; [exists w; auto|]. exists []. auto.
  - intros (w & [?| ->] & E1 & E2); [left; exists w; auto|]. right.
    destruct p, q; cbn in *; congruence.
Qed.

Lemma plus_go_spec a L n : recog a L → (∀ w, L w → w ≠ []) → ∀ p q, (List.length p.2 ≤ n)%nat →
  q ∈ plus_go n a p ↔ ∃ ws, ws ≠ [] ∧ Forall L ws ∧ p.2 = List.concat ws ++ q.2 ∧ q.1 = rev (List.concat ws) ++ p.1.
Proof.
  intros Ha Hne. induction n as [|n IH]; intros p q Hn.
  - cbn. rewrite elem_of_nil. split; [done|]. intros (ws & Hws & HL & E & _).
    destruct ws as [|w ws]; [done|]. apply Forall_cons in HL as [HL _]. apply Hne in HL.
    rewrite E in Hn. destruct w; [done|]. cbn in Hn. lia.
  - cbn [plus_go]. rewrite elem_of_list_bind. split.
    + intros (r & Hr & Hq). apply Ha in Hq as (w & HL & E1 & E2).
      apply elem_of_app in Hr as [Hr|Hr%elem_of_list_singleton].
      * apply IH in Hr as (ws & Hws & HLs & E3 & E4).
        2:{ rewrite E1, app_length in Hn. apply Hne in HL. destruct w; [done|]. cbn in Hn. lia. }
        exists (w :: ws). split; [done|]. split; [by constructor|]. cbn [List.concat].
        rewrite E1, E3, E4, E2, rev_app_distr, <-!app_assoc. done.
      * subst r. exists [w]. split; [done|]. split; [by repeat constructor|]. cbn [List.concat].
        by rewrite app_nil_r.
    + intros (ws & Hws & HLs & E1 & E2). destruct ws as [|w ws]; [done|].
      apply Forall_cons in HLs as [HL HLs]. cbn [List.concat] in E1, E2.
      exists (rev w ++ p.1, List.concat ws ++ q.2). split.
      * apply elem_of_app. destruct ws as [|w' ws].
        -- right. apply elem_of_list_singleton. cbn [List.concat] in *. rewrite app_nil_r in *. destruct q; cbn in *; by subst.
        -- left. apply IH.
           { cbn [snd]. rewrite E1, app_length, app_length in Hn. apply Hne in HL.
             rewrite app_length. destruct w; [done|]. cbn [List.length] in Hn. lia. }
           exists (w' :: ws). split; [done|]. split; [done|]. split; [done|]. cbn [fst].
           by rewrite E2, rev_app_distr, <-app_assoc.
      * apply Ha. exists w. split; [done|]. split; [|done]. cbn. by rewrite E1, <-app_assoc.
Qed.

Lemma recog_plus a L : recog a L → (∀ w, L w → w ≠ []) →
  recog (re_plus a) (λ w, ∃ ws, ws ≠ [] ∧ Forall L ws ∧ w = List.concat ws).
Proof.
  intros Ha Hne p q. unfold re_plus. rewrite (plus_go_spec a L _ Ha Hne) by done. split.
  - intros (ws & ? & ? & ? & ?). exists (List.concat ws). split; [by exists ws|done].
  - intros (w & (ws & ? & ? & ->) & ? & ?). by exists ws.
Qed.

Lemma recog_ext a L M : (∀ w, L w ↔ M w) → recog a L → recog a M.
Proof. intros H Ha p q. rewrite (Ha p q). by setoid_rewrite H. Qed.

Lemma chars_concat f ws : Forall (λ w, ∃ c : ascii, w = [c] ∧ f c = true) ws →
  Forall (λ c, f c = true) (List.concat ws) ∧ (ws ≠ [] → List.concat ws ≠ []).
Proof.
  induction 1 as [|w ws (c & -> & Hc) _ [IH _]]; cbn; [done|]. split; [by constructor|done].
Qed.
Lemma recog_chars f : recog (re_plus (re_char f)) (λ w, w ≠ [] ∧ Forall (λ c, f c = true) w).
Proof.
  eapply recog_ext; [|apply recog_plus; [apply recog_char|]].
  - intros w. split.
    + intros (ws & Hne & HL & ->). destruct (chars_concat f ws HL) as [H1 H2]. auto.
    + intros [Hne Hw]. exists ((λ c, [c]) <$> w). split; [by destruct w|]. split.
      * rewrite Forall_fmap. eapply Forall_impl; [exact Hw|]. intros c Hc. by exists c.
      * clear. induction w; cbn; [done|]. by f_equal.
  - intros w (c & -> & _). done.
Qed.
Lemma recog_word : recog (re_plus (re_char is_word)) word.
Proof. apply recog_chars. Qed.

(** ** Distribution names *)
Lemma dotted_ne t : dotted t → t ≠ [].
Proof. intros [w [Hw _]|w t' [Hw _] _]; [done|]. by destruct w. Qed.
Lemma dotted_first t : dotted t → ∃ c r, t = c :: r ∧ is_word c = true.
Proof.
  intros [w [Hw HF]|w t' [Hw HF] _]; destruct w as [|c w]; try done; apply Forall_cons in HF as [? _]; eauto.
Qed.
Lemma dotted_last t : dotted t → ∃ c r, rev t = c :: r ∧ is_word c = true.
Proof.
  induction 1 as [w [Hw HF]|w t [Hw HF] Ht (c & r & E & Hc)].
  - destruct (rev w) as [|c r] eqn:E.
    { apply (f_equal (@rev _)) in E. rewrite rev_involutive in E. done. }
    exists c, r. split; [done|]. rewrite Forall_forall in HF. apply HF.
    apply elem_of_list_In, in_rev. rewrite E. by left.
  - rewrite rev_app_distr. cbn. rewrite E. cbn. eauto.
Qed.
Definition seg (w : text) : Prop := ∃ x y, ((∃ c, x = [c] ∧ is_ch "." c = true) ∨ x = []) ∧ word y ∧ w = x ++ y.
Lemma is_ch_true a c : is_ch a c = true ↔ a = c.
Proof. unfold is_ch. apply bool_decide_eq_true. Qed.
Lemma is_ch_false a c : is_ch a c = false ↔ a ≠ c.
Proof. unfold is_ch. apply bool_decide_eq_false. Qed.
Lemma word_app x y : word x → word y → word (x ++ y).
Proof. intros [? ?] [? ?]. split; [by destruct x|]. by apply Forall_app. Qed.
Lemma word_dotted x t : word x → dotted t → dotted (x ++ t).
Proof.
  intros Hx [w Hw|w t' Hw Ht].
  - constructor. by apply word_app.
  - rewrite app_assoc. constructor; [by apply word_app|done].
Qed.
Lemma segs_dotted ws : ws ≠ [] → Forall seg ws → (dotted (List.concat ws) ∨ ∃ t, List.concat ws = "."%char :: t ∧ dotted t).
Proof.
  intros Hne HF. induction HF as [|w ws (x & y & Hx & Hy & ->) HF IH]; [done|]. cbn [List.concat].
  assert (IH' : dotted (y ++ List.concat ws)).
  { destruct ws as [|w' ws]; [rewrite app_nil_r; by constructor|].
    destruct IH as [IH|(t & E & IH)]; [done| |].
    - by apply word_dotted.
    - rewrite E. by constructor. }
  rewrite <-app_assoc. destruct Hx as [(c & -> & Hc%is_ch_true)| ->]; [|by left].
  right. exists (y ++ List.concat ws). subst c. done.
Qed.
Lemma dotted_segs t : dotted t → ∃ ws, ws ≠ [] ∧ Forall seg ws ∧ t = List.concat ws.
Proof.
  induction 1 as [w Hw|w t Hw Ht (ws & Hne & HF & ->)].
  - exists [w]. split; [done|]. split; [|cbn; by rewrite app_nil_r]. constructor; [|done]. exists [], w. auto.
  - destruct ws as [|s ws]; [done|]. apply Forall_cons in HF as [Hs HF].
    destruct Hs as (x & y & Hx & Hy & ->). 
    destruct Hx as [(c & -> & Hc%is_ch_true)| ->].
    + exfalso. subst c. apply dotted_first in Ht as (c & r & E & Hc). injection E as <- _. done.
    + exists (w :: ("."%char :: y) :: ws). split; [done|]. split; [|done].
      constructor; [exists [], w; auto|]. constructor; [|done].
      exists ["."%char], y. split; [left; eauto|done].
Qed.

Lemma recog_dist : recog r_dist dist_name.
Proof.
  intros p q. unfold r_dist.
  assert (Hp : recog (re_plus (re_seq (re_opt (re_char (is_ch "."))) (re_plus (re_char is_word))))
                 (λ w, ∃ ws, ws ≠ [] ∧ Forall seg ws ∧ w = List.concat ws)).
  { apply recog_plus.
    - eapply recog_ext; [|apply recog_seq; [apply recog_opt, recog_char|apply recog_word]]. done.
    - intros w (x & y & _ & [Hy _] & ->). destruct x, y; done. }
  unfold re_seq at 1. rewrite elem_of_list_bind. split.
  - intros (r & Hr & Hq). unfold re_not_ahead in Hq.
    destruct (re_char (is_ch ".") p) eqn:E; [|by apply elem_of_nil in Hq].
    apply elem_of_list_singleton in Hq as ->. unfold re_seq at 1 in Hr. rewrite elem_of_list_bind in Hr.
    destruct Hr as (r & Hr & Hq). unfold re_not_behind in Hr.
    assert (r = q) as ->.
    { destruct (r.1) as [|c l]; [by apply elem_of_list_singleton in Hr|].
      destruct (is_ch "." c); [by apply elem_of_nil in Hr|by apply elem_of_list_singleton in Hr]. }
    clear Hr. apply Hp in Hq as (w & (ws & Hne & HF & ->) & E1 & E2).
    exists (List.concat ws). split; [|done]. destruct (segs_dotted ws Hne HF) as [?|(t & Et & Ht)]; [done|].
    exfalso. unfold re_char in E. rewrite E1, Et in E. cbn in E. done.
  - intros (w & Hw & E1 & E2). exists p. split.
    + unfold re_seq at 1. rewrite elem_of_list_bind. exists q. split.
      * unfold re_not_behind. destruct (dotted_last w Hw) as (c & r & Er & Hc). rewrite E2, Er. cbn.
        destruct (is_ch "." c) eqn:E; [|apply elem_of_list_singleton; done].
        apply is_ch_true in E as <-. done.
      * apply Hp. exists w. split; [by apply dotted_segs|done].
    + unfold re_not_ahead. destruct (dotted_first w Hw) as (c & r & -> & Hc).
      unfold re_char. rewrite E1. cbn. destruct (is_ch "." c) eqn:E; [|by apply elem_of_list_singleton].
      apply is_ch_true in E as <-. done.
Qed.

(** ** Versions *)
Lemma end_spec p q : q ∈ re_end p ↔ q = p ∧ (p.2 = [] ∨ p.2 = [newline]).
Proof.
  unfold re_end. destruct (p.2) as [|c [|c' r]] eqn:E.
  - rewrite elem_of_list_singleton. tauto.
  - destruct (is_ch newline c) eqn:Ec.
    + apply is_ch_true in Ec as <-. rewrite elem_of_list_singleton. tauto.
    + apply is_ch_false in Ec. rewrite elem_of_nil. split; [done|]. intros [_ [?|[= ?]]]; [done|]. congruence.
  - rewrite elem_of_nil. split; [done|]. by intros [_ [?|?]].
Qed.
Lemma version_spec p q : q ∈ r_version p ↔
  ∃ w, version_text w ∧ p.2 = w ++ q.2 ∧ q.1 = rev w ++ p.1 ∧ (q.2 = [] ∨ q.2 = [newline]).
Proof.
  unfold r_version. unfold re_seq at 1. rewrite elem_of_list_bind.
  assert (Hb : recog (re_seq r_dist (re_opt (re_seq (re_char (is_ch "-")) (re_plus (re_char is_word)))))
     (λ w, ∃ u y, dotted u ∧ ((∃ x b, (∃ c, x = [c] ∧ is_ch "-" c = true) ∧ word b ∧ y = x ++ b) ∨ y = []) ∧ w = u ++ y)).
  { apply recog_seq; [apply recog_dist|]. apply recog_opt, recog_seq; [apply recog_char|apply recog_word]. }
  assert (Hassoc : ∀ p q, q ∈ re_seq r_dist (re_seq (re_opt (re_seq (re_char (is_ch "-")) (re_plus (re_char is_word)))) re_end) p ↔
     q ∈ re_seq r_dist (re_opt (re_seq (re_char (is_ch "-")) (re_plus (re_char is_word)))) p ∧ (q.2 = [] ∨ q.2 = [newline])).
  { intros p' q'. unfold re_seq at 1 2 4. rewrite !elem_of_list_bind. split.
    - intros (r & Hr & Hp). rewrite elem_of_list_bind in Hr. destruct Hr as (r' & [-> He]%end_spec & Hr).
      split; [by exists r|done].
    - intros [(r & Hr & Hp) He]. exists r. split; [|done]. rewrite elem_of_list_bind.
      exists q'. split; [by apply end_spec|done]. }
  split.
  - intros (r & Hr & Hq). unfold re_ahead in Hq.
    destruct (re_char is_digit p) as [|x xs] eqn:E; [by apply elem_of_nil in Hq|].
    apply elem_of_list_singleton in Hq as ->. apply Hassoc in Hr as [Hr He].
    apply Hb in Hr as (w & (u & y & Hu & Hy & ->) & E1 & E2). exists (u ++ y). split; [|done].
    exists u. split; [done|]. split.
    + destruct (dotted_first u Hu) as (c & r & -> & _). exists c, r. split; [done|].
      unfold re_char in E. rewrite E1 in E. cbn in E. by destruct (is_digit c).
    + destruct Hy as [(x' & b & (c & -> & Hc%is_ch_true) & Hb' & ->)| ->]; [right|left; by rewrite app_nil_r].
      exists b. by subst c.
  - intros (w & (u & Hu & (c & r & Eu & Hc) & Hw) & E1 & E2 & He). exists p. split.
    + apply Hassoc. split; [|done]. apply Hb. exists w. split; [|done].
      destruct Hw as [->|(b & Hb' & ->)].
      * exists u, []. rewrite app_nil_r. auto.
      * exists u, ("-"%char :: b). split; [done|]. split; [|done]. left. exists ["-"%char], b.
        split; [by exists "-"%char|done].
    + unfold re_ahead, re_char. rewrite E1. destruct Hw as [->|(b & _ & ->)]; rewrite Eu; cbn; rewrite Hc;
        apply elem_of_list_singleton; done.
Qed.

Lemma consumed_app p1 w t r : consumed (p1, t) (rev w ++ p1, r) = w.
Proof.
  unfold consumed. cbn. rewrite app_length.
  replace (List.length (rev w) + List.length p1 - List.length p1)%nat with (List.length (rev w)) by lia.
  rewrite take_app. apply rev_involutive.
Qed.
Lemma consumed_spec p q w : q.1 = rev w ++ p.1 → consumed p q = w.
Proof. destruct p, q. cbn [fst]. intros ->. apply consumed_app. Qed.

(** ** Package full names *)
Lemma full_name_spec s n v : (n, v) ∈ full_name_matches s ↔ full_name_of s n v.
Proof.
  unfold full_name_matches, full_name_of. rewrite elem_of_list_bind. split.
  - intros (p1 & H1 & Hp1). apply recog_dist in Hp1 as (n' & Hn & E1 & E2).
    rewrite elem_of_list_bind in H1. destruct H1 as (p2 & H2 & Hp2).
    rewrite elem_of_list_bind in H2. destruct H2 as (p3 & H3 & Hp3).
    rewrite elem_of_list_bind in H3. destruct H3 as (p4 & H4 & [-> He]%end_spec).
    apply version_spec in Hp3 as (v' & Hv & E3 & E4 & _).
    assert (Hs : ∃ sep, (sep = ["-"%char] ∨ sep ≠ [] ∧ blank sep) ∧ p1.2 = sep ++ p2.2 ∧ p2.1 = rev sep ++ p1.1).
    { apply elem_of_app in Hp2 as [Hp2|Hp2].
      - apply recog_char in Hp2 as (w & (c & -> & Hc%is_ch_true) & ? & ?). subst c. eauto.
      - apply recog_chars in Hp2 as (w & Hw & ? & ?). exists w. auto. }
    destruct Hs as (sep & Hsep & E5 & E6).
    apply elem_of_list_singleton in H4. injection H4 as -> ->.
    rewrite (consumed_spec _ _ n') by done. rewrite (consumed_spec _ _ v') by done.
    exists sep, p3.2. cbn in E1. rewrite E1, E5, E3. done.
  - intros (sep & tl & -> & Hn & Hv & Hsep & Htl).
    exists (rev n, sep ++ v ++ tl). split.
    2:{ apply recog_dist. exists n. cbn. by rewrite app_nil_r. }
    rewrite elem_of_list_bind. exists (rev sep ++ rev n, v ++ tl). split.
    2:{ apply elem_of_app. destruct Hsep as [->|[Hne Hb]].
        - left. apply recog_char. exists ["-"%char]. split; [by exists "-"%char|done].
        - right. apply recog_chars. exists sep. done. }
    rewrite elem_of_list_bind. exists (rev v ++ rev sep ++ rev n, tl). split.
    2:{ apply version_spec. exists v. done. }
    rewrite elem_of_list_bind. exists (rev v ++ rev sep ++ rev n, tl). split; [|by apply end_spec].
    apply elem_of_list_singleton. f_equal; symmetry; apply consumed_spec; cbn; [by rewrite app_nil_r|done].
Qed.

(** ** Uniqueness *)
Lemma run_unique (f : ascii → bool) x y x' y' : x ++ y = x' ++ y' → Forall (λ c, f c = true) x → Forall (λ c, f c = true) x' →
  (∀ c r, y = c :: r → f c = false) → (∀ c r, y' = c :: r → f c = false) → x = x' ∧ y = y'.
Proof.
  revert x'. induction x as [|c x IH]; intros [|c' x'] E Hx Hx' Hy Hy'.
  - done.
  - exfalso. cbn in E. apply Forall_cons in Hx' as [Hc _]. by rewrite (Hy _ _ E) in Hc.
  - exfalso. cbn in E. symmetry in E. apply Forall_cons in Hx as [Hc _]. by rewrite (Hy' _ _ E) in Hc.
  - cbn in E. injection E as <- E. apply Forall_cons in Hx as [_ Hx]. apply Forall_cons in Hx' as [_ Hx'].
    destruct (IH _ E Hx Hx' Hy Hy') as [-> ->]. done.
Qed.
Definition is_dchar (c : ascii) : bool := is_word c || is_ch "." c.
Definition is_vchar (c : ascii) : bool := is_dchar c || is_ch "-" c.
Lemma dotted_chars t : dotted t → Forall (λ c, is_dchar c = true) t.
Proof.
  assert (Hw : ∀ w, word w → Forall (λ c, is_dchar c = true) w).
  { intros w [_ H]. eapply Forall_impl; [exact H|]. intros c Hc. unfold is_dchar. cbn in Hc. by rewrite Hc. }
  induction 1 as [w H|w t H Ht IH]; [auto|]. apply Forall_app. split; [auto|]. by constructor.
Qed.
Lemma dchar_vchar c : is_dchar c = true → is_vchar c = true.
Proof. unfold is_vchar. by intros ->. Qed.
Lemma version_chars t : version_text t → Forall (λ c, is_vchar c = true) t.
Proof.
  intros (u & Hu & _ & [->|(b & [_ Hb] & ->)]).
  - eapply Forall_impl; [exact (dotted_chars u Hu)|]. apply dchar_vchar.
  - apply Forall_app. split; [eapply Forall_impl; [exact (dotted_chars u Hu)|]; apply dchar_vchar|].
    constructor; [done|]. eapply Forall_impl; [exact Hb|]. intros c Hc. cbn in Hc.
    unfold is_vchar, is_dchar. by rewrite Hc.
Qed.
Lemma version_first t : version_text t → ∃ c r, t = c :: r ∧ is_digit c = true.
Proof. intros (u & _ & (c & r & -> & Hc) & [->|(b & _ & ->)]); cbn; eauto. Qed.
Lemma digit_word c : is_digit c = true → is_word c = true.
Proof. unfold is_word. by intros ->. Qed.
(** Properties of single characters are checked on all 256 of them. *)
Lemma all_ascii (P : ascii → bool) :
  forallb (λ n, P (ascii_of_nat n)) (seq 0 256) = true → ∀ c, P c = true.
Proof.
  intros H c. rewrite <-(ascii_nat_embedding c). rewrite forallb_forall in H. apply H.
  apply in_seq. split; [lia|]. cbn. apply nat_ascii_bounded.
Qed.
Lemma space_not_vchar c : is_white c = true → is_vchar c = false.
Proof.
  intros Hc. assert (H := all_ascii (λ c, negb (is_white c && is_vchar c))).
  specialize (H eq_refl c). cbn beta in H. rewrite Hc in H. by destruct (is_vchar c).
Qed.
Lemma vchar_not_space c : is_vchar c = true → is_white c = false.
Proof. intros Hc. destruct (is_white c) eqn:E; [|done]. apply space_not_vchar in E. congruence. Qed.
Lemma not_vchar_dchar c : is_vchar c = false → is_dchar c = false.
Proof. unfold is_vchar. by destruct (is_dchar c). Qed.
Lemma not_dchar_word c : is_dchar c = false → is_word c = false.
Proof. unfold is_dchar. by destruct (is_word c). Qed.

Lemma full_name_unique s n v n' v' : full_name_of s n v → full_name_of s n' v' → n = n' ∧ v = v'.
Proof.
  intros (sep & tl & E & Hn & Hv & Hs & Ht) (sep' & tl' & E' & Hn' & Hv' & Hs' & Ht').
  assert (Hsd : ∀ sep t, (sep = ["-"%char] ∨ sep ≠ [] ∧ blank sep) → ∀ c r, sep ++ t = c :: r → is_dchar c = false).
  { clear. intros sep t [-> |[Hne Hb]] c r E.
    - by injection E as <- _.
    - destruct sep as [|c' sep]; [done|]. injection E as -> _. apply Forall_cons in Hb as [Hb _].
      by apply not_vchar_dchar, space_not_vchar. }
  rewrite E in E'.
  destruct (run_unique is_dchar _ _ _ _ E' (dotted_chars _ Hn) (dotted_chars _ Hn') (Hsd _ _ Hs) (Hsd _ _ Hs')) as [-> E2].
  split; [done|].
  assert (Hvs : ∀ (v tl : text), version_text v → ∀ c r, v ++ tl = c :: r → is_white c = false ∧ c ≠ "-"%char).
  { clear. intros v tl Hv c r E. destruct (version_first v Hv) as (c' & r' & -> & Hc). injection E as -> _.
    split; [apply vchar_not_space; unfold is_vchar, is_dchar, is_word; by rewrite Hc|]. by intros ->. }
  assert (E3 : v ++ tl = v' ++ tl').
  { destruct Hs as [-> |[Hne Hb]], Hs' as [-> |[Hne' Hb']].
    - by injection E2.
    - exfalso. destruct sep' as [|c sep']; [done|]. injection E2 as <- _. by apply Forall_cons in Hb' as [? _].
    - exfalso. destruct sep as [|c sep]; [done|]. injection E2 as -> _. by apply Forall_cons in Hb as [? _].
    - apply (run_unique is_white _ _ _ _ E2 Hb Hb'); intros c r Ec.
      + exact (proj1 (Hvs _ _ Hv _ _ Ec)).
      + exact (proj1 (Hvs _ _ Hv' _ _ Ec)). }
  apply (run_unique is_vchar _ _ _ _ E3 (version_chars _ Hv) (version_chars _ Hv')).
  - intros c r Ec. destruct Ht as [-> | ->]; [done|]. by injection Ec as <- _.
  - intros c r Ec. destruct Ht' as [-> | ->]; [done|]. by injection Ec as <- _.
Qed.

Lemma head_elem {A} (l : list A) x : head l = Some x → x ∈ l.
Proof. destruct l; [done|]. intros [= ->]. apply elem_of_list_here. Qed.
Theorem parse_full_name_spec s n v : parse_package_full_name s = Ok (n, v) ↔ full_name_of s n v.
Proof.
  unfold parse_package_full_name. split.
  - intros H. apply full_name_spec, head_elem. destruct (head _); cbn in H; [by injection H as ->|done].
  - intros H. destruct (head (full_name_matches s)) as [[n' v']|] eqn:E.
    + cbn. apply head_elem, full_name_spec in E. destruct (full_name_unique _ _ _ _ _ H E) as [-> ->]. done.
    + exfalso. apply full_name_spec in H. destruct (full_name_matches s); [by apply elem_of_nil in H|done].
Qed.
Theorem parse_full_name_else s : (∀ n v, ¬ full_name_of s n v) → parse_package_full_name s = Raise SolverException.
Proof.
  intros H. unfold parse_package_full_name. destruct (head (full_name_matches s)) as [[n v]|] eqn:E; [|done].
  exfalso. apply head_elem, full_name_spec in E. by apply (H n v).
Qed.
