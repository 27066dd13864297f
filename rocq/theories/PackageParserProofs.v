(** * Proofs about pretty package strings. *)
From Verif Require Export SpecPretty.
From Verif Require Import ReqProofs.
From Coq Require Import Ascii String.
Open Scope list_scope.

(** ** finditer *)
Section find.
  Context {X : Type} (m : grouped X).
  Definition finds (p : pos) (xs : list X) : Prop :=
    ∀ fuel, (List.length p.2 < fuel)%nat → find_go m fuel p = xs.
  Lemma find_end p1 : m (p1, []) = [] → finds (p1, []) [].
  Proof. intros H [|fuel] Hf; cbn in Hf; [lia|]. cbn. by rewrite H. Qed.
  Lemma find_skip p1 c r xs : m (p1, c :: r) = [] → finds (c :: p1, r) xs → finds (p1, c :: r) xs.
  Proof. intros H Hr [|fuel] Hf; cbn in Hf; [lia|]. cbn. rewrite H. apply Hr. cbn. lia. Qed.
  Lemma find_match p1 w r x xs : w ≠ [] → head (m (p1, w ++ r)) = Some ((rev w ++ p1, r), x) →
    finds (rev w ++ p1, r) xs → finds (p1, w ++ r) (x :: xs).
  Proof.
    intros Hw H Hr [|fuel] Hf; cbn in Hf; [lia|]. rewrite app_length in Hf. cbn.
    destruct (m (p1, w ++ r)) as [|[q y] l]; [done|]. cbn in H. injection H as -> ->. f_equal.
    apply Hr. cbn. destruct w; [done|]. cbn in Hf. lia.
  Qed.
  Lemma find_skips (f : ascii → bool) : (∀ p1 c r, f c = true → m (p1, c :: r) = []) → ∀ w p1 r xs,
    Forall (λ c, f c = true) w → finds (rev w ++ p1, r) xs → finds (p1, w ++ r) xs.
  Proof.
    intros Hm. induction w as [|c w IH]; intros p1 r xs Hw Hr; [done|]. apply Forall_cons in Hw as [Hc Hw].
    cbn [app]. apply find_skip; [by apply Hm|]. apply IH; [done|]. cbn [rev] in Hr. rewrite <-app_assoc in Hr. done.
  Qed.
  Lemma finditer_finds t xs : finds ([], t) xs → finditer m t = xs.
  Proof. intros H. apply H. cbn. lia. Qed.
End find.

(** ** Heads of repetitions *)
Lemma star_head f w r p1 : Forall (λ c, f c = true) w → (∀ c t, r = c :: t → f c = false) →
  head (re_star (re_char f) (p1, w ++ r)) = Some (rev w ++ p1, r).
Proof.
  intros Hw Hr. unfold re_star. destruct w as [|c w].
  - cbn [app rev]. destruct (re_plus (re_char f) (p1, r)) as [|q l] eqn:E; [done|]. exfalso.
    assert (Hq : q ∈ re_plus (re_char f) (p1, r)) by (rewrite E; left).
    apply recog_chars in Hq as (x & [Hx Hf] & Hp & _). cbn in Hp. destruct x as [|c x]; [done|].
    apply Forall_cons in Hf as [Hc _]. by rewrite (Hr c (x ++ q.2) Hp) in Hc.
  - assert (H := chars_head f (c :: w) r p1 ltac:(done) Hw Hr).
    apply ScanProofs.head_cons in H as [l ->]. done.
Qed.
Lemma head_bind' {A B} (l : list A) (f : A → list B) x y : head l = Some x → head (f x) = Some y → head (l ≫= f) = Some y.
Proof. intros (r & H)%ScanProofs.head_cons Hf. by eapply head_bind. Qed.
(** The lazy body of a block ends at the first ")". *)
Lemma lazy_paren {X} (k : pos → list (pos * X)) (g : pos → pos * X) w r : 
  (∀ p1 t, k (p1, ")"%char :: t) = [g (p1, ")"%char :: t)]) → (∀ p1 c t, c ≠ ")"%char → k (p1, c :: t) = []) →
  Forall (λ c, c ≠ ")"%char ∧ c ≠ newline) w → ∀ n p1, (List.length w ≤ n)%nat →
  head (lazy_go n (re_char (λ c, negb (is_ch newline c))) (p1, w ++ ")"%char :: r) ≫= k) =
  Some (g (rev w ++ p1, ")"%char :: r)).
Proof.
  intros Hy Hn Hw. induction Hw as [|c w [Hc Hl] Hw IH]; intros n p1 Hlen.
  - cbn [app rev]. destruct n; cbn [lazy_go mbind list_bind]; by rewrite Hy.
  - destruct n as [|n]; cbn in Hlen; [lia|]. cbn [app lazy_go mbind list_bind]. rewrite Hn by done. cbn [app].
    rewrite char_yes. 2:{ apply negb_true_iff, is_ch_false. done. }
    rewrite list_bind_one. rewrite IH by lia. cbn [rev]. by rewrite <-app_assoc.
Qed.

(** ** The entries of a block *)
Lemma constraint_none p1 c r : is_word c = false → r_constraint (p1, c :: r) = [].
Proof. intros H. unfold r_constraint. by rewrite dist_none. Qed.
Lemma not_dchar c : is_word c = false → c ≠ "."%char → is_dchar c = false.
Proof. intros H Hd. unfold is_dchar. rewrite H. cbn. apply is_ch_false. congruence. Qed.
Lemma constraint_head i r p1 : item_ok i → (r = [] ∨ ∃ t, r = ","%char :: t) →
  head (r_constraint (p1, item_text i ++ r)) =
  Some ((rev (item_text i) ++ p1, r), (it_name i, it_constraint i)).
Proof.
  intros (Hn & Hs & Hc & Hf & Hw) Hr. destruct i as [n sp c]; cbn in *. unfold item_text; cbn [it_name it_spaces it_constraint].
  rewrite <-!app_assoc. unfold r_constraint. eapply head_bind'.
  { apply dist_head; [done|]. intros a t E. destruct (sp ++ c) as [|a' t'] eqn:E'.
    - apply app_eq_nil in E' as [-> ->]. cbn in E. subst r. destruct Hr as [?|[t0 [= -> ->]]]; [done|reflexivity].
    - rewrite app_assoc, E' in E. injection E as -> <-. destruct (Hw a t' eq_refl). by apply not_dchar. }
  eapply head_bind'.
  { apply star_head; [eapply Forall_impl; [exact Hs|]; intros a ->; reflexivity|].
    intros a t E. apply is_ch_false. intros <-. destruct c as [|c0 c]; cbn in E.
    - subst r. by destruct Hr as [?|[t0 ?]].
    - injection E as -> <-. by apply (Hf " "%char c eq_refl). }
  eapply head_bind'.
  { apply star_head.
    - apply Forall_forall. intros a Ha. apply negb_true_iff, is_ch_false. intros <-. by destruct (Hc _ Ha).
    - intros a t E. subst r. destruct Hr as [?|[t0 [= -> ->]]]; [done|reflexivity]. }
  cbn [head]. f_equal. rewrite !consumed_rev. rewrite !rev_app_distr, <-!app_assoc. done.
Qed.
Lemma item_ne i : item_ok i → item_text i ≠ [].
Proof. intros (Hn & _) E. unfold item_text in E. apply app_eq_nil in E as [E _]. by apply (dotted_ne _ Hn). Qed.
Lemma blank_not_word b : blank b → Forall (λ c, negb (is_word c) = true) b.
Proof.
  intros H. eapply Forall_impl; [exact H|]. intros c Hc. cbn in Hc. apply negb_true_iff, not_dchar_word, not_vchar_dchar, space_not_vchar. done.
Qed.
Lemma skip_not_word w p1 r xs : Forall (λ c, negb (is_word c) = true) w → finds r_constraint (rev w ++ p1, r) xs →
  finds r_constraint (p1, w ++ r) xs.
Proof. apply find_skips. intros q c t H%negb_true_iff. by apply constraint_none. Qed.
Lemma constraint_nil p1 : r_constraint (p1, []) = [].
Proof. reflexivity. Qed.
Lemma body_finds is parts : body_says is parts → ∀ p1,
  finds r_constraint (p1, commas parts) ((λ i, (it_name i, it_constraint i)) <$> is).
Proof.
  induction 1 as [|b is ts [Hb _] H IH|b i is ts [Hb _] Hi H IH]; intros p1.
  - apply find_end, constraint_nil.
  - apply blank_not_word in Hb. destruct ts as [|t ts].
    + cbn [commas]. rewrite <-(app_nil_r b). apply skip_not_word; [done|]. apply IH.
    + change (commas (b :: t :: ts)) with (b ++ ","%char :: commas (t :: ts)). apply skip_not_word; [done|].
      apply find_skip; [by apply constraint_none|]. apply IH.
  - apply blank_not_word in Hb. cbn [fmap list_fmap]. destruct ts as [|t ts].
    + cbn [commas]. apply skip_not_word; [done|]. rewrite <-(app_nil_r (item_text i)).
      apply find_match; [by apply item_ne|apply constraint_head; auto|]. apply IH.
    + change (commas ((b ++ item_text i) :: t :: ts)) with ((b ++ item_text i) ++ ","%char :: commas (t :: ts)).
      rewrite <-app_assoc. apply skip_not_word; [done|].
      apply find_match; [by apply item_ne|apply constraint_head; eauto|].
      apply find_skip; [by apply constraint_none|]. apply IH.
Qed.

(** ** Blocks *)
Lemma block_none p1 c r : is_word c = false → r_block (p1, c :: r) = [].
Proof.
  intros H. unfold r_block. destruct (re_plus (re_char is_word) (p1, c :: r)) as [|q l] eqn:E; [done|]. exfalso.
  assert (Hq : q ∈ re_plus (re_char is_word) (p1, c :: r)) by (rewrite E; left).
  apply recog_chars in Hq as (x & [Hx Hf] & Hp & _). cbn in Hp. destruct x as [|c' x]; [done|].
  apply Forall_cons in Hf as [Hc _]. cbn in Hp. injection Hp as -> _. congruence.
Qed.
Lemma synonym_word t k : constraint_synonym t = Some k → word t.
Proof.
  assert (Hw : ∀ s, forallb is_word s && negb (bool_decide (s = [])) = true → word s).
  { intros s [Hf Hn%negb_true_iff%bool_decide_eq_false]%andb_true_iff. split; [done|]. apply Forall_forall.
    intros c Hc. rewrite forallb_forall in Hf. apply Hf. by apply elem_of_list_In. }
  unfold constraint_synonym. repeat (case_decide; [intros _; subst; apply Hw; reflexivity|]). done.
Qed.
Lemma line_ok parts : Forall (Forall (λ c, c ≠ ")"%char ∧ c ≠ newline)) parts → Forall (λ c, c ≠ ")"%char ∧ c ≠ newline) (commas parts).
Proof.
  induction 1 as [|t ts Ht Hts IH]; [constructor|]. destruct ts as [|t' ts]; [done|].
  change (commas (t :: t' :: ts)) with (t ++ ","%char :: commas (t' :: ts)). apply Forall_app. split; [done|].
  constructor; [|done]. split; [done|]. intros E. discriminate E.
Qed.
Lemma vchar_line t : Forall (λ c, is_vchar c = true) t → Forall (λ c, c ≠ ")"%char ∧ c ≠ newline) t.
Proof. intros H. eapply Forall_impl; [exact H|]. intros c Hc. cbn in Hc. split; intros ->; discriminate Hc. Qed.
Lemma body_line is parts : body_says is parts → Forall (Forall (λ c, c ≠ ")"%char ∧ c ≠ newline)) parts.
Proof.
  assert (Hb : ∀ b, line_blank b → Forall (λ c, c ≠ ")"%char ∧ c ≠ newline) b).
  { intros b [H Hn]. apply Forall_forall. intros c Hc. split; [|by intros ->].
    intros ->. unfold blank in H. rewrite Forall_forall in H. by apply H in Hc. }
  induction 1 as [|b is ts H1 H IH|b i is ts H1 (Hn & Hs & Hc & _ & _) H IH]; [done|by constructor; auto|].
  constructor; [|done]. apply Forall_app. split; [by apply Hb|]. apply Forall_app. split; [|apply Forall_app; split].
  - apply vchar_line. eapply Forall_impl; [by apply dotted_chars|]. intros c. apply dchar_vchar.
  - eapply Forall_impl; [exact Hs|]. intros c ->. split; intros E; discriminate E.
  - apply Forall_forall. intros c ?. by apply Hc.
Qed.
Lemma block_head kt b body r p1 : word kt → blank b → Forall (λ c, c ≠ ")"%char ∧ c ≠ newline) body →
  head (r_block (p1, kt ++ b ++ "("%char :: body ++ ")"%char :: r)) =
  Some ((rev (kt ++ b ++ "("%char :: body ++ [")"%char]) ++ p1, r), (kt, body)).
Proof.
  intros [Hk Hw] Hb Hl. unfold r_block. eapply head_bind'.
  { apply chars_head; [done|done|]. intros c t E. destruct b as [|c0 b]; cbn in E; injection E as <- _; [reflexivity|].
    apply Forall_cons in Hb as [Hc _]. apply not_dchar_word, not_vchar_dchar, space_not_vchar. done. }
  eapply head_bind'.
  { apply star_head; [done|]. intros c t [= <- _]. reflexivity. }
  eapply head_bind'; [by rewrite char_yes|]. unfold re_lazy.
  rewrite (lazy_paren _ (λ p4, ((")"%char :: p4.1, tail p4.2), (consumed (p1, kt ++ b ++ "("%char :: body ++ ")"%char :: r) (rev kt ++ p1, b ++ "("%char :: body ++ ")"%char :: r), consumed ("("%char :: rev b ++ rev kt ++ p1, body ++ ")"%char :: r) p4)))).
  - cbn [tail fst snd]. f_equal. f_equal; [f_equal|].
    + rewrite !rev_app_distr. cbn [rev]. rewrite !rev_app_distr. cbn [rev]. rewrite <-!app_assoc. reflexivity.
    + by rewrite !consumed_rev.
  - intros p t. rewrite char_yes by reflexivity. rewrite list_bind_one. done.
  - intros p c t Hc. rewrite char_no; [done|]. apply is_ch_false. congruence.
  - done.
  - cbn [snd]. rewrite app_length. lia.
Qed.
Lemma blocks_finds bs t : blocks_say bs t → ∃ kbs, (∀ p1, finds r_block (p1, t) kbs) ∧
  Forall2 (λ (kb : text * text) (b : ckind * list item), constraint_synonym kb.1 = Some b.1 ∧
             ∃ parts, kb.2 = commas parts ∧ body_says b.2 parts) kbs bs.
Proof.
  assert (Hsk : ∀ w p1 r xs, separator w → finds r_block (rev w ++ p1, r) xs → finds r_block (p1, w ++ r) xs).
  { intros w p1 r xs Hw. apply find_skips with (f := λ c, negb (is_word c)).
    - intros q c u H%negb_true_iff. by apply block_none.
    - eapply Forall_impl; [exact Hw|]. intros c H. by apply negb_true_iff. }
  induction 1 as [t Ht|sep kt k b is parts r bs Hsep Hk Hb Hbody H (kbs & IH & HF)].
  - exists []. split; [|done]. intros p1. rewrite <-(app_nil_r t). apply Hsk; [done|]. apply find_end. reflexivity.
  - exists ((kt, commas parts) :: kbs). split.
    + intros p1. apply Hsk; [done|].
      assert (Hw := synonym_word _ _ Hk).
      replace (kt ++ b ++ "("%char :: commas parts ++ ")"%char :: r)
        with ((kt ++ b ++ "("%char :: commas parts ++ [")"%char]) ++ r).
      2:{ rewrite <-!app_assoc. cbn [app]. by rewrite <-!app_assoc. }
      apply find_match; [destruct kt; [by destruct Hw|done]| |apply IH].
      rewrite <-!app_assoc. cbn [app]. rewrite <-!app_assoc. cbn [app].
      apply block_head; [done|done|]. apply line_ok. by eapply body_line.
    + constructor; [|done]. split; [done|]. eauto.
Qed.
