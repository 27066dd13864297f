(** * Proofs about the scanner and the requirement and constraint parsers. *)
From Verif Require Export ParserProofs.
From Coq Require Import Ascii String.
Open Scope list_scope.

(** ** The first match is the longest *)
Lemma head_bind {A B} (l : list A) (f : A → list B) x y r :
  l = x :: r → head (f x) = Some y → head (l ≫= f) = Some y.
Proof. intros -> H. cbn. destruct (f x); [done|]. cbn in *. done. Qed.
Lemma head_cons {A} (l : list A) x : head l = Some x → ∃ r, l = x :: r.
Proof. destruct l; [done|]. intros [= ->]. eauto. Qed.

Lemma char_yes (f : ascii → bool) p1 c r : f c = true → re_char f (p1, c :: r) = [(c :: p1, r)].
Proof. unfold re_char. cbn. by intros ->. Qed.
Lemma char_no (f : ascii → bool) p1 c r : f c = false → re_char f (p1, c :: r) = [].
Proof. unfold re_char. cbn. by intros ->. Qed.
Lemma char_nil (f : ascii → bool) p1 : re_char f (p1, []) = [].
Proof. done. Qed.
Lemma list_bind_one {A B} (x : A) (f : A → list B) : [x] ≫= f = f x.
Proof. cbn. by rewrite app_nil_r. Qed.

Lemma plus_char_head f w r p1 n : w ≠ [] → Forall (λ c, f c = true) w → (∀ c t, r = c :: t → f c = false) →
  (List.length w + List.length r ≤ n)%nat → head (plus_go n (re_char f) (p1, w ++ r)) = Some (rev w ++ p1, r).
Proof.
  revert p1 n. induction w as [|c w IH]; intros p1 n Hne HF Hr Hn; [done|].
  apply Forall_cons in HF as [Hc HF]. destruct n as [|n]; [cbn in Hn; lia|]. cbn in Hn.
  cbn [plus_go app]. rewrite (char_yes _ _ _ _ Hc), list_bind_one.
  destruct w as [|c' w].
  - cbn. assert (E : plus_go n (re_char f) (c :: p1, r) = []).
    { destruct n as [|n]; [done|]. cbn [plus_go]. destruct r as [|c' r]; [by rewrite char_nil|].
      by rewrite (char_no f (c :: p1) c' r (Hr c' r eq_refl)). }
    by rewrite E.
  - specialize (IH (c :: p1) n). destruct (plus_go n (re_char f) (c :: p1, (c' :: w) ++ r)) eqn:E.
    + exfalso. by discriminate IH; try done; cbn in *; lia.
    + cbn [app head]. cbn [head] in IH. rewrite IH; try done; [|cbn in *; lia].
      f_equal. cbn. by rewrite <-!app_assoc.
Qed.
Lemma chars_head f w r p1 : w ≠ [] → Forall (λ c, f c = true) w → (∀ c t, r = c :: t → f c = false) →
  head (re_plus (re_char f) (p1, w ++ r)) = Some (rev w ++ p1, r).
Proof. intros. unfold re_plus. apply plus_char_head; try done. cbn. by rewrite app_length. Qed.

Definition seg_m : matcher := re_seq (re_opt (re_char (is_ch "."))) (re_plus (re_char is_word)).
Lemma seg_head_word w r p1 : word w → (∀ c t, r = c :: t → is_word c = false) →
  head (seg_m (p1, w ++ r)) = Some (rev w ++ p1, r).
Proof.
  intros [Hne HF] Hr. unfold seg_m, re_seq, re_opt. destruct w as [|c w]; [done|].
  assert (E : re_char (is_ch ".") (p1, (c :: w) ++ r) = []).
  { unfold re_char. cbn. apply Forall_cons in HF as [Hc _]. destruct (is_ch "." c) eqn:E; [|done].
    by apply is_ch_true in E as <-. }
  rewrite E. cbn [app]. eapply head_bind; [done|]. exact (chars_head is_word (c :: w) r p1 Hne HF Hr).
Qed.
Lemma seg_head_dot w r p1 : word w → (∀ c t, r = c :: t → is_word c = false) →
  head (seg_m (p1, "."%char :: w ++ r)) = Some (rev w ++ "."%char :: p1, r).
Proof.
  intros [Hne HF] Hr. unfold seg_m, re_seq, re_opt.
  eapply head_bind; [cbn; done|]. by apply chars_head.
Qed.
Lemma plus_go_head a n p q q' : head (a p) = Some q → head (plus_go n a q) = Some q' → head (plus_go (S n) a p) = Some q'.
Proof.
  intros H1 H2. apply head_cons in H1 as [r E]. cbn. eapply head_bind; [exact E|].
  destruct (plus_go n a q); [done|]. cbn in *. done.
Qed.
Lemma plus_go_head_last a n p q : head (a p) = Some q → plus_go n a q = [] → head (plus_go (S n) a p) = Some q.
Proof. intros H1 H2. apply head_cons in H1 as [r E]. cbn. eapply head_bind; [exact E|]. by rewrite H2. Qed.
Lemma dchar_dot c : is_dchar c = false → is_word c = false ∧ is_ch "." c = false.
Proof. unfold is_dchar. by destruct (is_word c), (is_ch "." c). Qed.
Lemma plus_go_seg_nil n p1 r : (∀ c t, r = c :: t → is_dchar c = false) → plus_go n seg_m (p1, r) = [].
Proof.
  intros Hr. destruct n as [|n]; [done|]. cbn [plus_go].
  assert (E : seg_m (p1, r) = []); [|by rewrite E].
  unfold seg_m, re_seq, re_opt. destruct r as [|c r]; [done|].
  destruct (dchar_dot _ (Hr c r eq_refl)) as [Hw Hd].
  rewrite (char_no _ _ _ _ Hd). cbn [app]. rewrite list_bind_one. unfold re_plus. cbn [snd List.length plus_go].
  by rewrite (char_no _ _ _ _ Hw).
Qed.
Lemma segs_head t r n : dotted t → (∀ c t, r = c :: t → is_dchar c = false) → (List.length t + List.length r ≤ n)%nat → ∀ p1,
  head (plus_go n seg_m (p1, t ++ r)) = Some (rev t ++ p1, r) ∧
  head (plus_go (S n) seg_m (p1, "."%char :: t ++ r)) = Some (rev t ++ "."%char :: p1, r).
Proof.
  intros Ht Hr. revert n. induction Ht as [w Hw|w t Hw Ht IH]; intros n Hn p1.
  - assert (Hr' : ∀ c t, r = c :: t → is_word c = false) by (intros c t E; exact (proj1 (dchar_dot _ (Hr c t E)))).
    split.
    + destruct n as [|n]; [destruct Hw; destruct w; [done|cbn in Hn; lia]|].
      eapply plus_go_head_last; [by apply seg_head_word|]. by apply plus_go_seg_nil.
    + eapply plus_go_head_last; [by apply seg_head_dot|]. by apply plus_go_seg_nil.
  - assert (Hr' : ∀ c r0, "."%char :: t ++ r = c :: r0 → is_word c = false) by (by intros c r0 [= <- _]).
    rewrite app_length in Hn. cbn in Hn. rewrite <-!app_assoc. cbn [app].
    rewrite rev_app_distr. cbn [rev]. rewrite <-!app_assoc. cbn [app].
    split.
    + destruct n as [|n]; [lia|].
      eapply plus_go_head; [by apply seg_head_word|].
      destruct n as [|n]; [destruct Hw; destruct w; [done|cbn in Hn; lia]|]. apply IH. 
      destruct Hw. destruct w; [done|cbn in Hn]. lia.
    + eapply plus_go_head; [by apply seg_head_dot|]. destruct n as [|n]; [lia|]. apply IH. lia.
Qed.
Lemma dist_head t r p1 : dotted t → (∀ c t, r = c :: t → is_dchar c = false) →
  head (r_dist (p1, t ++ r)) = Some (rev t ++ p1, r).
Proof.
  intros Ht Hr. unfold r_dist. unfold re_seq at 1.
  destruct (dotted_first t Ht) as (c & u & Et & Hc).
  assert (E : re_not_ahead (re_char (is_ch ".")) (p1, t ++ r) = [(p1, t ++ r)]).
  { unfold re_not_ahead, re_char. rewrite Et. cbn. destruct (is_ch "." c) eqn:E; [|done].
    by apply is_ch_true in E as <-. }
  eapply head_bind; [exact E|]. unfold re_seq at 1.
  assert (H : head (re_plus seg_m (p1, t ++ r)) = Some (rev t ++ p1, r)).
  { unfold re_plus. apply (segs_head t r _ Ht Hr). cbn. by rewrite app_length. }
  apply head_cons in H as [l El]. eapply head_bind; [exact El|].
  unfold re_not_behind. destruct (dotted_last t Ht) as (c' & u' & Eu & Hc'). rewrite Eu. cbn.
  destruct (is_ch "." c') eqn:E'; [|done]. by apply is_ch_true in E' as <-.
Qed.

(** ** One step of the scanner *)
Lemma not_elem_nil {A} (l : list A) : (∀ x, x ∉ l) → l = [].
Proof. destruct l as [|x l]; [done|]. intros H. exfalso. apply (H x). apply elem_of_list_here. Qed.
Lemma version_none p1 c r : is_digit c = false → r_version (p1, c :: r) = [].
Proof.
  intros Hc. apply not_elem_nil. intros q Hq. apply version_spec in Hq as (w & Hw & E & _).
  destruct (version_first w Hw) as (c' & r' & -> & Hc'). injection E as <- _. congruence.
Qed.
Lemma dist_none p1 c r : is_word c = false → r_dist (p1, c :: r) = [].
Proof.
  intros Hc. apply not_elem_nil. intros q Hq. apply recog_dist in Hq as (w & Hw & E & _).
  destruct (dotted_first w Hw) as (c' & r' & -> & Hc'). injection E as <- _. congruence.
Qed.
Lemma version_stop p1 t c r : is_vchar c = false → c ≠ newline → r_version (p1, t ++ c :: r) = [].
Proof.
  intros Hc Hnl. apply not_elem_nil. intros q Hq. apply version_spec in Hq as (w & Hw & E & _ & Hq).
  assert (Hin : c ∈ w ++ q.2) by (rewrite <-E; cbn; apply elem_of_app; right; apply elem_of_list_here).
  apply elem_of_app in Hin as [Hin|Hin].
  - apply version_chars in Hw. rewrite Forall_forall in Hw. apply Hw in Hin. congruence.
  - destruct Hq as [Hq|Hq]; rewrite Hq in Hin; [by apply elem_of_nil in Hin|].
    by apply elem_of_list_singleton in Hin.
Qed.

Definition lex_ok (lx : lexicon) : Prop :=
  lx = constraints_lexicon ∨ lx = requirements_lexicon.
Lemma first_ops lx p1 c r : lex_ok lx → is_word c = false →
  first_match lx (p1, c :: r) = first_match op_rules (p1, c :: r).
Proof.
  intros Hlx Hc.
  assert (Hd : is_digit c = false) by (unfold is_word in Hc; by destruct (is_digit c)).
  destruct Hlx as [-> | ->]; unfold constraints_lexicon, requirements_lexicon; cbn [first_match];
    rewrite (version_none _ _ _ Hd); [done|]. by rewrite (dist_none _ _ _ Hc).
Qed.

Lemma re_lit_yes l p1 r : re_lit l (p1, l ++ r) = [(rev l ++ p1, r)].
Proof.
  revert p1. induction l as [|c l IH]; intros p1; cbn [re_lit app rev]; [done|].
  rewrite char_yes by (by apply is_ch_true). rewrite list_bind_one, IH, <-app_assoc. done.
Qed.
Lemma consumed_rev w p1 t r : consumed (p1, t) (rev w ++ p1, r) = w.
Proof. apply consumed_app. Qed.

Ltac take_char :=
  first [rewrite char_yes by reflexivity; rewrite list_bind_one
        | rewrite char_no by reflexivity; cbn [mbind list_bind first_match]].
Lemma step_op lx o p1 r : lex_ok lx → (o = OGt ∨ o = OLt → ∀ r', r ≠ "="%char :: r') →
  first_match lx (p1, op_text o ++ r) = Some ((rev (op_text o) ++ p1, r), Some (TCmp o (op_text o))).
Proof.
  intros Hlx Hr.
  assert (Hf : ∀ w, w = op_text o → ∀ c t, w = c :: t → is_word c = false → first_match lx (p1, w ++ r) = first_match op_rules (p1, w ++ r)).
  { intros w _ c t -> Hc. apply first_ops; done. }
  assert (Heq : o = OGt ∨ o = OLt → ∀ q1, re_char (is_ch "=") (q1, r) = []).
  { intros Ho q1. destruct r as [|c r]; [done|]. apply char_no, is_ch_false. intros <-. by eapply (Hr Ho). }
  destruct o; cbn [op_text]; cbn [list_ascii_of_string] in *;
    (erewrite Hf; [|reflexivity|reflexivity|reflexivity]); clear Hf; unfold op_rules; cbn [first_match];
    cbn [re_lit list_ascii_of_string app]; repeat take_char;
    try (rewrite Heq by auto; cbn [mbind list_bind app]);
    match goal with |- Some (_, Some (TCmp _ (consumed ?p ?q))) = Some (_, Some (TCmp _ ?t)) =>
      rewrite (consumed_spec p q t) by reflexivity end; reflexivity.
Qed.
Lemma step_star lx p1 r : lex_ok lx →
  first_match lx (p1, "*"%char :: r) = Some (("*"%char :: p1, r), Some (TAny (Some (of_s "*")))).
Proof.
  intros Hlx. rewrite first_ops by done. unfold op_rules. cbn [first_match].
  cbn [re_lit list_ascii_of_string app]. repeat take_char.
  by rewrite (consumed_spec _ _ (of_s "*")) by reflexivity.
Qed.
Lemma step_ws lx p1 w r : lex_ok lx → w ≠ [] → spaces w → (∀ c t, r = c :: t → c ≠ " "%char) →
  first_match lx (p1, w ++ r) = Some ((rev w ++ p1, r), None).
Proof.
  intros Hlx Hne Hw Hr. destruct w as [|c w]; [done|].
  assert (c = " "%char) as -> by (by apply Forall_cons in Hw as [? _]).
  cbn [app]. rewrite first_ops by done. unfold op_rules. cbn [first_match].
  cbn [re_lit list_ascii_of_string app]. repeat take_char.
  assert (H : head (r_ws (p1, (" "%char :: w) ++ r)) = Some (rev (" "%char :: w) ++ p1, r)).
  { apply chars_head; [done| |].
    - eapply Forall_impl; [exact Hw|]. intros c ->. by apply is_ch_true.
    - intros c t E. apply is_ch_false. intros <-. by apply (Hr _ _ E). }
  cbn [app] in H. apply head_cons in H as [l ->]. done.
Qed.
Lemma step_name p1 n c r : dist_name n → is_vchar c = false → c ≠ newline →
  first_match requirements_lexicon (p1, n ++ c :: r) = Some ((rev n ++ p1, c :: r), Some (TName n)).
Proof.
  intros Hn Hc Hnl. unfold requirements_lexicon. cbn [first_match]. rewrite (version_stop _ _ _ _ Hc Hnl).
  assert (H := dist_head n (c :: r) p1 Hn). apply head_cons in H as [l ->].
  - by rewrite (consumed_spec _ _ n) by reflexivity.
  - intros c' t [= <- _]. by apply not_vchar_dchar.
Qed.
Lemma step_version lx p1 t : lex_ok lx → version_text t →
  first_match lx (p1, t) = Some ((rev t ++ p1, []), Some (TVersion t)).
Proof.
  intros Hlx Ht.
  assert (H : head (r_version (p1, t)) = Some (rev t ++ p1, [])).
  { destruct (r_version (p1, t)) as [|q l] eqn:E.
    - exfalso. assert (H : (rev t ++ p1, []) ∈ r_version (p1, t)).
      { apply version_spec. exists t. cbn. rewrite app_nil_r. auto. }
      rewrite E in H. by apply elem_of_nil in H.
    - assert (H : q ∈ r_version (p1, t)) by (rewrite E; apply elem_of_list_here).
      apply version_spec in H as (w & Hw & E1 & E2 & Hq). cbn [snd fst] in E1, E2. cbn [head]. f_equal.
      destruct q as [q1 q2]. cbn [fst snd] in *. subst q1. destruct Hq as [-> | ->].
      + rewrite app_nil_r in E1. by subst.
      + exfalso. apply version_chars in Ht. rewrite E1 in Ht. apply Forall_app in Ht as [_ Ht].
        by apply Forall_cons in Ht as [? _]. }
  apply head_cons in H as [l E].
  destruct Hlx as [-> | ->]; unfold constraints_lexicon, requirements_lexicon; cbn [first_match]; rewrite E;
    by rewrite (consumed_spec _ _ t) by reflexivity.
Qed.
Lemma step_name_end p1 n : dist_name n →
  ∃ k, first_match requirements_lexicon (p1, n) = Some ((rev n ++ p1, []), Some k) ∧ (k = TName n ∨ k = TVersion n).
Proof.
  intros Hn. destruct (dotted_first n Hn) as (c & r & E & Hc). destruct (is_digit c) eqn:Ed.
  - exists (TVersion n). split; [|auto]. apply step_version; [by right|]. exists n. split; [done|]. split; [eauto|by left].
  - exists (TName n). split; [|auto]. unfold requirements_lexicon. cbn [first_match].
    rewrite E at 1. rewrite (version_none _ _ _ Ed).
    assert (H := dist_head n [] p1 Hn). rewrite app_nil_r in H. apply head_cons in H as [l ->]; [|done].
    by rewrite (consumed_spec _ _ n) by reflexivity.
Qed.

(** ** Scanning a whole part *)
Definition scans (lx : lexicon) (p : pos) (toks : list token) : Prop :=
  ∀ fuel, (List.length p.2 < fuel)%nat → scan_go lx fuel p = (toks, []).
Lemma scans_nil lx p1 : lex_ok lx → scans lx (p1, []) [].
Proof.
  intros Hlx [|fuel] Hf; [cbn in Hf; lia|]. cbn [scan_go].
  assert (E : first_match lx (p1, []) = None); [|by rewrite E].
  destruct Hlx as [-> | ->]; reflexivity.
Qed.
Definition opt_cons {A} (o : option A) (l : list A) : list A := match o with Some k => k :: l | None => l end.
Lemma scans_step lx p1 w r o toks : w ≠ [] → first_match lx (p1, w ++ r) = Some ((rev w ++ p1, r), o) →
  scans lx (rev w ++ p1, r) toks → scans lx (p1, w ++ r) (opt_cons o toks).
Proof.
  intros Hne E H [|fuel] Hf; [cbn in Hf; lia|]. cbn [scan_go]. rewrite E.
  assert (Hl : (0 < List.length w)%nat) by (destruct w; [done|cbn; lia]).
  destruct (decide _) as [Ed|_].
  - exfalso. injection Ed as _ Ed. apply (f_equal (@List.length _)) in Ed. rewrite app_length in Ed. lia.
  - rewrite H; [done|]. cbn [snd] in *. rewrite app_length in Hf. lia.
Qed.
Lemma scans_ws lx p1 w r toks : lex_ok lx → spaces w → (∀ c t, r = c :: t → c ≠ " "%char) →
  scans lx (rev w ++ p1, r) toks → scans lx (p1, w ++ r) toks.
Proof.
  intros Hlx Hw Hr H. destruct w as [|c w]; [done|].
  exact (scans_step lx p1 (c :: w) r None toks ltac:(done) (step_ws lx p1 (c :: w) r Hlx ltac:(done) Hw Hr) H).
Qed.
Lemma scan_scans lx t toks : scans lx ([], t) toks → scan lx t = (toks, []).
Proof. intros H. unfold scan. apply H. cbn. lia. Qed.

(** ** Parts that are understood *)
Lemma op_ne o : op_text o ≠ [].
Proof. by destruct o. Qed.
Lemma op_first o : ∃ c r, op_text o = c :: r ∧ is_vchar c = false ∧ c ≠ newline ∧ c ≠ " "%char.
Proof. destruct o; cbn; eexists _, _; done. Qed.
Lemma version_not_space t : version_text t → ∀ c r, t = c :: r → c ≠ " "%char ∧ c ≠ "="%char.
Proof. intros Ht c r E. destruct (version_first t Ht) as (c' & r' & E' & Hc). rewrite E in E'. injection E' as -> _. split; intros ->; done. Qed.
Lemma spaces_app_first sp t : spaces sp → (∀ c r, t = c :: r → is_vchar c = false ∧ c ≠ newline) → t ≠ [] →
  ∃ c r, sp ++ t = c :: r ∧ is_vchar c = false ∧ c ≠ newline.
Proof.
  intros Hs Ht Hne. destruct sp as [|c sp].
  - destruct t as [|c t]; [done|]. exists c, t. split; [done|]. by apply (Ht c t).
  - apply Forall_cons in Hs as [-> _]. cbn. eexists _, _. done.
Qed.
Lemma scans_sym lx p1 t : lex_ok lx → symbol t → ∃ k, tok_value k = Some t ∧ (t = of_s "*" → k = TAny (Some t)) ∧
  ∀ r toks, ((t = op_text OGt ∨ t = op_text OLt) → ∀ r', r ≠ "="%char :: r') → scans lx (rev t ++ p1, r) toks → scans lx (p1, t ++ r) (k :: toks).
Proof.
  intros Hlx [->|[o ->]].
  - exists (TAny (Some (of_s "*"))). split; [done|]. split; [done|]. intros r toks _ H.
    refine (scans_step lx p1 (of_s "*") r (Some _) toks ltac:(done) _ H). by apply step_star.
  - exists (TCmp o (op_text o)). split; [done|]. split; [by destruct o|]. intros r toks Hr H.
    refine (scans_step lx p1 (op_text o) r (Some _) toks (op_ne o) _ H). apply step_op; [done|].
    intros Ho. apply Hr. destruct Ho as [-> | ->]; auto.
Qed.
Lemma version_ne t : version_text t → t ≠ [].
Proof. intros H ->. by destruct (version_first [] H) as (c & r & ? & _). Qed.
Lemma scans_version lx p1 t : lex_ok lx → version_text t → scans lx (p1, t) [TVersion t].
Proof.
  intros Hlx Ht. rewrite <-(app_nil_r t) at 1.
  refine (scans_step lx p1 t [] (Some (TVersion t)) [] (version_ne t Ht) _ (scans_nil lx _ Hlx)).
  rewrite app_nil_r. by apply step_version.
Qed.
Lemma part_scan vp n c t : req_part vp n c t →
  ∃ toks, scan requirements_lexicon t = (toks, []) ∧ toks ≠ [] ∧ requirement_block vp toks = Ok (Some n, c).
Proof.
  assert (Hlx : lex_ok requirements_lexicon) by (by right).
  intros [Hn|sp Hn Hsp|sp o sp' v t' Hn Hsp Hsp' Ht Hv].
  - destruct Hn as [Hn|[Hn|Hn]].
    + destruct (step_name_end [] n Hn) as (k & E & Hk).
      exists [k]. split; [|split; [done|by destruct Hk as [-> | ->]]]. apply scan_scans.
      rewrite <-(app_nil_r n).
      refine (scans_step _ [] n [] (Some k) [] (dotted_ne n Hn) _ (scans_nil _ _ Hlx)). by rewrite app_nil_r.
    + exists [TVersion n]. split; [|done]. by apply scan_scans, scans_version.
    + destruct (scans_sym requirements_lexicon [] n Hlx Hn) as (k & Ek & _ & H). exists [k].
      split; [|split; [done|cbn; by rewrite Ek]]. apply scan_scans. rewrite <-(app_nil_r n). apply H; [done|].
      by apply scans_nil.
  - assert (Hst : ∀ p1, scans requirements_lexicon (p1, sp ++ of_s "*") [TAny (Some (of_s "*"))]).
    { intros p1. apply scans_ws; [done|done|by intros c0 t0 [= <- _]|].
      refine (scans_step _ _ (of_s "*") [] (Some _) [] ltac:(done) _ (scans_nil _ _ Hlx)).
      by apply step_star. }
    destruct Hn as [Hn|Hn].
    + exists [TName n; TAny (Some (of_s "*"))]. split; [|done]. apply scan_scans.
      refine (scans_step _ [] n _ (Some (TName n)) _ (dotted_ne n Hn) _ (Hst _)).
      destruct (spaces_app_first sp (of_s "*") Hsp) as (c0 & r0 & -> & Hc & Hnl); [by intros c0 t0 [= <- _]|done|].
      by apply step_name.
    + destruct (scans_sym requirements_lexicon [] n Hlx Hn) as (k & Ek & _ & H).
      exists [k; TAny (Some (of_s "*"))]. split; [|split; [done|cbn; by rewrite Ek]]. apply scan_scans. apply H; [|by apply Hst].
      intros _ r' E. destruct sp as [|c0 sp]; [done|]. apply Forall_cons in Hsp as [-> _]. done.
  - exists [TName n; TCmp o (op_text o); TVersion t']. split; [|split; [done|]].
    2:{ cbn. by rewrite Hv. }
    apply scan_scans. destruct (op_first o) as (oc & or & Eo & Ho1 & Ho2 & Ho3).
    refine (scans_step _ [] n _ (Some (TName n)) _ (dotted_ne n Hn) _ _).
    { destruct (spaces_app_first sp (op_text o ++ sp' ++ t') Hsp) as (c0 & r0 & -> & Hc & Hnl).
      - rewrite Eo. intros c0 r0 [= <- _]. done.
      - by rewrite Eo.
      - by apply step_name. }
    apply scans_ws; [done|done|rewrite Eo; by intros c0 r0 [= <- _]|].
    refine (scans_step _ _ (op_text o) _ (Some (TCmp o (op_text o))) _ (op_ne o) _ _).
    { apply step_op; [done|]. intros _ r' E. destruct sp' as [|c0 sp'].
      - cbn in E. by destruct (version_not_space t' Ht _ _ E).
      - apply Forall_cons in Hsp' as [-> _]. done. }
    apply scans_ws; [done|done|intros c0 r0 E; by destruct (version_not_space t' Ht _ _ E)|].
    by apply scans_version.
Qed.
Lemma cpart_scan vp c t : constr_part vp c t →
  ∃ toks, scan constraints_lexicon t = (toks, []) ∧ toks ≠ [] ∧ constraint_block vp toks = Ok c.
Proof.
  assert (Hlx : lex_ok constraints_lexicon) by (by left).
  intros [ |o sp v t' Hsp Ht Hv|o sp v t' Hsp Ht Hv Ho].
  - exists [TAny (Some (of_s "*"))]. split; [|done]. apply scan_scans.
    refine (scans_step _ _ (of_s "*") [] (Some _) [] ltac:(done) _ (scans_nil _ _ Hlx)). by apply step_star.
  - exists [TCmp o (op_text o); TVersion t']. split; [|split; [done|cbn; by rewrite Hv]]. apply scan_scans.
    refine (scans_step _ _ (op_text o) _ (Some (TCmp o (op_text o))) _ (op_ne o) _ _).
    { apply step_op; [done|]. intros _ r' E. destruct sp as [|c0 sp].
      - cbn in E. by destruct (version_not_space t' Ht _ _ E).
      - apply Forall_cons in Hsp as [-> _]. done. }
    apply scans_ws; [done|done|intros c0 r0 E; by destruct (version_not_space t' Ht _ _ E)|].
    by apply scans_version.
  - destruct (scans_sym constraints_lexicon (rev sp ++ rev (op_text o) ++ []) t' Hlx Ht) as (k & Ek & _ & H).
    exists [TCmp o (op_text o); k]. split; [|split; [done|cbn; rewrite Ek; cbn; by rewrite Hv]]. apply scan_scans.
    refine (scans_step _ _ (op_text o) _ (Some (TCmp o (op_text o))) _ (op_ne o) _ _); [by apply step_op|].
    apply scans_ws; [done|done| |].
    + intros c0 r0 E ->. destruct Ht as [->|[o' ->]]; [done|]. by destruct o'.
    + specialize (H [] []). rewrite (app_nil_r t') in H. apply H; [done|]. by apply scans_nil.
Qed.

(** ** What a scanned part looks like *)
Inductive tok_text : token → text → Prop :=
  | tt_version t : version_text t → tok_text (TVersion t) t
  | tt_name t : dist_name t → tok_text (TName t) t
  | tt_op o : tok_text (TCmp o (op_text o)) (op_text o)
  | tt_star : tok_text (TAny (Some (of_s "*"))) (of_s "*").
Definition at_end (t : text) : Prop := t = [] ∨ t = [newline].
Inductive lexed : list token → text → Prop :=
  | lexed_nil : lexed [] []
  | lexed_sp w toks t : spaces w → lexed toks t → lexed toks (w ++ t)
  | lexed_tok k w toks t : tok_text k w → ((∃ v, k = TVersion v) → at_end t) →
      (k = TCmp OGt (of_s ">") ∨ k = TCmp OLt (of_s "<") → ∀ r, t ≠ "="%char :: r) →
      lexed toks t → lexed (k :: toks) (w ++ t).
Lemma lit_inv l p q : q ∈ re_lit l p → p.2 = l ++ q.2 ∧ q.1 = rev l ++ p.1.
Proof.
  revert p. induction l as [|c l IH]; intros p H; cbn in H.
  - apply elem_of_list_singleton in H as ->. done.
  - apply elem_of_list_bind in H as (r & Hr & Hp). apply recog_char in Hp as (w & (c' & -> & Hc%is_ch_true) & E1 & E2).
    apply IH in Hr as [E3 E4]. subst c'. rewrite E1, E3, E4, E2. cbn. by rewrite <-app_assoc.
Qed.
Lemma lit_none l p : re_lit l p = [] → ∀ r, p.2 ≠ l ++ r.
Proof. intros E r Er. destruct p as [p1 p2]. cbn in Er. subst p2. by rewrite re_lit_yes in E. Qed.
Definition step_shape (p q : pos) (o : option token) : Prop :=
  ∃ w, p.2 = w ++ q.2 ∧ q.1 = rev w ++ p.1 ∧
    match o with
    | None => spaces w
    | Some k => tok_text k w ∧ ((∃ v, k = TVersion v) → at_end q.2) ∧
        (k = TCmp OGt (of_s ">") ∨ k = TCmp OLt (of_s "<") → ∀ r, q.2 ≠ "="%char :: r)
    end.
Lemma head_in {A} (l : list A) x r : l = x :: r → x ∈ l.
Proof. intros ->. apply elem_of_list_here. Qed.
Lemma ops_inv p q o : first_match op_rules p = Some (q, o) → step_shape p q o.
Proof.
  unfold op_rules. cbn [first_match]. intros H.
  destruct (re_lit (of_s "==") p) as [|x l] eqn:E1.
  2:{ injection H as <- <-. apply head_in, lit_inv in E1 as [A B]. exists (of_s "=="). split; [done|]. split; [done|].
      rewrite (consumed_spec _ _ _ B). split; [exact (tt_op OEqual)|]. split; [by intros [? ?]|]. by intros [|]. }
  destruct (re_lit (of_s ">=") p) as [|x l] eqn:E2.
  2:{ injection H as <- <-. apply head_in, lit_inv in E2 as [A B]. exists (of_s ">="). split; [done|]. split; [done|].
      rewrite (consumed_spec _ _ _ B). split; [exact (tt_op OGeq)|]. split; [by intros [? ?]|]. by intros [|]. }
  destruct (re_lit (of_s ">") p) as [|x l] eqn:E3.
  2:{ injection H as <- <-. apply head_in, lit_inv in E3 as [A B]. exists (of_s ">"). split; [done|]. split; [done|].
      rewrite (consumed_spec _ _ _ B). split; [exact (tt_op OGt)|]. split; [by intros [? ?]|].
      intros _ r Er. apply (lit_none _ _ E2 r). by rewrite A, Er. }
  destruct (re_lit (of_s "<=") p) as [|x l] eqn:E4.
  2:{ injection H as <- <-. apply head_in, lit_inv in E4 as [A B]. exists (of_s "<="). split; [done|]. split; [done|].
      rewrite (consumed_spec _ _ _ B). split; [exact (tt_op OLeq)|]. split; [by intros [? ?]|]. by intros [|]. }
  destruct (re_lit (of_s "<") p) as [|x l] eqn:E5.
  2:{ injection H as <- <-. apply head_in, lit_inv in E5 as [A B]. exists (of_s "<"). split; [done|]. split; [done|].
      rewrite (consumed_spec _ _ _ B). split; [exact (tt_op OLt)|]. split; [by intros [? ?]|].
      intros _ r Er. apply (lit_none _ _ E4 r). by rewrite A, Er. }
  destruct (re_lit (of_s "!=") p) as [|x l] eqn:E6.
  2:{ injection H as <- <-. apply head_in, lit_inv in E6 as [A B]. exists (of_s "!="). split; [done|]. split; [done|].
      rewrite (consumed_spec _ _ _ B). split; [exact (tt_op ONot)|]. split; [by intros [? ?]|]. by intros [|]. }
  destruct (re_lit (of_s "^=") p) as [|x l] eqn:E7.
  2:{ injection H as <- <-. apply head_in, lit_inv in E7 as [A B]. exists (of_s "^="). split; [done|]. split; [done|].
      rewrite (consumed_spec _ _ _ B). split; [exact (tt_op OUpstream)|]. split; [by intros [? ?]|]. by intros [|]. }
  destruct (re_lit (of_s "*") p) as [|x l] eqn:E8.
  2:{ injection H as <- <-. apply head_in, lit_inv in E8 as [A B]. exists (of_s "*"). split; [done|]. split; [done|].
      rewrite (consumed_spec _ _ _ B). split; [exact tt_star|]. split; [by intros [? ?]|]. by intros [|]. }
  destruct (r_ws p) as [|x l] eqn:E9; [done|]. injection H as <- <-.
  apply head_in in E9. unfold r_ws in E9. apply recog_chars in E9 as (w & [_ Hw] & A & B).
  exists w. split; [done|]. split; [done|]. eapply Forall_impl; [exact Hw|]. intros c Hc%is_ch_true. done.
Qed.
Lemma first_inv lx p q o : lex_ok lx → first_match lx p = Some (q, o) →
  step_shape p q o ∧ ((∃ t, o = Some (TName t)) → lx = requirements_lexicon).
Proof.
  intros Hlx H.
  assert (Hv : ∀ x l, r_version p = x :: l → step_shape p x (Some (TVersion (consumed p x)))).
  { intros x l E. apply head_in, version_spec in E as (w & Hw & A & B & C). exists w. split; [done|]. split; [done|].
    rewrite (consumed_spec _ _ _ B). split; [by constructor|]. split; [done|]. by intros [|]. }
  destruct Hlx as [-> | ->].
  - unfold constraints_lexicon in H. cbn [first_match] in H. destruct (r_version p) as [|x l] eqn:E.
    + split; [by apply ops_inv|]. intros [t ->]. exfalso. clear -H. unfold op_rules in H. cbn [first_match] in H.
      repeat match type of H with context [match ?m with [] => _ | _ => _ end] => destruct m end; congruence.
    + injection H as <- <-. split; [by eapply Hv|]. by intros [t ?].
  - split; [|done]. unfold requirements_lexicon in H. cbn [first_match] in H. destruct (r_version p) as [|x l] eqn:E.
    + destruct (r_dist p) as [|x l] eqn:E'; [by apply ops_inv|]. injection H as <- <-.
      apply head_in, recog_dist in E' as (w & Hw & A & B). exists w. split; [done|]. split; [done|].
      rewrite (consumed_spec _ _ _ B). split; [by constructor|]. split; [by intros [? ?]|]. by intros [|].
    + injection H as <- <-. by eapply Hv.
Qed.
Lemma scan_go_inv lx fuel p toks : lex_ok lx → scan_go lx fuel p = (toks, []) →
  lexed toks p.2 ∧ (lx = constraints_lexicon → ∀ t, TName t ∉ toks).
Proof.
  intros Hlx. revert p toks. induction fuel as [|fuel IH]; intros p toks H; cbn in H.
  { injection H as <- ->. split; [constructor|]. intros _ t Ht. by apply elem_of_nil in Ht. }
  destruct (first_match lx p) as [[q o]|] eqn:E.
  2:{ injection H as <- ->. split; [constructor|]. intros _ t Ht. by apply elem_of_nil in Ht. }
  destruct (decide (q = p)) as [->|Hq].
  { injection H as <- ->. split; [constructor|]. intros _ t Ht. by apply elem_of_nil in Ht. }
  destruct (scan_go lx fuel q) as [toks' rest] eqn:Es.
  destruct (first_inv lx p q o Hlx E) as [(w & A & B & C) Hn].
  assert (rest = []) as ->. { by destruct o; injection H. }
  destruct (IH q toks' Es) as [IH1 IH2]. rewrite A. destruct o as [k|]; injection H as <-.
  - destruct C as (C1 & C2 & C3). split; [by constructor|]. intros Hc t Ht.
    apply elem_of_cons in Ht as [<-|Ht]; [|by apply (IH2 Hc t)].
    rewrite Hn in Hc; [done|]. by exists t.
  - split; [by constructor|done].
Qed.
Lemma scan_inv lx t toks : lex_ok lx → scan lx t = (toks, []) →
  lexed toks t ∧ (lx = constraints_lexicon → ∀ n, TName n ∉ toks).
Proof. intros Hlx H. exact (scan_go_inv lx _ ([], t) toks Hlx H). Qed.
