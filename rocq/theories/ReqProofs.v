(** * Proofs: which requirement and constraint strings are understood, and how. *)
From Verif Require Export ScanProofs.
From Coq Require Import Ascii String.
Open Scope list_scope.

(** ** From tokens back to text *)
Lemma lexed_nil_inv t : lexed [] t → spaces t.
Proof.
  intros H. remember [] as l eqn:E. induction H as [|w toks t Hw H IH|k w toks t Hk Hv Ho H IH]; [constructor| |done].
  apply Forall_app. split; [done|by apply IH].
Qed.
Lemma lexed_cons_inv k toks t : lexed (k :: toks) t → ∃ sp w t', t = sp ++ w ++ t' ∧ spaces sp ∧ tok_text k w ∧
  ((∃ v, k = TVersion v) → at_end t') ∧
  (k = TCmp OGt (of_s ">") ∨ k = TCmp OLt (of_s "<") → ∀ r, t' ≠ "="%char :: r) ∧ lexed toks t'.
Proof.
  intros H. remember (k :: toks) as l eqn:E. induction H as [|w toks' t Hw H IH|k' w toks' t Hk Hv Ho H IH]; [done| |].
  - destruct (IH E) as (sp & w' & t' & -> & Hsp & Hr). exists (w ++ sp), w', t'. rewrite <-app_assoc. split; [done|].
    split; [by apply Forall_app|done].
  - injection E as -> ->. exists [], w, t. split; [done|]. split; [constructor|]. done.
Qed.
Lemma tok_name k w : tok_text k w → tok_value k = Some w ∧
  ((∃ v, k = TVersion v) ∧ version_text w ∨ dist_name w ∨ symbol w).
Proof. intros [t H|t H|o|]; cbn; split; eauto 10; right; right; [right; eauto|by left]. Qed.
Lemma spaces_blank t : spaces t → blank t.
Proof. intros H. eapply Forall_impl; [exact H|]. by intros c ->. Qed.
Lemma end_spaces t : at_end t → spaces t → t = [].
Proof. intros [-> | ->] H; [done|]. by apply Forall_cons in H as [? _]. Qed.
Lemma req_block_inv vp toks t n c : lexed toks t → requirement_block vp toks = Ok (n, c) →
  ∃ m b t0 b', n = Some m ∧ t = b ++ t0 ++ b' ∧ blank b ∧ blank b' ∧ req_part vp m c t0.
Proof.
  intros Hl H. destruct toks as [|k1 [|k2 [|k3 [|k4 toks]]]]; cbn in H; try done.
  - injection H as <- <-. apply lexed_cons_inv in Hl as (sp & w & t' & -> & Hsp & Hk & _ & _ & Hl).
    apply lexed_nil_inv in Hl. destruct (tok_name k1 w Hk) as [-> Hw].
    exists w, sp, w, t'. split; [done|]. split; [done|]. split; [by apply spaces_blank|]. split; [by apply spaces_blank|].
    constructor. destruct Hw as [[_ Hw]|[Hw|Hw]]; auto.
  - apply lexed_cons_inv in Hl as (sp & w & t' & -> & Hsp & Hk & Hv & _ & Hl).
    apply lexed_cons_inv in Hl as (sp2 & w2 & t2 & -> & Hsp2 & Hk2 & _ & _ & Hl).
    apply lexed_nil_inv in Hl. destruct (tok_name k1 w Hk) as [E Hw]. rewrite E in H.
    destruct k2; try done. injection H as <- <-.
    inversion Hk2; subst. exists w, sp, (w ++ sp2 ++ of_s "*"), t2.
    split; [done|]. split; [by rewrite <-!app_assoc|]. split; [by apply spaces_blank|]. split; [by apply spaces_blank|].
    constructor; [|done]. destruct Hw as [[Hv' _]|Hw]; [|done]. exfalso.
    destruct (Hv Hv') as [Ee|Ee]; apply (f_equal (λ l, "*"%char ∈ l)) in Ee.
    + assert (HH : "*"%char ∈ ([] : text)); [|by apply elem_of_nil in HH].
      rewrite <-Ee. apply elem_of_app. right. by left.
    + assert (HH : "*"%char ∈ [newline]); [|by apply elem_of_list_singleton in HH].
      rewrite <-Ee. apply elem_of_app. right. by left.
  - destruct k1 as [|n1| |]; try done. destruct k3 as [v3| | |]; try done.
    apply lexed_cons_inv in Hl as (sp & w & t' & -> & Hsp & Hk & _ & _ & Hl).
    apply lexed_cons_inv in Hl as (sp2 & w2 & t2 & -> & Hsp2 & Hk2 & _ & _ & Hl).
    apply lexed_cons_inv in Hl as (sp3 & w3 & t3 & -> & Hsp3 & Hk3 & Hv3 & _ & Hl).
    apply lexed_nil_inv in Hl.
    destruct k2 as [| |o ot|]; try done. inversion Hk; subst. inversion Hk2; subst. inversion Hk3; subst.
    cbn in H. destruct (vp w3) as [v|] eqn:Ev; [|done]. cbn in H. injection H as <- <-.
    exists w, sp, (w ++ sp2 ++ op_text o ++ sp3 ++ w3), t3.
    split; [done|]. split; [by rewrite <-!app_assoc|]. split; [by apply spaces_blank|]. split; [by apply spaces_blank|].
    by constructor.
Qed.
Lemma cblock_inv vp toks t c : lexed toks t → (∀ n, TName n ∉ toks) → constraint_block vp toks = Ok c →
  ∃ b t0 b', t = b ++ t0 ++ b' ∧ blank b ∧ blank b' ∧ constr_part vp c t0.
Proof.
  intros Hl Hn H. destruct toks as [|k1 [|k2 [|k3 toks]]]; cbn in H; try done.
  - destruct k1; try done. injection H as <-.
    apply lexed_cons_inv in Hl as (sp & w & t' & -> & Hsp & Hk & _ & _ & Hl). apply lexed_nil_inv in Hl.
    inversion Hk; subst. exists sp, (of_s "*"), t'. split; [done|]. split; [by apply spaces_blank|].
    split; [by apply spaces_blank|]. constructor.
  - apply lexed_cons_inv in Hl as (sp & w & t' & -> & Hsp & Hk & _ & Ho & Hl).
    apply lexed_cons_inv in Hl as (sp2 & w2 & t2 & -> & Hsp2 & Hk2 & _ & _ & Hl). apply lexed_nil_inv in Hl.
    destruct k1 as [| |o ot|]; try done. inversion Hk; subst. cbn in H.
    destruct (tok_name k2 w2 Hk2) as [E2 Hw2]. rewrite E2 in H. cbn in H.
    destruct (vp w2) as [v|] eqn:Ev; [|done]. cbn in H. injection H as <-.
    exists sp, (op_text o ++ sp2 ++ w2), t2. split; [by rewrite <-!app_assoc|].
    split; [by apply spaces_blank|]. split; [by apply spaces_blank|].
    assert (Hns : ¬ dist_name w2 ∨ version_text w2 ∨ symbol w2).
    { destruct Hw2 as [[_ ?]|[?|?]]; auto. inversion Hk2; subst; auto.
      - exfalso. apply (Hn w2). right. by left.
      - right. right. right. eauto.
      - right. right. by left. }
    assert (Hvs : version_text w2 ∨ symbol w2).
    { destruct Hw2 as [[_ ?]|[?|?]]; auto. by destruct Hns. }
    destruct Hvs as [Hv2|Hs2]; [by constructor|]. apply cpart_odd; [done|done|done|].
    intros Hoo r Er. apply (Ho ltac:(destruct Hoo as [-> | ->]; auto) (r ++ t2)).
    rewrite app_assoc, Er. done.
Qed.

(** ** Stripping and splitting *)
Lemma lstrip_spec t : ∃ b, t = b ++ lstrip t ∧ blank b ∧ (∀ c r, lstrip t = c :: r → is_white c = false).
Proof.
  induction t as [|c t (b & E & Hb & Hl)]; cbn.
  - exists []. split; [done|]. split; [constructor|done].
  - destruct (is_white c) eqn:Ec.
    + exists (c :: b). cbn. split; [by f_equal|]. split; [by constructor|done].
    + exists []. split; [done|]. split; [constructor|]. by intros c' r [= <- _].
Qed.
Lemma lstrip_blank b t : blank b → lstrip (b ++ t) = lstrip t.
Proof. induction 1 as [|c b Hc Hb IH]; [done|]. cbn. cbn in Hc. by rewrite Hc. Qed.
Lemma lstrip_id t : (∀ c r, t = c :: r → is_white c = false) → lstrip t = t.
Proof. destruct t as [|c t]; [done|]. intros H. cbn. by rewrite (H c t). Qed.
Lemma blank_rev b : blank b → blank (rev b).
Proof. intros H. unfold blank in *. apply Forall_forall. rewrite Forall_forall in H. intros c Hc. apply H. apply elem_of_list_In, in_rev. by apply elem_of_list_In. Qed.
Lemma strip_spec t : ∃ b b', t = b ++ strip t ++ b' ∧ blank b ∧ blank b'.
Proof.
  destruct (lstrip_spec t) as (b & E & Hb & _). destruct (lstrip_spec (rev (lstrip t))) as (b' & E' & Hb' & _).
  exists b, (rev b'). split; [|split; [done|by apply blank_rev]]. unfold strip.
  rewrite <-rev_app_distr, <-E', rev_involutive. done.
Qed.
Definition trimmed (t : text) : Prop :=
  (∀ c r, t = c :: r → is_white c = false) ∧ (∀ c r, rev t = c :: r → is_white c = false).
Lemma strip_trimmed b t b' : blank b → blank b' → trimmed t → strip (b ++ t ++ b') = t.
Proof.
  intros Hb Hb' [H1 H2]. unfold strip. rewrite (lstrip_blank _ _ Hb).
  destruct t as [|c t].
  - cbn. rewrite <-(app_nil_r b'), (lstrip_blank _ _ Hb'). done.
  - rewrite (lstrip_id ((c :: t) ++ b')) by (intros c' r [= <- _]; by apply (H1 c t)).
    rewrite rev_app_distr, (lstrip_blank _ _ (blank_rev _ Hb')), lstrip_id by done. apply rev_involutive.
Qed.
Lemma strip_is_trimmed t : trimmed (strip t).
Proof.
  split.
  - intros c r E. destruct (lstrip_spec t) as (b & _ & _ & Hl).
    destruct (lstrip_spec (rev (lstrip t))) as (b' & E' & Hb' & _). unfold strip in E.
    apply (f_equal (@rev _)) in E'. rewrite rev_involutive, rev_app_distr, E in E'. cbn in E'. by apply (Hl _ _ E').
  - intros c r E. unfold strip in E. rewrite rev_involutive in E.
    destruct (lstrip_spec (rev (lstrip t))) as (b' & _ & _ & H). by apply (H c r).
Qed.
Lemma strip_blank t : blank t → strip t = [].
Proof. intros H. assert (E := strip_trimmed t [] [] H ltac:(constructor)). rewrite app_nil_r in E. apply E. split; done. Qed.
Lemma strip_nil t : strip t = [] → blank t.
Proof. intros H. destruct (strip_spec t) as (b & b' & -> & Hb & Hb'). rewrite H. by apply Forall_app. Qed.
Lemma strip_idem t : strip (strip t) = strip t.
Proof.
  assert (E := strip_trimmed [] (strip t) [] ltac:(constructor) ltac:(constructor) (strip_is_trimmed t)).
  by rewrite app_nil_r in E.
Qed.
Lemma strip_pad b t b' : blank b → blank b' → strip (b ++ t ++ b') = strip t.
Proof.
  intros Hb Hb'. destruct (strip_spec t) as (a & a' & E & Ha & Ha'). rewrite E at 1.
  replace (b ++ (a ++ strip t ++ a') ++ b') with ((b ++ a) ++ strip t ++ (a' ++ b')) by (by rewrite <-!app_assoc).
  apply strip_trimmed; [by apply Forall_app|by apply Forall_app|apply strip_is_trimmed].
Qed.

Lemma split_ne sep t : split_on sep t ≠ [].
Proof. destruct t as [|c t]; cbn; [done|]. destruct (split_on sep t); [done|]. by destruct (is_ch sep c). Qed.
Lemma split_cons sep c t : ∃ w ws, split_on sep t = w :: ws ∧
  split_on sep (c :: t) = if is_ch sep c then [] :: w :: ws else (c :: w) :: ws.
Proof. destruct (split_on sep t) as [|w ws] eqn:E; [by apply split_ne in E|]. exists w, ws. cbn. by rewrite E. Qed.
Lemma split_app sep t r : sep ∉ t → split_on sep (t ++ sep :: r) = t :: split_on sep r.
Proof.
  induction t as [|c t IH]; intros Hn.
  - cbn [app]. destruct (split_cons sep sep r) as (w & ws & E & ->). rewrite (proj2 (is_ch_true sep sep) eq_refl). by rewrite E.
  - cbn [app]. destruct (split_cons sep c (t ++ sep :: r)) as (w & ws & E & ->).
    rewrite IH in E by (intros H; apply Hn; by right). injection E as <- <-.
    destruct (is_ch sep c) eqn:Ec; [|done]. apply is_ch_true in Ec as <-. exfalso. apply Hn. by left.
Qed.
Lemma split_one sep t : sep ∉ t → split_on sep t = [t].
Proof.
  induction t as [|c t IH]; intros Hn; [done|]. cbn. rewrite IH by (intros H; apply Hn; by right).
  destruct (is_ch sep c) eqn:Ec; [|done]. apply is_ch_true in Ec as <-. exfalso. apply Hn. by left.
Qed.
Lemma split_commas parts : parts ≠ [] → Forall (λ t, ","%char ∉ t) parts → split_on "," (commas parts) = parts.
Proof.
  intros Hne HF. induction HF as [|t parts Ht HF IH]; [done|]. destruct parts as [|t' parts].
  - cbn. by apply split_one.
  - cbn [commas]. rewrite split_app by done. f_equal. by apply IH.
Qed.
Lemma commas_split s : commas (split_on "," s) = s.
Proof.
  induction s as [|c s IH]; [done|]. destruct (split_cons "," c s) as (w & ws & E & ->). rewrite E in IH.
  destruct (is_ch "," c) eqn:Ec.
  - apply is_ch_true in Ec as <-. cbn [commas app]. by rewrite <-IH.
  - rewrite <-IH. destruct ws; done.
Qed.
Lemma split_no_sep sep t : Forall (λ w, sep ∉ w) (split_on sep t).
Proof.
  induction t as [|c t IH]; cbn; [repeat constructor; by apply not_elem_of_nil|].
  destruct (split_on sep t) as [|w ws]; [repeat constructor; by apply not_elem_of_nil|].
  apply Forall_cons in IH as [Hw IH]. destruct (is_ch sep c) eqn:Ec.
  - constructor; [by apply not_elem_of_nil|by constructor].
  - constructor; [|done]. apply is_ch_false in Ec. apply not_elem_of_cons. done.
Qed.
Lemma split_pad_right sep t b : sep ∉ b → ∃ init last, split_on sep t = init ++ [last] ∧ split_on sep (t ++ b) = init ++ [last ++ b].
Proof.
  intros Hb. induction t as [|c t (init & last & E1 & E2)].
  - exists [], []. split; [done|]. cbn. by apply split_one.
  - destruct (split_cons sep c t) as (w & ws & Ew & ->). cbn [app].
    destruct (split_cons sep c (t ++ b)) as (w' & ws' & Ew' & ->). rewrite E1 in Ew. rewrite E2 in Ew'.
    destruct (is_ch sep c).
    + exists ([] :: init), last. rewrite <-Ew, <-Ew'. done.
    + destruct init as [|x init]; cbn in Ew, Ew'.
      * injection Ew as <- <-. injection Ew' as <- <-. exists [], (c :: last). done.
      * injection Ew as <- <-. injection Ew' as <- <-. exists ((c :: x) :: init), last. done.
Qed.
Lemma comma_not_space b : blank b → ","%char ∉ b.
Proof. intros H Hin. unfold blank in H. rewrite Forall_forall in H. by apply H in Hin. Qed.
Lemma split_pad b t b' : blank b → blank b' →
  strip <$> split_on "," (b ++ t ++ b') = strip <$> split_on "," t.
Proof.
  intros Hb Hb'. induction Hb as [|c b Hc Hb IH].
  - cbn [app]. destruct (split_pad_right "," t b' (comma_not_space _ Hb')) as (init & last & -> & ->).
    rewrite !fmap_app. f_equal. cbn. f_equal. exact (strip_pad [] last b' ltac:(constructor) Hb').
  - cbn [app]. destruct (split_cons "," c (b ++ t ++ b')) as (w & ws & E & ->). rewrite <-IH, E.
    destruct (is_ch "," c) eqn:Ec; [by apply is_ch_true in Ec as <-|]. rewrite !fmap_cons. f_equal.
    assert (Ep := strip_pad [c] w [] ltac:(by repeat constructor) ltac:(constructor)).
    rewrite app_nil_r in Ep. exact Ep.
Qed.
Lemma split_strip s : strip <$> split_on "," (strip s) = strip <$> split_on "," s.
Proof. destruct (strip_spec s) as (b & b' & E & Hb & Hb'). rewrite E at 2. symmetry. by apply split_pad. Qed.

(** ** The token blocks *)
Lemma ok_bind {A C} (a : A) (f : A → res C) : (Ok a ≫= f) = f a.
Proof. done. Qed.
Definition tok_step (lx : lexicon) (acc : list (list token)) (part : text) : res (list (list token)) :=
  let '(toks, rest) := scan lx (strip part) in
  match rest with
  | _ :: _ => Raise InvalidConstraint
  | [] => Ok (match toks with [] => acc | _ => acc ++ [toks] end)
  end.
Definition nonempty_block (b : list token) : bool := match b with [] => false | _ => true end.
Lemma tok_steps lx parts acc r :
  foldM (tok_step lx) parts acc = Ok r ↔
  ∃ tl, Forall2 (λ p toks, scan lx (strip p) = (toks, [])) parts tl ∧ r = acc ++ List.filter nonempty_block tl.
Proof.
  revert acc. induction parts as [|p parts IH]; intros acc; cbn [foldM].
  - split.
    + intros [= <-]. exists []. cbn. rewrite app_nil_r. by split; [constructor|].
    + intros (tl & H & ->). inversion H; subst. cbn. by rewrite app_nil_r.
  - destruct (scan lx (strip p)) as [toks rest] eqn:E.
    assert (Et : tok_step lx acc p = match rest with
      | _ :: _ => Raise InvalidConstraint | [] => Ok (match toks with [] => acc | _ => acc ++ [toks] end) end).
    { unfold tok_step. by rewrite E. }
    rewrite Et. destruct rest as [|x rest].
    + rewrite ok_bind, IH. split.
      * intros (tl & H & ->). exists (toks :: tl). split; [by constructor|]. cbn. destruct toks; cbn; [done|].
        by rewrite <-app_assoc.
      * intros (tl & H & ->). inversion H as [|p' toks' parts' tl' H1 H2]; subst. rewrite E in H1. injection H1 as <-.
        exists tl'. split; [done|]. cbn. destruct toks; cbn; [done|]. by rewrite <-app_assoc.
    + split; [done|]. intros (tl & H & ->). inversion H as [|p' toks' parts' tl' H1 H2]; subst. congruence.
Qed.
Lemma tokenize_unfold lx s : ¬ blank s → tokenize lx s = foldM (tok_step lx) (split_on "," (strip s)) [].
Proof. intros H. unfold tokenize. destruct (strip s) eqn:E; [by apply strip_nil in E|]. done. Qed.
Lemma Forall2_fmap_strip {B} (P : text → B → Prop) l l' tl :
  strip <$> l = strip <$> l' → Forall2 (λ p x, P (strip p) x) l tl → Forall2 (λ p x, P (strip p) x) l' tl.
Proof.
  revert l' tl. induction l as [|x l IH]; intros [|x' l'] tl E H; try done.
  injection E as E1 E2. inversion H; subst. constructor; [by rewrite <-E1|]. by eapply IH.
Qed.
Lemma tokenize_spec lx s r : ¬ blank s → tokenize lx s = Ok r ↔
  ∃ tl, Forall2 (λ p toks, scan lx (strip p) = (toks, [])) (split_on "," s) tl ∧ r = List.filter nonempty_block tl.
Proof.
  intros Hs. rewrite (tokenize_unfold _ _ Hs), tok_steps. cbn [app]. split; intros (tl & H & ->); exists tl; split; try done.
  - eapply (Forall2_fmap_strip (λ p toks, scan lx p = (toks, []))); [apply split_strip|exact H].
  - eapply (Forall2_fmap_strip (λ p toks, scan lx p = (toks, []))); [symmetry; apply split_strip|exact H].
Qed.

(** ** Parts and blocks *)
Lemma trimmed_mid x m y : (∀ c r, x = c :: r → is_white c = false) → x ≠ [] →
  (∀ c r, rev y = c :: r → is_white c = false) → y ≠ [] → trimmed (x ++ m ++ y).
Proof.
  intros Hx Hxn Hy Hyn. split.
  - intros c r E. destruct x as [|c' x]; [done|]. injection E as <- _. by apply (Hx c' x).
  - intros c r E. rewrite !rev_app_distr in E. destruct (rev y) as [|c' y'] eqn:Ey.
    + apply (f_equal (@rev _)) in Ey. rewrite rev_involutive in Ey. done.
    + injection E as <- _. by apply (Hy c' y').
Qed.
Definition solid (t : text) : Prop := trimmed t ∧ t ≠ [] ∧ ","%char ∉ t.
Lemma vchars_solid t : t ≠ [] → Forall (λ c, is_vchar c = true) t → solid t.
Proof.
  intros Hne H. rewrite Forall_forall in H. split; [split|split; [done|]].
  - intros c r ->. apply vchar_not_space, H. by left.
  - intros c r E. apply vchar_not_space, H. apply elem_of_list_In, in_rev. rewrite E. by left.
  - intros Hin. by apply H in Hin.
Qed.
Lemma dist_solid t : dist_name t → solid t.
Proof. intros H. apply vchars_solid; [by apply dotted_ne|]. eapply Forall_impl; [by apply dotted_chars|apply dchar_vchar]. Qed.
Lemma version_solid t : version_text t → solid t.
Proof. intros H. apply vchars_solid; [by apply version_ne|by apply version_chars]. Qed.
Lemma no_elem_b (c : ascii) (t : text) : existsb (is_ch c) t = false → c ∉ t.
Proof.
  intros H Hin. assert (Ht : existsb (is_ch c) t = true); [|congruence].
  apply existsb_exists. exists c. split; [by apply elem_of_list_In|by apply is_ch_true].
Qed.
Lemma op_solid o : solid (op_text o).
Proof. destruct o; (split; [split; [by intros c r [= <- _]|by intros c r [= <- _]]|split; [done|by apply no_elem_b]]). Qed.
Lemma star_solid : solid (of_s "*").
Proof. split; [split; by intros c r [= <- _]|split; [done|by apply no_elem_b]]. Qed.
Lemma symbol_solid t : symbol t → solid t.
Proof. intros [->|[o ->]]; [apply star_solid|apply op_solid]. Qed.
Lemma solid_join x sp y : solid x → spaces sp → solid y → solid (x ++ sp ++ y).
Proof.
  intros ([Hx1 _] & Hx2 & Hx3) Hsp ([_ Hy1] & Hy2 & Hy3). split; [by apply trimmed_mid|]. split; [by destruct x|].
  rewrite !elem_of_app. intros [?|[Hin|?]]; [done| |done].
  by apply (comma_not_space sp (spaces_blank _ Hsp)).
Qed.
Lemma solid_app x y : solid x → solid y → solid (x ++ y).
Proof. intros Hx Hy. apply (solid_join x [] y Hx); [constructor|done]. Qed.
Lemma part_solid vp n c t : req_part vp n c t → solid t.
Proof.
  intros [Hn|sp Hn Hsp|sp o sp' v t' Hn Hsp Hsp' Ht Hv].
  - destruct Hn as [?|[?|?]]; [by apply dist_solid|by apply version_solid|by apply symbol_solid].
  - apply solid_join; [|done|apply star_solid]. destruct Hn; [by apply dist_solid|by apply symbol_solid].
  - apply solid_join; [by apply dist_solid|done|]. apply solid_join; [apply op_solid|done|by apply version_solid].
Qed.
Lemma cpart_solid vp c t : constr_part vp c t → solid t.
Proof.
  intros [ |o sp v t' Hsp Ht Hv|o sp v t' Hsp Ht Hv Ho]; [apply star_solid| |].
  - apply solid_join; [apply op_solid|done|by apply version_solid].
  - apply solid_join; [apply op_solid|done|by apply symbol_solid].
Qed.

(** Parts on one side, blocks of tokens on the other. *)
Section parts.
  Context (lx : lexicon) (P : constr → text → Prop) (B : list token → constr → Prop).
  Context (Hlx : lex_ok lx).
  Context (Hfw : ∀ c t, P c t → solid t ∧ ∃ toks, scan lx t = (toks, []) ∧ toks ≠ [] ∧ B toks c).
  Context (Hbw : ∀ toks t c, scan lx t = (toks, []) → B toks c → ∃ b t0 b', t = b ++ t0 ++ b' ∧ blank b ∧ blank b' ∧ P c t0).
  Lemma parts_blocks parts cs :
    (∃ tl, Forall2 (λ p toks, scan lx (strip p) = (toks, [])) parts tl ∧ Forall2 B (List.filter nonempty_block tl) cs) ↔
    parts_say P cs parts.
  Proof.
    split.
    - intros (tl & H & HB). revert cs HB. induction H as [|p toks parts tl Hp H IH]; intros cs HB; cbn in HB.
      + inversion HB. constructor.
      + destruct (strip_spec p) as (a & a' & Ep & Ha & Ha'). destruct toks as [|k toks]; cbn in HB.
        * apply parts_blank; [|by apply IH]. destruct (scan_inv _ _ _ Hlx Hp) as [Hl _].
          apply lexed_nil_inv, spaces_blank in Hl. rewrite Ep. apply Forall_app. split; [done|]. by apply Forall_app.
        * inversion HB as [|b c bs cs' H1 H2]; subst.
          destruct (Hbw _ _ _ Hp H1) as (b & t0 & b' & E & Hb & Hb' & HP). rewrite Ep, E.
          replace (a ++ (b ++ t0 ++ b') ++ a') with ((a ++ b) ++ t0 ++ (b' ++ a')) by (by rewrite <-!app_assoc).
          apply parts_one; [by apply Forall_app|done|by apply Forall_app|by apply IH].
    - induction 1 as [|b cs ts Hb H (tl & H1 & H2)|b c t b' cs ts Hb HP Hb' H (tl & H1 & H2)].
      + exists []. split; constructor.
      + exists ([] :: tl). split; [|done]. constructor; [|done]. rewrite (strip_blank b Hb).
        apply scan_scans. by apply scans_nil.
      + destruct (Hfw c t HP) as ([Ht _] & toks & E & Hne & HB). exists (toks :: tl). split.
        * constructor; [|done]. by rewrite strip_trimmed.
        * cbn. destruct toks; [done|]. cbn. by constructor.
  Qed.
  Lemma parts_no_comma parts cs : parts_say P cs parts → Forall (λ t, ","%char ∉ t) parts.
  Proof.
    induction 1 as [|b cs ts Hb H IH|b c t b' cs ts Hb HP Hb' H IH]; constructor; try done.
    - by apply comma_not_space.
    - rewrite !elem_of_app. intros [?|[?|?]]; [by eapply (comma_not_space b)| |by eapply (comma_not_space b')].
      destruct (Hfw c t HP) as [(_ & _ & ?) _]. done.
  Qed.
  (** The same, for the string. *)
  Lemma text_blocks s cs : ¬ blank s →
    (∃ blocks, tokenize lx s = Ok blocks ∧ Forall2 B blocks cs) ↔
    ∃ parts, s = commas parts ∧ parts_say P cs parts.
  Proof.
    intros Hs. split.
    - intros (blocks & H & HB). apply (tokenize_spec _ _ _ Hs) in H as (tl & H & ->).
      exists (split_on "," s). rewrite commas_split. split; [done|]. apply parts_blocks. by exists tl.
    - intros (parts & -> & H).
      assert (Hne : parts ≠ []) by (intros ->; apply Hs; constructor).
      destruct (proj2 (parts_blocks parts cs) H) as (tl & H1 & H2).
      exists (List.filter nonempty_block tl). split; [|done]. apply (tokenize_spec _ _ _ Hs).
      exists tl. split; [|done]. rewrite split_commas; [done|done|]. by eapply parts_no_comma.
  Qed.
End parts.

(** ** Constraint strings *)
Lemma mapM_res_ok {A C} (f : A → res C) l r : mapM_res f l = Ok r ↔ Forall2 (λ x y, f x = Ok y) l r.
Proof.
  revert r. induction l as [|x l IH]; intros r; cbn [mapM_res].
  - split; [intros [= <-]; constructor|]. intros H. by inversion H.
  - split.
    + intros H. destruct (f x) as [y|] eqn:E; [|done]. rewrite ok_bind in H.
      destruct (mapM_res f l) as [ys|] eqn:E'; [|done]. rewrite ok_bind in H. injection H as <-.
      constructor; [done|]. by apply IH.
    + intros H. inversion H as [|? y ? ys H1 H2]; subst. rewrite H1, ok_bind.
      apply IH in H2. by rewrite H2.
Qed.
Theorem parse_constraints_spec vp s cs : parse_constraints vp s = Ok cs ↔ constraint_text vp cs s.
Proof.
  unfold constraint_text.
  assert (Hfw : ∀ c t, constr_part vp c t → solid t ∧ ∃ toks, scan constraints_lexicon t = (toks, []) ∧ toks ≠ [] ∧ constraint_block vp toks = Ok c).
  { intros c t H. split; [by eapply cpart_solid|]. by apply cpart_scan. }
  assert (Hlx : lex_ok constraints_lexicon) by (by left).
  assert (Hbw : ∀ toks t c, scan constraints_lexicon t = (toks, []) → constraint_block vp toks = Ok c →
    ∃ b t0 b', t = b ++ t0 ++ b' ∧ blank b ∧ blank b' ∧ constr_part vp c t0).
  { intros toks t c H HB. destruct (scan_inv _ _ _ Hlx H) as [H1 H2]. eapply cblock_inv; [exact H1|by apply H2|done]. }
  assert (Hdec : blank s ∨ ¬ blank s).
  { destruct (strip s) eqn:E; [left; by apply strip_nil|]. right. intros Hb. apply strip_blank in Hb. congruence. }
  destruct Hdec as [Hs|Hs].
  - unfold parse_constraints, tokenize. rewrite (strip_blank s Hs), ok_bind. cbn. split.
    + intros [= <-]. by left.
    + intros [[_ ->]|[Hn _]]; done.
  - rewrite <-(text_blocks constraints_lexicon (constr_part vp) (λ b c, constraint_block vp b = Ok c) Hlx Hfw Hbw s cs Hs).
    unfold parse_constraints. split.
    + intros H. right. split; [done|]. destruct (tokenize constraints_lexicon s) as [blocks|] eqn:E; [|done].
      rewrite ok_bind in H. exists blocks. split; [done|]. by apply mapM_res_ok.
    + intros [[? _]|[_ (blocks & -> & H)]]; [done|]. rewrite ok_bind. by apply mapM_res_ok.
Qed.

(** ** Requirement strings *)
Definition named_step (vp : text → res version) (d : list (option text * list constr)) (b : list token)
  : res (list (option text * list constr)) :=
  '(n, c) ← requirement_block vp b; Ok (named_add d n c).
Lemma named_add_len d n c : (List.length d ≤ List.length (named_add d n c))%nat ∧ (1 ≤ List.length (named_add d n c))%nat.
Proof.
  induction d as [|[m cs] d IH]; cbn; [lia|]. destruct (decide (m = n)); cbn; lia.
Qed.
Lemma named_len vp blocks d r : foldM (named_step vp) blocks d = Ok r → (List.length d ≤ List.length r)%nat.
Proof.
  revert d. induction blocks as [|b blocks IH]; intros d H; cbn [foldM] in H; [by injection H as <-|].
  destruct (requirement_block vp b) as [[n c]|e] eqn:E.
  2:{ assert (Es : named_step vp d b = Raise e) by (unfold named_step; by rewrite E). by rewrite Es in H. }
  assert (Es : named_step vp d b = Ok (named_add d n c)) by (unfold named_step; by rewrite E).
  rewrite Es, ok_bind in H. apply IH in H. pose proof (named_add_len d n c). lia.
Qed.
Lemma named_one vp blocks m cs0 m' cs : foldM (named_step vp) blocks [(m, cs0)] = Ok [(m', cs)] ↔
  m' = m ∧ ∃ cs1, cs = cs0 ++ cs1 ∧ Forall2 (λ b c, requirement_block vp b = Ok (m, c)) blocks cs1.
Proof.
  revert cs0. induction blocks as [|b blocks IH]; intros cs0; cbn [foldM].
  - split.
    + intros [= -> ->]. split; [done|]. exists []. rewrite app_nil_r. by split; [|constructor].
    + intros (-> & cs1 & -> & H). inversion H; subst. by rewrite app_nil_r.
  - destruct (requirement_block vp b) as [[n c]|e] eqn:E.
    + assert (Es : named_step vp [(m, cs0)] b = Ok (named_add [(m, cs0)] n c)) by (unfold named_step; by rewrite E).
      rewrite Es, ok_bind. cbn [named_add]. destruct (decide (m = n)) as [<-|Hn].
      * rewrite IH. split.
        -- intros (-> & cs1 & -> & H). split; [done|]. exists (c :: cs1). rewrite <-app_assoc. split; [done|]. by constructor.
        -- intros (-> & cs1 & -> & H). inversion H as [|? c' ? cs1' H1 H2]; subst.
           assert (c' = c) as -> by congruence. split; [done|]. exists cs1'. rewrite <-app_assoc. done.
      * split.
        -- intros H. apply named_len in H. cbn in H. lia.
        -- intros (_ & cs1 & _ & H). inversion H as [|? c' ? cs1' H1 H2]; subst. congruence.
    + split.
      * assert (Es : named_step vp [(m, cs0)] b = Raise e) by (unfold named_step; by rewrite E). by rewrite Es.
      * intros (_ & cs1 & _ & H). inversion H as [|? c' ? cs1' H1 H2]; subst. congruence.
Qed.
Lemma named_start vp blocks m cs : foldM (named_step vp) blocks [] = Ok [(m, cs)] ↔
  blocks ≠ [] ∧ Forall2 (λ b c, requirement_block vp b = Ok (m, c)) blocks cs.
Proof.
  destruct blocks as [|b blocks]; cbn [foldM]; [split; [done|by intros [? _]]|].
  destruct (requirement_block vp b) as [[n c]|e] eqn:E.
  - assert (Es : named_step vp [] b = Ok [(n, [c])]) by (unfold named_step; by rewrite E).
    rewrite Es, ok_bind, named_one. split.
    + intros (-> & cs1 & -> & H). split; [done|]. by constructor.
    + intros [_ H]. inversion H as [|? c' ? cs1 H1 H2]; subst. rewrite E in H1. injection H1 as -> ->.
      split; [done|]. by exists cs1.
  - assert (Es : named_step vp [] b = Raise e) by (unfold named_step; by rewrite E). rewrite Es. split; [done|].
    intros [_ H]. inversion H as [|? c' ? cs1 H1 H2]; subst. congruence.
Qed.
Lemma blank_dec s : blank s ∨ ¬ blank s.
Proof.
  destruct (strip s) eqn:E; [left; by apply strip_nil|]. right. intros Hb. apply strip_blank in Hb. congruence.
Qed.
Theorem named_spec vp s n cs : named_from_string vp s = Ok (Some n, cs) ↔ requirement_text vp n cs s.
Proof.
  unfold requirement_text.
  assert (Hfw : ∀ c t, req_part vp n c t → solid t ∧ ∃ toks, scan requirements_lexicon t = (toks, []) ∧ toks ≠ [] ∧ requirement_block vp toks = Ok (Some n, c)).
  { intros c t H. split; [by eapply part_solid|]. by apply part_scan. }
  assert (Hlx : lex_ok requirements_lexicon) by (by right).
  assert (Hbw : ∀ toks t c, scan requirements_lexicon t = (toks, []) → requirement_block vp toks = Ok (Some n, c) →
    ∃ b t0 b', t = b ++ t0 ++ b' ∧ blank b ∧ blank b' ∧ req_part vp n c t0).
  { intros toks t c H HB. destruct (scan_inv _ _ _ Hlx H) as [H1 _].
    destruct (req_block_inv vp toks t (Some n) c H1 HB) as (m & b & t0 & b' & [= <-] & E & Hb & Hb' & Hp). by exists b, t0, b'. }
  assert (Hne : ∀ blocks, Forall2 (λ b c, requirement_block vp b = Ok (Some n, c)) blocks cs → blocks ≠ [] ↔ cs ≠ []).
  { intros blocks H. inversion H; subst; done. }
  destruct (blank_dec s) as [Hs|Hs].
  - unfold named_from_string, parse_requirements, tokenize. rewrite (strip_blank s Hs), ok_bind. cbn. split; [done|].
    intros (Hc & parts & -> & H). exfalso.
    assert (Hp : ∃ c t, t ⊆ commas parts ∧ req_part vp n c t).
    { clear Hs Hne Hfw Hbw. induction H as [|b cs ts Hb H IH|b c t b' cs ts Hb HP Hb' H IH]; [done| |].
      - destruct (IH Hc) as (c & t & Ht & HP). exists c, t. split; [|done]. destruct ts as [|t' ts]; [inversion H; subst; done|].
        intros x Hx. cbn [commas]. apply elem_of_app. right. right. by apply Ht.
      - exists c, t. split; [|done]. intros x Hx. destruct ts; cbn [commas]; rewrite !elem_of_app; auto. }
    destruct Hp as (c & t & Ht & HP). apply part_solid in HP as ([H1 _] & H2 & _).
    destruct t as [|x t]; [done|]. specialize (H1 x t eq_refl). unfold blank in Hs. rewrite Forall_forall in Hs.
    rewrite (Hs x) in H1; [done|]. apply Ht. by left.
  - rewrite <-(text_blocks requirements_lexicon (req_part vp n) (λ b c, requirement_block vp b = Ok (Some n, c)) Hlx Hfw Hbw s cs Hs).
    assert (Hun : parse_requirements vp s = (tokenize requirements_lexicon s ≫= λ blocks, foldM (named_step vp) blocks [])) by done.
    unfold named_from_string. rewrite Hun. clear Hun. split.
    + intros H. destruct (tokenize requirements_lexicon s) as [blocks|] eqn:E; [|done]. rewrite ok_bind in H.
      destruct (foldM (named_step vp) blocks []) as [d|] eqn:Ed; [|done].
      rewrite ok_bind in H. destruct d as [|x [|y d]]; try done. injection H as ->.
      apply named_start in Ed as [Hb HF]. split; [by apply (Hne blocks)|]. by exists blocks.
    + intros (Hc & blocks & -> & HF). rewrite ok_bind.
      assert (Ed : foldM (named_step vp) blocks [] = Ok [(Some n, cs)]).
      { apply named_start. split; [by apply (Hne blocks)|done]. }
      rewrite Ed. done.
Qed.
Theorem req_from_string_spec vp cls s r : req_from_string vp cls s = Ok r ↔
  ∃ n cs, r = Req cls (to_s n) cs ∧ requirement_text vp n cs s.
Proof.
  unfold req_from_string. split.
  - intros H. destruct (named_from_string vp s) as [[n cs]|] eqn:E; [|done]. rewrite ok_bind in H.
    destruct n as [n|]; [|done]. cbn in H. injection H as <-. exists n, cs. split; [done|]. by apply named_spec.
  - intros (n & cs & -> & H). apply named_spec in H. by rewrite H.
Qed.

Lemma of_to_s n : of_s (to_s n) = n.
Proof. apply list_ascii_of_string_of_list_ascii. Qed.
Lemma to_of_s n : to_s (of_s n) = n.
Proof. apply string_of_list_ascii_of_string. Qed.
Lemma bare_name_ok vparse cls name : dist_name (of_s name) →
  req_from_string vparse cls (of_s name) = Ok (req_of_name cls name).
Proof.
  intros Hn. apply req_from_string_spec. exists (of_s name), [CAny]. rewrite to_of_s. split; [done|]. split; [done|].
  exists [of_s name]. split; [done|].
  assert (H := parts_one (req_part vparse (of_s name)) [] CAny (of_s name) [] [] []). cbn [app] in H. rewrite app_nil_r in H.
  apply H; [constructor| |constructor|constructor]. apply part_bare. by left.
Qed.
Lemma name_requirement_ok cls name : dist_name (of_s name) → name_requirement cls name = Ok (req_of_name cls name).
Proof. apply bare_name_ok. Qed.

(** ** Errors *)
Lemma tok_step_errors lx l acc e : foldM (tok_step lx) l acc = Raise e → e = InvalidConstraint.
Proof.
  revert acc. induction l as [|p l IH]; intros acc H; cbn [foldM] in H; [done|].
  destruct (tok_step lx acc p) as [a|e'] eqn:E.
  - rewrite ok_bind in H. exact (IH _ H).
  - injection H as <-. unfold tok_step in E. destruct (scan lx (strip p)) as [toks [|]]; [done|]. by injection E.
Qed.
Lemma tokenize_errors lx s e : tokenize lx s = Raise e → e = InvalidConstraint.
Proof.
  intros H. destruct (blank_dec s) as [Hs|Hs].
  - unfold tokenize in H. by rewrite (strip_blank s Hs) in H.
  - rewrite (tokenize_unfold lx s Hs) in H. by eapply tok_step_errors.
Qed.
Lemma mapM_res_err {A C} (f : A → res C) l e : mapM_res f l = Raise e → ∃ x, f x = Raise e.
Proof.
  induction l as [|x l IH]; cbn [mapM_res]; [done|]. intros H. destruct (f x) as [y|] eqn:E; [|exists x; cbn in H; congruence].
  rewrite ok_bind in H. destruct (mapM_res f l) as [ys|]; [done|]. apply IH. done.
Qed.
Lemma operator_errors vparse op v e : operator_factory vparse op v = Raise e → e = InvalidConstraint ∨ ∃ t, vparse t = Raise e.
Proof.
  unfold operator_factory. destruct op; try (intros [= <-]; by left). intros H.
  destruct (vparse (default [] (tok_value v))) eqn:E; [done|]. right. eexists. rewrite E. by injection H as ->.
Qed.
Lemma constraint_errors vparse s e : parse_constraints vparse s = Raise e →
  e = InvalidConstraint ∨ e = AssertionError ∨ ∃ t, vparse t = Raise e.
Proof.
  unfold parse_constraints. destruct (tokenize constraints_lexicon s) as [bs|e'] eqn:E.
  - rewrite ok_bind. intros H. apply mapM_res_err in H as (b & H).
    destruct b as [|k1 [|k2 [|k3 b]]]; cbn in H; try (injection H as <-; by left).
    + destruct k1; try done; injection H as <-; auto.
    + apply operator_errors in H as [?|?]; auto.
  - intros [= <-]. left. by eapply tokenize_errors.
Qed.
Lemma req_block_errors vparse b e : requirement_block vparse b = Raise e → e = InvalidConstraint ∨ ∃ t, vparse t = Raise e.
Proof.
  intros H. destruct b as [|k1 [|k2 [|k3 [|k4 b]]]]; cbn in H; try (injection H as <-; by left); try done.
  - destruct k2; try done; injection H as <-; by left.
  - destruct k1; try (injection H as <-; by left). destruct k3; try (injection H as <-; by left).
    destruct (operator_factory vparse k2 (TVersion t0)) eqn:E; [done|]. injection H as <-. by eapply operator_errors.
Qed.
(** An AssertionError is for strings of commas and white space only, the (model's) TypeError for blank strings. *)
Lemma req_errors vparse cls s e : req_from_string vparse cls s = Raise e →
  e = InvalidConstraint ∨ e = InvalidDependencyString ∨ (∃ t, vparse t = Raise e) ∨
  (e = AssertionError ∧ Forall (λ c, is_white c = true ∨ c = ","%char) s) ∨
  (e = TypeError ∧ blank s).
Proof.
  unfold req_from_string, named_from_string. intros H.
  destruct (blank_dec s) as [Hs|Hs].
  { unfold parse_requirements, tokenize in H. rewrite (strip_blank s Hs), ok_bind in H. cbn in H. injection H as <-. auto 10. }
  assert (Hun : parse_requirements vparse s = (tokenize requirements_lexicon s ≫= λ blocks, foldM (named_step vparse) blocks [])) by done.
  rewrite Hun in H. clear Hun.
  destruct (tokenize requirements_lexicon s) as [bs|e'] eqn:E.
  2:{ injection H as <-. left. by eapply tokenize_errors. }
  rewrite ok_bind in H.
  assert (Herr : ∀ bs d e', foldM (named_step vparse) bs d = Raise e' → e' = InvalidConstraint ∨ ∃ t, vparse t = Raise e').
  { clear. induction bs as [|b bs IH]; intros d e H; cbn [foldM] in H; [done|].
    destruct (requirement_block vparse b) as [[n c]|e'] eqn:E.
    - assert (Es : named_step vparse d b = Ok (named_add d n c)) by (unfold named_step; by rewrite E).
      rewrite Es, ok_bind in H. by eapply IH.
    - assert (Es : named_step vparse d b = Raise e') by (unfold named_step; by rewrite E).
      rewrite Es in H. injection H as <-. by eapply req_block_errors. }
  destruct (foldM (named_step vparse) bs []) as [d|e'] eqn:Ed.
  2:{ injection H as <-. apply Herr in Ed as [?|?]; auto. }
  rewrite ok_bind in H. destruct d as [|[n cs] [|x d]].
  - (* no block at all *)
    injection H as <-. right. right. right. left. split; [done|].
    assert (bs = []) as ->.
    { destruct bs as [|b bs]; [done|]. cbn [foldM] in Ed. exfalso.
      destruct (requirement_block vparse b) as [[n c]|e'] eqn:Eb.
      - assert (Es : named_step vparse [] b = Ok [(n, [c])]) by (unfold named_step; by rewrite Eb).
        rewrite Es, ok_bind in Ed. apply named_len in Ed. cbn in Ed. lia.
      - assert (Es : named_step vparse [] b = Raise e') by (unfold named_step; by rewrite Eb). by rewrite Es in Ed. }
    apply (tokenize_spec _ _ _ Hs) in E as (tl & HF & Hnil). rewrite <-(commas_split s).
    clear -HF Hnil.
    assert (Hb : Forall blank (split_on "," s)).
    { induction HF as [|p toks l tl Hp HF IH]; [constructor|]. cbn in Hnil. destruct toks; [|done].
      constructor; [|by apply IH]. destruct (scan_inv _ _ _ ltac:(by right) Hp) as [Hl _].
      apply lexed_nil_inv, spaces_blank in Hl. destruct (strip_spec p) as (a & a' & -> & Ha & Ha').
      apply Forall_app. split; [done|]. by apply Forall_app. }
    clear -Hb. induction Hb as [|p l Hp Hb IH]; [constructor|].
    assert (Hp' : Forall (λ c, is_white c = true ∨ c = ","%char) p).
    { eapply Forall_impl; [exact Hp|]. intros c Hc. by left. }
    destruct l; cbn [commas]; [done|]. apply Forall_app. split; [done|]. constructor; [by right|done].
  - destruct n as [n|]; [done|]. exfalso.
    apply named_start in Ed as [Hne HF]. destruct bs as [|b bs]; [done|]. inversion HF as [|? c ? ? Hb HF']; subst.
    apply (tokenize_spec _ _ _ Hs) in E as (tl & HF2 & Hbs).
    assert (Hin : b ∈ tl).
    { assert (Hb' : b ∈ b :: bs) by (by left). rewrite Hbs in Hb'. apply elem_of_list_In, filter_In in Hb' as [Hb' _].
      by apply elem_of_list_In. }
    apply elem_of_list_lookup in Hin as (i & Hi). destruct (Forall2_lookup_r _ _ _ _ _ HF2 Hi) as (p & _ & Hp).
    destruct (scan_inv _ _ _ ltac:(by right) Hp) as [Hl _].
    destruct (req_block_inv vparse b _ None c Hl Hb) as (m & _ & _ & _ & ? & _). done.
  - injection H as <-. auto.
Qed.


(** Names and versions can be checked by running the matchers. *)
Lemma dist_by t : bool_decide ((rev t, []) ∈ r_dist ([], t)) = true → dist_name t.
Proof.
  intros H%bool_decide_eq_true. apply recog_dist in H as (w & Hw & E & _). cbn in E. rewrite app_nil_r in E. by subst.
Qed.
