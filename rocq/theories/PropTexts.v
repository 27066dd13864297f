(** * Property C69: transactions and hints can be read off their texts. *)
From Verif Require Export Texts.
From Verif Require Import ReqProofs.
From Coq Require Import Ascii String.
Open Scope list_scope.

(** ** What the texts say *)
Definition lf : ascii := ascii_of_nat 10.
Definition space : ascii := " "%char.
(** The lines of a text. *)
Fixpoint lines_of (t : text) : list text :=
  match t with
  | [] => [[]]
  | c :: r => if decide (c = lf) then [] :: lines_of r
              else match lines_of r with [] => [[c]] | l :: ls => (c :: l) :: ls end
  end.
(** An operation, as far as the text tells it. *)
Inductive said := SaidInstall (n : string) (v : text) | SaidUpdate (n : string) (v : text) (n' : string) (v' : text) | SaidRemove (n : string) (v : text).
Definition op_said (vstr : version → text) (o : operation) : said :=
  match o with
  | InstallOp p => SaidInstall (p_name p) (vstr (p_version p))
  | UpdateOp p q => SaidUpdate (p_name q) (vstr (p_version q)) (p_name p) (vstr (p_version p))
  | RemoveOp p => SaidRemove (p_name p) (vstr (p_version p))
  end.
Definition said_line (o : said) : text :=
  match o with
  | SaidInstall n v => of_s ("Installing " +:+ n +:+ " (") ++ v ++ of_s ")"
  | SaidUpdate n v n' v' => of_s ("Updating " +:+ n +:+ " (") ++ v ++ of_s (") to " +:+ n' +:+ " (") ++ v' ++ of_s ")"
  | SaidRemove n v => of_s ("Removing " +:+ n +:+ " (") ++ v ++ of_s ")"
  end.
(** Neither a blank nor a line break. *)
Definition one_word (t : text) : Prop := ∀ c, c ∈ t → c ≠ space ∧ c ≠ lf.
Definition word_package (vstr : version → text) (p : package) : Prop := one_word (of_s (p_name p)) ∧ one_word (vstr (p_version p)).
Definition word_op (vstr : version → text) (o : operation) : Prop :=
  match o with InstallOp p | RemoveOp p => word_package vstr p | UpdateOp p q => word_package vstr p ∧ word_package vstr q end.

Lemma lines_app (t r : text) : lf ∉ t → lines_of (t ++ lf :: r) = t :: lines_of r.
Proof.
  induction t as [|c t IH]; intros H; cbn [app lines_of]; [by rewrite decide_True|].
  apply not_elem_of_cons in H as [H1 H2]. rewrite decide_False by done. by rewrite IH.
Qed.
Lemma lines_one (t : text) : lf ∉ t → lines_of t = [t].
Proof.
  induction t as [|c t IH]; intros H; cbn [lines_of]; [done|]. apply not_elem_of_cons in H as [H1 H2]. rewrite decide_False by done. by rewrite IH.
Qed.
Lemma lines_join (l : list text) : l ≠ [] → (∀ t, t ∈ l → lf ∉ t) → lines_of (text_join line_feed l) = l.
Proof.
  induction l as [|t l IH]; intros Hn H; [done|]. destruct l as [|t' l].
  - cbn [text_join]. apply lines_one. apply H. left.
  - change (text_join line_feed (t :: t' :: l)) with (t ++ lf :: text_join line_feed (t' :: l)).
    rewrite lines_app by (apply H; left). f_equal. apply IH; [done|]. intros x Hx. apply H. by right.
Qed.
Lemma join_inj (l l' : list text) : (∀ t, t ∈ l → lf ∉ t ∧ t ≠ []) → (∀ t, t ∈ l' → lf ∉ t ∧ t ≠ []) →
  text_join line_feed l = text_join line_feed l' → l = l'.
Proof.
  intros H H' E.
  assert (N : ∀ l : list text, (∀ t, t ∈ l → lf ∉ t ∧ t ≠ []) → l = [] ∨ (l ≠ [] ∧ lines_of (text_join line_feed l) = l ∧ text_join line_feed l ≠ [])).
  { intros k Hk. destruct k as [|t k]; [by left|right]. split; [done|]. split; [apply lines_join; [done|]; intros; by apply Hk|].
    destruct (Hk t) as [_ Ht]; [left|]. destruct t; [done|]. by destruct k. }
  destruct (N l H) as [->|(Hl & L & E0)], (N l' H') as [->|(Hl' & L' & E0')]; [done|by destruct E0'| |].
  - by destruct E0.
  - by rewrite <-L, <-L', E.
Qed.

(** The first character [c] ends a word. *)
Lemma word_inj (c : ascii) (a b r s : text) : c ∉ a → c ∉ b → a ++ c :: r = b ++ c :: s → a = b ∧ r = s.
Proof.
  revert b. induction a as [|x a IH]; intros b Ha Hb E.
  - destruct b as [|y b]; [by injection E|]. injection E as -> _. destruct Hb. left.
  - apply not_elem_of_cons in Ha as [Hx Ha]. destruct b as [|y b]; [by injection E|]. apply not_elem_of_cons in Hb as [Hy Hb].
    injection E as -> E. by destruct (IH b Ha Hb E) as [-> ->].
Qed.
Lemma of_s_inj a b : of_s a = of_s b → a = b.
Proof. intros E. rewrite <-(to_of_s a), <-(to_of_s b). by rewrite E. Qed.

Lemma word_space t : one_word t → space ∉ t.
Proof. intros H Hc. by destruct (H _ Hc). Qed.
Lemma word_lf t : one_word t → lf ∉ t.
Proof. intros H Hc. by destruct (H _ Hc). Qed.

Section simple.
  Context (vstr : version → text).
  Lemma simple_pkg_inj p q r s : word_package vstr p → word_package vstr q →
    (r = [] ∨ ∃ x, r = space :: x) → (s = [] ∨ ∃ x, s = space :: x) →
    simple_pkg vstr p ++ r = simple_pkg vstr q ++ s → p_name p = p_name q ∧ vstr (p_version p) = vstr (p_version q) ∧ r = s.
  Proof.
    intros [Hp Hpv] [Hq Hqv] Hr Hs. unfold simple_pkg. rewrite <-!app_assoc.
    change (of_s " (") with (space :: of_s "("). cbn [app]. intros E. apply word_inj in E as [En E].
    2,3: by apply word_space.
    split; [by apply of_s_inj|]. change (of_s "(") with ["("%char] in E. cbn [app] in E. injection E as E.
    change (of_s ")") with [")"%char] in E. cbn [app] in E.
    assert (W : ∀ (v : text) (r : text), one_word v → space ∉ v ++ [")"%char]).
    { intros v _ Hv H. apply elem_of_app in H as [H|H]; [by apply word_space in H|]. by apply elem_of_list_singleton in H. }
    assert (G : ∀ v (r : text), v ++ ")"%char :: r = (v ++ [")"%char]) ++ r) by (intros; by rewrite <-app_assoc).
    rewrite (G _ r), (G _ s) in E. destruct Hr as [->|[x ->]], Hs as [->|[y ->]].
    - rewrite !app_nil_r in E. apply app_inj_tail in E as [E _]. done.
    - exfalso. apply (W _ [] Hpv). rewrite app_nil_r in E. rewrite E. apply elem_of_app. right. left.
    - exfalso. apply (W _ [] Hqv). rewrite app_nil_r in E. rewrite <-E. apply elem_of_app. right. left.
    - apply word_inj in E as [E ->]; [|by apply W..]. apply app_inj_tail in E as [E _]. done.
  Qed.
  Lemma simple_op_inj o o' : word_op vstr o → word_op vstr o' → simple_op vstr o = simple_op vstr o' → op_said vstr o = op_said vstr o'.
  Proof.
    assert (S : ∀ p, ∃ x : text, of_s " to " ++ simple_pkg vstr p = space :: x) by (intros p; by eexists).
    intros H H' E. destruct o as [p|p|p q], o' as [p'|p'|p' q']; try discriminate E; cbn [simple_op] in E; apply app_inv_head in E; cbn [op_said].
    - rewrite <-(app_nil_r (simple_pkg vstr p)), <-(app_nil_r (simple_pkg vstr p')) in E. by apply simple_pkg_inj in E as (-> & -> & _); auto.
    - rewrite <-(app_nil_r (simple_pkg vstr p)), <-(app_nil_r (simple_pkg vstr p')) in E. by apply simple_pkg_inj in E as (-> & -> & _); auto.
    - destruct H as [Hp Hq], H' as [Hp' Hq']. apply simple_pkg_inj in E as (-> & -> & E); auto. apply app_inv_head in E.
      rewrite <-(app_nil_r (simple_pkg vstr p)), <-(app_nil_r (simple_pkg vstr p')) in E. by apply simple_pkg_inj in E as (-> & -> & _); auto.
  Qed.
  Lemma simple_pkg_line p : word_package vstr p → lf ∉ simple_pkg vstr p.
  Proof.
    intros [Hn Hv] H. unfold simple_pkg in H. rewrite !elem_of_app in H. destruct H as [H|[H|[H|H]]].
    - by apply word_lf in H.
    - apply elem_of_list_In in H. cbn in H. intuition discriminate.
    - by apply word_lf in H.
    - apply elem_of_list_In in H. cbn in H. intuition discriminate.
  Qed.
  Lemma simple_op_line o : word_op vstr o → lf ∉ simple_op vstr o ∧ simple_op vstr o ≠ [].
  Proof.
    assert (N : ∀ s : string, forallb (λ c, negb (bool_decide (c = lf))) (of_s s) = true → lf ∉ of_s s).
    { intros s Hs H. rewrite forallb_forall in Hs. apply elem_of_list_In, Hs in H. rewrite bool_decide_true in H by done. done. }
    intros H. split; [|by destruct o]. destruct o as [p|p|p q]; cbn [simple_op word_op] in *; rewrite ?not_elem_of_app; repeat split;
      try (apply N; reflexivity); apply simple_pkg_line; tauto.
  Qed.
End simple.

(** Each line of the simple text is one operation, in order; the text determines all names and printed versions. *)
Theorem C69_simple : ∀ vstr t, Forall (word_op vstr) (t_ops t) → t_ops t ≠ [] →
  lines_of (to_simple_string vstr t) = (λ o, said_line (op_said vstr o)) <$> t_ops t.
Proof.
  intros vstr t H Hn. assert (E : ((λ o, said_line (op_said vstr o)) <$> t_ops t) = simple_op vstr <$> t_ops t).
  { apply list_fmap_ext. intros i o _. assert (A : ∀ a b : string, of_s (a +:+ b) = of_s a ++ of_s b) by (intros a; induction a as [|c a IH]; intros b; [done|]; change (of_s (String c a +:+ b)) with (c :: of_s (a +:+ b)); rewrite IH; reflexivity).
    destruct o; cbn [op_said said_line simple_op]; unfold simple_pkg; rewrite !A, <-!app_assoc; reflexivity. }
  rewrite E. clear E. unfold to_simple_string. apply lines_join; [by destruct (t_ops t)|].
  intros x (o & -> & Ho)%elem_of_list_fmap. rewrite Forall_forall in H. by apply simple_op_line, H.
Qed.
Theorem C69_simple_inj : ∀ vstr t t', Forall (word_op vstr) (t_ops t) → Forall (word_op vstr) (t_ops t') →
  to_simple_string vstr t = to_simple_string vstr t' → op_said vstr <$> t_ops t = op_said vstr <$> t_ops t'.
Proof.
  intros vstr [ops ps] [ops' ps'] H H' E. cbn [t_ops] in *. unfold to_simple_string in E. cbn [t_ops] in E. rewrite Forall_forall in H, H'. apply join_inj in E.
  2:{ intros x (o & -> & Ho)%elem_of_list_fmap. by apply simple_op_line, H. }
  2:{ intros x (o & -> & Ho)%elem_of_list_fmap. by apply simple_op_line, H'. }
  clear ps ps'. revert ops' H' E. induction ops as [|o ops IH]; intros [|o' ops'] H' E; try discriminate E; [done|].
  cbn [fmap list_fmap] in E |- *. injection E as E1 E2. f_equal.
  - apply simple_op_inj; [apply H; left|apply H'; left|done].
  - apply IH; [intros x Hx; apply H; by right|intros x Hx; apply H'; by right|exact E2].
Qed.

(** ** The full text: two or three lines for each operation. *)
Inductive full_said := FullInstall (t : text) | FullUpdate (t t' : text) | FullRemove (t : text).
Definition op_full (prepr : package → text) (o : operation) : full_said :=
  match o with InstallOp p => FullInstall (prepr p) | UpdateOp p q => FullUpdate (prepr q) (prepr p) | RemoveOp p => FullRemove (prepr p) end.
Definition full_lines (o : full_said) : list text :=
  match o with
  | FullInstall t => [of_s "Installing:"; tabulator ++ t]
  | FullUpdate t t' => [of_s "Updating:"; tabulator ++ t; tabulator ++ t']
  | FullRemove t => [of_s "Removing"; tabulator ++ t]
  end.
Definition line_op (prepr : package → text) (o : operation) : Prop :=
  match o with InstallOp p | RemoveOp p => lf ∉ prepr p | UpdateOp p q => lf ∉ prepr p ∧ lf ∉ prepr q end.
Lemma join_app (l l' : list text) : l ≠ [] → l' ≠ [] → text_join line_feed (l ++ l') = text_join line_feed l ++ line_feed ++ text_join line_feed l'.
Proof.
  intros Hl Hl'. induction l as [|t l IH]; [done|]. destruct l as [|t' l].
  - destruct l'; [done|]. reflexivity.
  - change ((t :: t' :: l) ++ l') with (t :: ((t' :: l) ++ l')).
    change (text_join line_feed (t :: (t' :: l) ++ l')) with (t ++ line_feed ++ text_join line_feed ((t' :: l) ++ l')). rewrite IH by done.
    change (text_join line_feed (t :: t' :: l)) with (t ++ line_feed ++ text_join line_feed (t' :: l)). by rewrite <-!app_assoc.
Qed.
Lemma full_text prepr ops : ops_to_string prepr ops = text_join line_feed (mjoin ((λ o, full_lines (op_full prepr o)) <$> ops)).
Proof.
  unfold ops_to_string. induction ops as [|o ops IH]; [done|].
  assert (E : op_string prepr o = text_join line_feed (full_lines (op_full prepr o))) by (destruct o; reflexivity).
  change (mjoin ((λ o, full_lines (op_full prepr o)) <$> o :: ops)) with (full_lines (op_full prepr o) ++ mjoin ((λ o, full_lines (op_full prepr o)) <$> ops)).
  destruct ops as [|o' ops].
  - change (mjoin ((λ o, full_lines (op_full prepr o)) <$> [])) with (@nil text). rewrite app_nil_r. exact E.
  - rewrite join_app; [rewrite <-IH, <-E; reflexivity|by destruct o|by destruct o'].
Qed.
Lemma full_lines_line prepr o t : line_op prepr o → t ∈ full_lines (op_full prepr o) → lf ∉ t ∧ t ≠ [].
Proof.
  assert (N : ∀ s : string, forallb (λ c, negb (bool_decide (c = lf))) (of_s s) = true → lf ∉ of_s s).
  { intros s Hs H. rewrite forallb_forall in Hs. apply elem_of_list_In, Hs in H. rewrite bool_decide_true in H by done. done. }
  assert (T : ∀ t, lf ∉ t → lf ∉ tabulator ++ t ∧ tabulator ++ t ≠ []).
  { intros x Hx. split; [|done]. intros H. apply elem_of_app in H as [H|H]; [|done]. apply elem_of_list_singleton in H. discriminate H. }
  intros H Ht. destruct o as [p|p|p q]; cbn [op_full full_lines line_op] in *; rewrite !elem_of_cons, elem_of_nil in Ht.
  - destruct Ht as [->|[->|[]]]; [split; [apply N; reflexivity|done]|by apply T].
  - destruct Ht as [->|[->|[]]]; [split; [apply N; reflexivity|done]|by apply T].
  - destruct H as [H1 H2]. destruct Ht as [->|[->|[->|[]]]]; [split; [apply N; reflexivity|done]|by apply T..].
Qed.
Lemma full_lines_inj (l l' : list full_said) : mjoin (full_lines <$> l) = mjoin (full_lines <$> l') → l = l'.
Proof.
  revert l'. induction l as [|o l IH]; intros [|o' l'] E; [done|by destruct o'|by destruct o|].
  cbn [fmap list_fmap mjoin list_join] in E. destruct o, o'; try discriminate E; cbn [full_lines app] in E.
  - injection E as -> E. f_equal. by apply IH.
  - injection E as -> -> E. f_equal. by apply IH.
  - injection E as -> E. f_equal. by apply IH.
Qed.
Theorem C69_text_inj : ∀ prepr ops ops', Forall (line_op prepr) ops → Forall (line_op prepr) ops' →
  ops_to_string prepr ops = ops_to_string prepr ops' → op_full prepr <$> ops = op_full prepr <$> ops'.
Proof.
  intros prepr ops ops' H H' E. rewrite !full_text in E. rewrite Forall_forall in H, H'. apply join_inj in E.
  - apply full_lines_inj. rewrite <-!list_fmap_compose. exact E.
  - intros t Ht. apply elem_of_list_join in Ht as (k & Ht & Hk). apply elem_of_list_fmap in Hk as (o & -> & Ho). eapply full_lines_line; eauto.
  - intros t Ht. apply elem_of_list_join in Ht as (k & Ht & Hk). apply elem_of_list_fmap in Hk as (o & -> & Ho). eapply full_lines_line; eauto.
Qed.

Theorem C69_text : ∀ prepr ops, Forall (line_op prepr) ops → ops ≠ [] →
  lines_of (ops_to_string prepr ops) = mjoin ((λ o, full_lines (op_full prepr o)) <$> ops).
Proof.
  intros prepr ops H Hn. rewrite full_text, lines_join; [done| |].
  - destruct ops as [|o ops]; [done|]. by destruct o.
  - intros t Ht. rewrite Forall_forall in H. apply elem_of_list_join in Ht as (k & Ht & Hk). apply elem_of_list_fmap in Hk as (o & -> & Ho).
    eapply full_lines_line; eauto.
Qed.

(** ** The hint *)
Definition kind_word (k : job_kind) : string :=
  match k with JInstall => "install" | JRemove => "remove" | JSoftUpdate => "soft_update" | JHardUpdate => "hard_update" | JUpgrade => "upgrade" end.
(** Each line after the first is one job: its kind and its requirement. *)
Theorem C69_hint : ∀ rstr jobs, (∀ r, lf ∉ rstr r) → jobs ≠ [] →
  lines_of (hint_pretty_string rstr jobs) =
    of_s "The following jobs are conflicting:" ::
    ((λ j, of_s ("    " +:+ kind_word (j_kind j) +:+ " ") ++ match j_req j with Some r => rstr r | None => of_s "None" end) <$> jobs).
Proof.
  intros rstr jobs Hr Hn. unfold hint_pretty_string.
  assert (N : ∀ s : string, forallb (λ c, negb (bool_decide (c = lf))) (of_s s) = true → lf ∉ of_s s).
  { intros s Hs H. rewrite forallb_forall in Hs. apply elem_of_list_In, Hs in H. rewrite bool_decide_true in H by done. done. }
  change (line_feed ++ ?x) with (lf :: x). rewrite lines_app by (apply N; reflexivity). f_equal.
  assert (E : ((λ j, of_s "    " ++ job_str rstr j) <$> jobs) =
    ((λ j, of_s ("    " +:+ kind_word (j_kind j) +:+ " ") ++ match j_req j with Some r => rstr r | None => of_s "None" end) <$> jobs)).
  { apply list_fmap_ext. intros i j _. unfold job_str. destruct (j_kind j); reflexivity. }
  rewrite E. apply lines_join; [by destruct jobs|]. intros t (j & -> & Hj)%elem_of_list_fmap. rewrite not_elem_of_app. split.
  - apply N. destruct (j_kind j); reflexivity.
  - destruct (j_req j); [done|]. apply N. reflexivity.
Qed.

(** ** Examples *)
Definition c69_vstr (v : version) : text := if decide (v = V 1 0) then of_s "1.0-1" else of_s "2.0-1".
Definition c69_pkg (n : string) (i : Z) : package := Pkg n (V i 0) [] [] [] None.
Definition c69_t : transaction := Trans [RemoveOp (c69_pkg "lib" 1); InstallOp (c69_pkg "lib" 2); InstallOp (c69_pkg "app" 1)] [].
Theorem C69_example : Forall (word_op c69_vstr) (t_ops c69_t) ∧
  to_simple_string c69_vstr c69_t = of_s "Removing lib (1.0-1)" ++ line_feed ++ of_s "Installing lib (2.0-1)" ++ line_feed ++ of_s "Installing app (1.0-1)".
Proof.
  split; [|vm_compute; reflexivity].
  assert (W : ∀ t : text, forallb (λ c, negb (bool_decide (c = lf)) && negb (bool_decide (c = space))) t = true → one_word t).
  { intros t H c Hc. rewrite forallb_forall in H. apply elem_of_list_In, H in Hc. apply andb_true_iff in Hc as [H1%negb_true_iff%bool_decide_eq_false H2%negb_true_iff%bool_decide_eq_false]. done. }
  repeat (apply Forall_cons_2; [split; apply W; vm_compute; reflexivity|]). apply Forall_nil_2.
Qed.
(** Without the condition on names it is false: a package "a (1.0-1) to b". *)
Theorem C69_ambiguous_refuted : ∃ t t', to_simple_string c69_vstr t = to_simple_string c69_vstr t' ∧
  op_said c69_vstr <$> t_ops t ≠ op_said c69_vstr <$> t_ops t'.
Proof.
  exists (Trans [UpdateOp (c69_pkg "b" 1) (c69_pkg "a (2.0-1) to a" 1)] []), (Trans [UpdateOp (c69_pkg "a (1.0-1) to b" 1) (c69_pkg "a" 2)] []).
  split; [vm_compute; reflexivity|discriminate].
Qed.
Print Assumptions C69_simple.
Print Assumptions C69_simple_inj.
Print Assumptions C69_text.
Print Assumptions C69_text_inj.
Print Assumptions C69_hint.
Print Assumptions C69_example.
