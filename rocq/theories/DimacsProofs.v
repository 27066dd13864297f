(** * Reading back what the export writes. *)
From Coq Require Import Ascii String DecimalString DecimalZ.
From Verif Require Export Dimacs SpecDimacs.
Local Open Scope string_scope.
Local Open Scope list_scope.

(** ** Characters of a string *)
Fixpoint chars (s : string) : list ascii :=
  match s with "" => [] | String c r => c :: chars r end.
Lemma chars_app s t : chars (s +:+ t) = chars s ++ chars t.
Proof. induction s as [|c s IH]; [done|]. change (c :: chars (s +:+ t) = c :: chars s ++ chars t). by rewrite IH. Qed.
Definition lacks (c : ascii) (s : string) : Prop := c ∉ chars s.
Lemma lacks_app c s t : lacks c (s +:+ t) ↔ lacks c s ∧ lacks c t.
Proof. unfold lacks. rewrite chars_app, not_elem_of_app. done. Qed.
Lemma lacks_cons c x s : lacks c (String x s) ↔ c ≠ x ∧ lacks c s.
Proof. unfold lacks. cbn. rewrite not_elem_of_cons. done. Qed.

Lemma split_lacks c s : lacks c s → split_on c s = [s].
Proof.
  induction s as [|x s IH]; [done|]. intros [H1 H2]%lacks_cons. cbn. rewrite decide_False by congruence.
  by rewrite IH.
Qed.
Lemma split_app c s t : lacks c s → split_on c (s +:+ String c t) = s :: split_on c t.
Proof.
  induction s as [|x s IH]; intros H.
  - change ("" +:+ String c t) with (String c t). cbn [split_on]. by rewrite decide_True.
  - apply lacks_cons in H as [H1 H2]. change (String x s +:+ String c t) with (String x (s +:+ String c t)). cbn [split_on].
    rewrite decide_False by congruence. by rewrite IH.
Qed.
Lemma split_join c l : l ≠ [] → Forall (lacks c) l → split_on c (str_join (String c "") l) = l.
Proof.
  induction l as [|x l IH]; intros Hn Hl; [done|]. apply Forall_cons in Hl as [Hx Hl].
  destruct l as [|y l]; [by apply split_lacks|].
  change (str_join (String c "") (x :: y :: l)) with (x +:+ String c (str_join (String c "") (y :: l))).
  rewrite split_app by done. by rewrite IH.
Qed.

(** ** Numerals *)
Definition digit (c : ascii) : Prop := (48 <= N_of_ascii c <= 57)%N ∨ c = "-"%char.
Lemma uint_chars d c : c ∈ chars (NilEmpty.string_of_uint d) → digit c.
Proof.
  induction d as [|d IH|d IH|d IH|d IH|d IH|d IH|d IH|d IH|d IH|d IH]; cbn; rewrite ?elem_of_nil, ?elem_of_cons; [done|..];
    (intros [->|H]; [left; by vm_compute|by apply IH]).
Qed.
Lemma int_chars d c : c ∈ chars (NilZero.string_of_int d) → digit c.
Proof.
  assert (∀ u, c ∈ chars (NilZero.string_of_uint u) → digit c) as Hu.
  { intros u. destruct u; try apply uint_chars. cbn. rewrite elem_of_list_singleton. intros ->. left; by vm_compute. }
  destruct d as [u|u]; [apply Hu|]. cbn [NilZero.string_of_int chars]. rewrite elem_of_cons. intros [->|H]; [by right|exact (Hu u H)].
Qed.
Lemma str_chars z c : c ∈ chars (str_of_Z z) → digit c.
Proof. apply int_chars. Qed.
Lemma not_digit c : (N_of_ascii c <? 45)%N || (57 <? N_of_ascii c)%N = true → ¬ digit c.
Proof. intros H [H'| ->]; [|done]. apply orb_true_iff in H as [H%N.ltb_lt|H%N.ltb_lt]; lia. Qed.
Lemma str_lacks c z : (N_of_ascii c <? 45)%N || (57 <? N_of_ascii c)%N = true → lacks c (str_of_Z z).
Proof. intros H Hc%str_chars. by apply not_digit in H. Qed.

Lemma to_int_not_nil z : Z.to_int z ≠ Decimal.Pos Decimal.Nil ∧ Z.to_int z ≠ Decimal.Neg Decimal.Nil.
Proof.
  destruct z as [|p|p]; cbn; [done|split; [intros [=H]|done]|split; [done|intros [=H]]];
  by apply DecimalPos.Unsigned.to_uint_nonnil in H.
Qed.
Lemma read_str z : read_int (str_of_Z z) = Some z.
Proof.
  destruct (to_int_not_nil z) as [H1 H2]. unfold read_int, str_of_Z. rewrite NilZero.isi by done. cbn. by rewrite DecimalZ.of_to.
Qed.
Lemma str_not_empty z : str_of_Z z ≠ "".
Proof. intros H. assert (read_int "" = Some z) as H' by (by rewrite <-H, read_str). done. Qed.

(** ** Words *)
Lemma words_join l : Forall (lacks " ") l → Forall (λ w, w ≠ "") l → words_of (str_join " " l) = l.
Proof.
  intros H1 H2. unfold words_of. destruct l as [|x l]; [done|]. rewrite split_join by done.
  induction H2 as [|y l' Hy Hl IH]; [done|]. rewrite filter_cons_True by done. f_equal.
  destruct l'; [done|]. apply IH. by apply Forall_cons in H1 as [_ H1].
Qed.
Lemma clause_words c : words_of (clause_line c) = (str_of_Z <$> c) ++ ["0"].
Proof.
  apply words_join; apply Forall_app; split.
  - apply Forall_fmap, Forall_true. intros z. by apply str_lacks.
  - apply Forall_singleton. unfold lacks. cbn. by rewrite elem_of_list_singleton.
  - apply Forall_fmap, Forall_true. intros z. apply str_not_empty.
  - by apply Forall_singleton.
Qed.
Lemma mapM_ints l : mapM read_int (str_of_Z <$> l) = Some l.
Proof. induction l as [|z l IH]; [done|]. cbn. rewrite read_str. cbn. by rewrite IH. Qed.

Lemma cut_prefix c : (∀ l, l ∈ c → l ≠ 0) → ∀ acc rest, cut_zeros acc (c ++ 0 :: rest) = (λ cs, (reverse acc ++ c) :: cs) <$> cut_zeros [] rest.
Proof.
  induction c as [|x c IH]; intros Hc acc rest; cbn.
  - by rewrite app_nil_r.
  - rewrite decide_False by (apply Hc; left). rewrite IH by (intros l Hl; apply Hc; by right).
    rewrite reverse_cons. by rewrite <-app_assoc.
Qed.
Lemma cut_all cls : (∀ c l, c ∈ cls → l ∈ c → l ≠ 0) → cut_zeros [] (mjoin ((λ c, c ++ [0]) <$> cls)) = Some cls.
Proof.
  induction cls as [|c cls IH]; intros H; [done|].
  change (mjoin ((λ c, c ++ [0]) <$> (c :: cls))) with ((c ++ [0]) ++ mjoin ((λ c, c ++ [0]) <$> cls)).
  rewrite <-app_assoc. cbn [app].
  rewrite cut_prefix by (intros l Hl; eapply H; [left|done]). rewrite IH; [done|].
  intros c' l Hc' Hl. eapply H; [by right|done].
Qed.

Lemma header_read v n : read_header ("p cnf " +:+ str_of_Z v +:+ " " +:+ str_of_Z n) = Some (v, n).
Proof.
  unfold read_header.
  assert (words_of ("p cnf " +:+ str_of_Z v +:+ " " +:+ str_of_Z n) = ["p"; "cnf"; str_of_Z v; str_of_Z n]) as ->.
  { change ("p cnf " +:+ str_of_Z v +:+ " " +:+ str_of_Z n) with (str_join " " ["p"; "cnf"; str_of_Z v; str_of_Z n]).
    apply words_join; repeat (apply Forall_cons; split); try done; try (by apply str_lacks); try (by apply str_not_empty);
      unfold lacks; cbn; rewrite ?not_elem_of_cons; repeat split; try done; apply not_elem_of_nil. }
  rewrite decide_True by done. by rewrite !read_str.
Qed.

(** ** Lines *)
Definition nl : ascii := ascii_of_N 10.
Lemma lit_lacks c s : forallb (λ x, negb (Ascii.eqb c x)) (chars s) = true → lacks c s.
Proof.
  intros H Hc. rewrite forallb_forall in H. apply elem_of_list_In in Hc. specialize (H c Hc). rewrite Ascii.eqb_refl in H. done.
Qed.
Lemma json_char_lacks c : lacks nl (json_char c).
Proof. destruct c as [[] [] [] [] [] [] [] []]; by apply lit_lacks. Qed.
Lemma json_chars_lacks s : lacks nl (json_chars s).
Proof. induction s as [|c s IH]; [apply not_elem_of_nil|]. cbn [json_chars]. apply lacks_app. split; [apply json_char_lacks|done]. Qed.
Lemma join_lacks c sep l : lacks c sep → Forall (lacks c) l → lacks c (str_join sep l).
Proof.
  intros Hs. induction 1 as [|x l Hx Hl IH]; [apply not_elem_of_nil|]. destruct l as [|y l]; [done|].
  change (str_join sep (x :: y :: l)) with (x +:+ sep +:+ str_join sep (y :: l)). rewrite !lacks_app. done.
Qed.
Lemma json_string_lacks s : lacks nl (json_string s).
Proof. unfold json_string. rewrite !lacks_app. split_and!; [by apply lit_lacks|apply json_chars_lacks|by apply lit_lacks]. Qed.
Lemma json_dict_lacks d : lacks nl (json_dict d).
Proof.
  unfold json_dict. rewrite !lacks_app. split_and!; [by apply lit_lacks| |by apply lit_lacks].
  apply join_lacks; [by apply lit_lacks|]. apply Forall_fmap, Forall_true. intros kv. cbn beta.
  unfold compose. rewrite !lacks_app. split_and!; [apply json_string_lacks|by apply lit_lacks|apply json_string_lacks].
Qed.
Lemma clause_line_lacks c : lacks nl (clause_line c).
Proof.
  apply join_lacks; [by apply lit_lacks|]. apply Forall_app. split; [|apply Forall_singleton; by apply lit_lacks].
  apply Forall_fmap, Forall_true. intros z. by apply str_lacks.
Qed.
Lemma header_lacks v n : lacks nl ("p cnf " +:+ str_of_Z v +:+ " " +:+ str_of_Z n).
Proof. rewrite !lacks_app. split_and!; try (by apply lit_lacks); by apply str_lacks. Qed.
(** A line that starts with a digit or a sign is no comment. *)
Lemma clause_line_comment c : comment (clause_line c) = false.
Proof.
  destruct (clause_line c) as [|x s] eqn:E; [done|]. cbn. assert (x ≠ "c"%char) as Hx.
  { assert (x ∈ chars (clause_line c)) as Hx by (rewrite E; left). intros ->.
    assert (lacks "c" (clause_line c)) as Hl; [|done].
    apply join_lacks; [by apply lit_lacks|]. apply Forall_app. split; [|apply Forall_singleton; by apply lit_lacks].
    apply Forall_fmap, Forall_true. intros z. by apply str_lacks. }
  destruct x as [[] [] [] [] [] [] [] []]; done.
Qed.
Lemma body_read cls : (∀ c l, c ∈ cls → l ∈ c → l ≠ 0) →
  filter (λ l, comment l = false) (clause_line <$> cls) = clause_line <$> cls ∧
  mapM read_int (mjoin (words_of <$> (clause_line <$> cls))) ≫= cut_zeros [] = Some cls.
Proof.
  intros H. split.
  - clear H. induction cls as [|c cls IH]; [done|]. rewrite fmap_cons, filter_cons_True by apply clause_line_comment. by rewrite IH.
  - assert (mjoin (words_of <$> (clause_line <$> cls)) = str_of_Z <$> mjoin ((λ c, c ++ [0]) <$> cls)) as ->.
    { clear H. induction cls as [|c cls IH]; [done|]. rewrite !fmap_cons.
      change (words_of (clause_line c) ++ mjoin (words_of <$> (clause_line <$> cls)) =
              str_of_Z <$> ((c ++ [0]) ++ mjoin ((λ c, c ++ [0]) <$> cls))).
      rewrite clause_words, IH, !fmap_app. done. }
    rewrite mapM_ints. cbn [mbind option_bind]. by apply cut_all.
Qed.

(** The lines of the tools' version. *)
Definition tool_line (c : list Z) : string := str_join " " (str_of_Z <$> c) +:+ " 0".
Lemma app_str_assoc (a b c : string) : (a +:+ b) +:+ c = a +:+ b +:+ c.
Proof. induction a as [|x a IH]; [done|]. change (String x ((a +:+ b) +:+ c) = String x (a +:+ b +:+ c)). by rewrite IH. Qed.
Lemma app_str_nil (a : string) : a +:+ "" = a.
Proof. induction a as [|x a IH]; [done|]. change (String x (a +:+ "") = String x a). by rewrite IH. Qed.
Lemma join_snoc sep l x : l ≠ [] → str_join sep (l ++ [x]) = str_join sep l +:+ sep +:+ x.
Proof.
  induction l as [|y l IH]; [done|]. intros _. destruct l as [|z l]; [done|].
  change (str_join sep ((y :: z :: l) ++ [x])) with (y +:+ sep +:+ str_join sep ((z :: l) ++ [x])). rewrite IH by done.
  change (str_join sep (y :: z :: l)) with (y +:+ sep +:+ str_join sep (z :: l)). by rewrite !app_str_assoc.
Qed.
Lemma tool_line_eq c : c ≠ [] → tool_line c = clause_line c.
Proof. intros Hc. unfold tool_line, clause_line. rewrite join_snoc; [done|]. by destruct c. Qed.
Lemma tool_words c : words_of (tool_line c) = (str_of_Z <$> c) ++ ["0"].
Proof. destruct c as [|z c]; [done|]. rewrite tool_line_eq by done. apply clause_words. Qed.
Lemma tool_comment c : comment (tool_line c) = false.
Proof. destruct c as [|z c]; [done|]. rewrite tool_line_eq by done. apply clause_line_comment. Qed.
Lemma tool_lacks c : lacks nl (tool_line c).
Proof. destruct c as [|z c]; [by apply lit_lacks|]. rewrite tool_line_eq by done. apply clause_line_lacks. Qed.
Lemma concat_lines ls : String.concat "" ((λ l, l +:+ nl_str) <$> ls) = str_join nl_str (ls ++ [""]).
Proof.
  induction ls as [|x ls IH]; [done|]. destruct ls as [|y ls]; [done|].
  transitivity ((x +:+ nl_str) +:+ String.concat "" ((λ l, l +:+ nl_str) <$> y :: ls)); [done|].
  rewrite IH, app_str_assoc. done.
Qed.

Section read.
  Context (vstr : version → string).
  Lemma to_dimacs_read po cls : (∀ c l, c ∈ cls → l ∈ c → l ≠ 0) →
    read_dimacs (str_join nl_str (to_dimacs vstr po cls)) =
      Some (Z.of_nat (size (all_vars cls)), Z.of_nat (List.length cls), cls).
  Proof.
    intros H. destruct (body_read cls H) as [Hf Hm]. unfold read_dimacs, lines_of, nl_str.
    rewrite split_join; [|done|].
    2:{ unfold to_dimacs, clauses_to_dimacs. repeat (apply Forall_cons; split).
        - by apply lit_lacks.
        - apply lacks_app. split; [by apply lit_lacks|apply json_dict_lacks].
        - apply header_lacks.
        - apply Forall_fmap, Forall_true. intros c. apply clause_line_lacks. }
    unfold to_dimacs, clauses_to_dimacs. rewrite !filter_cons_False by done. rewrite filter_cons_True by done.
    rewrite header_read, Hf. destruct (mapM read_int _) as [ns|]; [|done]. cbn [mbind option_bind] in Hm. by rewrite Hm.
  Qed.

  Lemma tools_read po rules : (∀ c l, c ∈ rules → l ∈ c → l ≠ 0) →
    read_dimacs (rules_set_to_dimacs po rules) = Some (po_next po, Z.of_nat (List.length rules), rules).
  Proof.
    intros H.
    assert (rules_set_to_dimacs po rules = str_join nl_str ("c written by new_solver" ::
      ("p cnf " +:+ str_of_Z (po_next po) +:+ " " +:+ str_of_Z (Z.of_nat (List.length rules))) :: (tool_line <$> rules) ++ [""])) as ->.
    { unfold rules_set_to_dimacs.
      assert (((λ r, str_join " " (str_of_Z <$> r) +:+ " 0" +:+ nl_str) <$> rules) = (λ l, l +:+ nl_str) <$> (tool_line <$> rules)) as ->.
      { rewrite <-list_fmap_compose. apply list_fmap_ext. intros _ c _. unfold compose, tool_line. by rewrite app_str_assoc. }
      rewrite concat_lines. destruct ((tool_line <$> rules) ++ [""]) as [|x ls] eqn:E; [by destruct (tool_line <$> rules)|].
      set (h := "p cnf " +:+ str_of_Z (po_next po) +:+ " " +:+ str_of_Z (Z.of_nat (List.length rules))).
      change (str_join nl_str ("c written by new_solver" :: h :: x :: ls)) with
        ("c written by new_solver" +:+ nl_str +:+ h +:+ nl_str +:+ str_join nl_str (x :: ls)).
      unfold h. by rewrite !app_str_assoc. }
    unfold read_dimacs, lines_of, nl_str. rewrite split_join; [|done|].
    2:{ repeat (apply Forall_cons; split).
        - by apply lit_lacks.
        - apply header_lacks.
        - apply Forall_app. split; [apply Forall_fmap, Forall_true; intros c; apply tool_lacks|].
          apply Forall_singleton. by apply lit_lacks. }
    rewrite filter_cons_False by done. rewrite filter_cons_True by done. rewrite header_read.
    assert (filter (λ l, comment l = false) ((tool_line <$> rules) ++ [""]) = (tool_line <$> rules) ++ [""]) as ->.
    { clear H. induction rules as [|c cls IH]; [done|]. rewrite fmap_cons. cbn [app]. rewrite filter_cons_True by apply tool_comment. by rewrite IH. }
    assert (mjoin (words_of <$> ((tool_line <$> rules) ++ [""])) = str_of_Z <$> mjoin ((λ c, c ++ [0]) <$> rules)) as ->.
    { clear H. induction rules as [|c cls IH]; [done|]. rewrite !fmap_cons. cbn [app]. rewrite fmap_cons.
      change (words_of (tool_line c) ++ mjoin (words_of <$> ((tool_line <$> cls) ++ [""])) =
              str_of_Z <$> ((c ++ [0]) ++ mjoin ((λ c, c ++ [0]) <$> cls))).
      rewrite tool_words, IH, !fmap_app. done. }
    rewrite mapM_ints, cut_all by done. done.
  Qed.
End read.
