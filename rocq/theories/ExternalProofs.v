(** * Reading the answer of a SAT solver. *)
From Coq Require Import Ascii String DecimalString DecimalZ.
From Verif Require Import DimacsProofs.
From Verif Require Export External SpecExternal.
Local Open Scope string_scope.
Local Open Scope list_scope.

Lemma s_assoc (a b c : string) : (a +:+ b) +:+ c = a +:+ b +:+ c.
Proof. induction a as [|x a IH]; [done|]. change (String x ((a +:+ b) +:+ c) = String x (a +:+ b +:+ c)). by rewrite IH. Qed.
Lemma s_nil_r (a : string) : a +:+ "" = a.
Proof. induction a as [|x a IH]; [done|]. change (String x (a +:+ "") = String x a). by rewrite IH. Qed.

(** ** Words *)
Definition solid (w : string) : Prop := w ≠ "" ∧ ∀ c, c ∈ chars w → is_white c = false.
Lemma digit_solid c : digit c → is_white c = false.
Proof.
  intros H. assert (Hn : (45 <= N_of_ascii c <= 57)%N) by (destruct H as [?| ->]; [lia|vm_compute; split; discriminate]).
  unfold is_white, Regex.code, nat_of_ascii. repeat (apply orb_false_iff; split); try (apply andb_false_iff; right; apply Nat.leb_gt; lia); apply Nat.eqb_neq; lia.
Qed.
Lemma numeral_solid z : solid (numeral z).
Proof. split; [apply str_not_empty|]. intros c Hc%(str_chars z). by apply digit_solid. Qed.
Lemma zero_solid : solid "0".
Proof. exact (numeral_solid 0). Qed.
Lemma words_solid w s ws : (∀ c, c ∈ chars w → is_white c = false) → words_from s = ("", ws) → words_from (w +:+ s) = (w, ws).
Proof.
  intros Hw Hs. induction w as [|c w IH]; [done|]. change (words_from (String c w +:+ s)) with (let (w0, ws0) := words_from (w +:+ s) in if is_white c then ("", if decide (w0 = "") then ws0 else w0 :: ws0) else (String c w0, ws0)). rewrite IH; [|intros x Hx; apply Hw; by right].
  rewrite Hw; [done|left].
Qed.
Lemma words_space s : words_from (String " " s) = ("", py_words s).
Proof. unfold py_words. cbn [words_from]. by destruct (words_from s). Qed.
Lemma words_line ws t : Forall solid ws → ws ≠ [] → words_from t = ("", []) → py_words (str_join " " ws +:+ t) = ws.
Proof.
  intros H Hne Ht. induction H as [|w ws [Hw Hc] Hs IH]; [done|]. destruct ws as [|w' ws].
  - cbn [str_join]. unfold py_words. rewrite (words_solid w t []) by done. by rewrite decide_False.
  - change (str_join " " (w :: w' :: ws)) with (w +:+ " " +:+ str_join " " (w' :: ws)). rewrite !s_assoc. unfold py_words.
    rewrite (words_solid w _ (w' :: ws)); [by rewrite decide_False|done|]. 
    change (words_from (String " " (str_join " " (w' :: ws) +:+ t)) = ("", w' :: ws)). rewrite words_space. by rewrite IH.
Qed.

(** ** The line of literals *)
Definition lits_line (lits : list Z) : string := String.concat " " (numeral <$> lits) +:+ " 0".
Lemma concat_str_join sep l : String.concat sep l = str_join sep l.
Proof. induction l as [|x l IH]; [done|]. cbn [String.concat str_join]. destruct l; [done|]. by rewrite IH. Qed.
Lemma line_join lits : lits ≠ [] → lits_line lits = str_join " " ((numeral <$> lits) ++ ["0"]).
Proof.
  intros H. unfold lits_line. rewrite concat_str_join, join_snoc by (by destruct lits). done.
Qed.
Lemma line_words lits t : words_from t = ("", []) → py_words (lits_line lits +:+ t) = (numeral <$> lits) ++ ["0"].
Proof.
  intros Ht. destruct (decide (lits = [])) as [->|Hne].
  - change (lits_line [] +:+ t) with (String " " ("0" +:+ t)). unfold py_words at 1. rewrite words_space. unfold py_words.
    by rewrite (words_solid "0" t []) by (apply zero_solid || done).
  - rewrite line_join by done. apply words_line; [|by destruct lits|done]. apply Forall_app. split; [|repeat constructor; apply zero_solid].
    apply Forall_fmap, Forall_forall. intros z _. apply numeral_solid.
Qed.
Lemma but_last_snoc {A} (l : list A) x : but_last (l ++ [x]) = l.
Proof. unfold but_last. rewrite app_length. cbn [List.length]. rewrite Nat.add_sub. apply take_app. Qed.
Lemma read_ints lits : mapM_res py_int (numeral <$> lits) = Ok lits.
Proof.
  induction lits as [|z lits IH]; [done|]. cbn [fmap list_fmap mapM_res].
  assert (py_int (numeral z) = Ok z) as ->.
  { unfold py_int. change (Z.of_int <$> NilZero.int_of_string (numeral z)) with (read_int (str_of_Z z)). by rewrite read_str. }
  cbn [mbind res_bind]. rewrite IH. done.
Qed.
Lemma line_ints lits t : words_from t = ("", []) → mapM_res py_int (but_last (py_words (lits_line lits +:+ t))) = Ok lits.
Proof. intros Ht. by rewrite line_words, but_last_snoc, read_ints. Qed.

(** ** Lines *)
Definition one_line (s : string) : Prop := ∀ c, is_boundary c = true → lacks c s.
Lemma boundary_in c : is_boundary c = true → c ∈ ascii_of_N <$> [10; 11; 12; 13; 28; 29; 30; 133]%N.
Proof. unfold is_boundary. intros (x & Hx & ->%Ascii.eqb_eq)%existsb_exists. by apply elem_of_list_In. Qed.
Lemma split_line s r : one_line s → splitlines (s +:+ String nl r) = s :: splitlines r.
Proof.
  induction s as [|c s IH]; intros Hs.
  { change ("" +:+ String nl r) with (String nl r). cbn [splitlines]. change (is_boundary nl) with true. cbn iota.
    rewrite (bool_decide_eq_false_2 (nl = ascii_of_N 13)) by done. cbn [andb]. by destruct r. }
  assert (Hc : is_boundary c = false).
  { destruct (is_boundary c) eqn:E; [|done]. exfalso. destruct (proj1 (lacks_cons _ _ _) (Hs c E)) as [Hc _]. by apply Hc. }
  change (String c s +:+ String nl r) with (String c (s +:+ String nl r)). cbn [splitlines]. rewrite Hc.
  rewrite IH; [done|]. intros d Hd. by destruct (proj1 (lacks_cons _ _ _) (Hs d Hd)).
Qed.
Lemma read_line s r : lacks nl s → readline (s +:+ String nl r) = (s +:+ String nl "", r).
Proof.
  induction s as [|c s IH]; [done|]. intros [Hc Hs]%lacks_cons. 
  change (readline (String c s +:+ String nl r)) with (if decide (c = nl) then (String c "", s +:+ String nl r)
    else let '(l, k) := readline (s +:+ String nl r) in (String c l, k)).
  rewrite decide_False by (intros ->; by apply Hc). by rewrite IH.
Qed.
Lemma line_lacks lits : lacks nl (lits_line lits).
Proof.
  apply lacks_app. split; [|by apply lit_lacks]. rewrite concat_str_join. apply join_lacks; [by apply lit_lacks|].
  apply Forall_fmap, Forall_forall. intros z _. by apply str_lacks.
Qed.
Lemma line_one lits : one_line (lits_line lits).
Proof.
  intros c Hc%boundary_in. apply lacks_app. split.
  - rewrite concat_str_join. apply join_lacks; [by apply lit_lacks; repeat (apply elem_of_cons in Hc as [->|Hc]; [done|]); apply elem_of_nil in Hc|].
    apply Forall_fmap, Forall_forall. intros z _. apply str_lacks. repeat (apply elem_of_cons in Hc as [->|Hc]; [done|]). by apply elem_of_nil in Hc.
  - apply lit_lacks. repeat (apply elem_of_cons in Hc as [->|Hc]; [done|]). by apply elem_of_nil in Hc.
Qed.
Lemma sat_one : one_line "SAT".
Proof. intros c Hc%boundary_in. apply lit_lacks. repeat (apply elem_of_cons in Hc as [->|Hc]; [done|]). by apply elem_of_nil in Hc. Qed.
Lemma rstrip_zero s : rstrip_s (s +:+ "0") = s +:+ "0".
Proof.
  induction s as [|c s IH]; [done|]. 
  change (rstrip_s (String c s +:+ "0")) with (if is_white c && bool_decide (rstrip_s (s +:+ "0") = "") then "" else String c (rstrip_s (s +:+ "0"))).
  rewrite IH. rewrite bool_decide_eq_false_2; [by rewrite andb_false_r|].
  by destruct s.
Qed.
Lemma lstrip_word w s : solid w → lstrip_s (w +:+ s) = w +:+ s.
Proof. intros [Hw Hc]. destruct w as [|c w]; [done|]. 
  change (lstrip_s (String c w +:+ s)) with (if is_white c then lstrip_s (w +:+ s) else String c w +:+ s). rewrite Hc; [done|left]. Qed.
Lemma line_strip lits : lits ≠ [] → strip_s (lits_line lits) = lits_line lits.
Proof.
  intros Hne. unfold strip_s. assert (lstrip_s (lits_line lits) = lits_line lits) as ->.
  { unfold lits_line. destruct lits as [|z lits]; [done|]. cbn [fmap list_fmap]. rewrite concat_str_join. cbn [str_join].
    destruct (numeral <$> lits); rewrite ?s_assoc; apply lstrip_word, numeral_solid. }
  unfold lits_line. change (" 0") with (" " +:+ "0"). rewrite <-s_assoc. apply rstrip_zero.
Qed.
Lemma substring_app x n k y : substring (String.length x + n) k (x +:+ y) = substring n k y.
Proof. induction x as [|c x IH]; [done|]. exact IH. Qed.
Lemma length_app x y : String.length (x +:+ y) = (String.length x + String.length y)%nat.
Proof. induction x as [|c x IH]; [done|]. exact (f_equal S IH). Qed.

Lemma answer_split lits : answer_text lits = "SAT" +:+ String nl (lits_line lits +:+ String nl "").
Proof. unfold answer_text, lits_line. by rewrite !s_assoc. Qed.
Lemma read_answer lits : lits ≠ [] → read_solution (answer_text lits) = Ok (Some lits).
Proof.
  intros Hne. unfold read_solution. rewrite answer_split. rewrite split_line by apply sat_one. rewrite split_line by apply line_one.
  cbn [splitlines fmap list_fmap]. rewrite line_strip by done. rewrite bool_decide_eq_true_2 by done.
  rewrite bool_decide_eq_true_2.
  2:{ unfold lits_line. rewrite length_app. cbn [String.length]. rewrite Nat.add_sub, <-(Nat.add_0_r (String.length _)). by rewrite substring_app. }
  cbn [andb]. assert (H := line_ints lits "" eq_refl). rewrite s_nil_r in H. by rewrite H.
Qed.
Lemma tools_answer lits : solution_to_package_strings (answer_text lits) = Ok lits.
Proof.
  unfold solution_to_package_strings. rewrite answer_split. rewrite read_line by (by apply lit_lacks).
  rewrite decide_True by done. rewrite read_line by apply line_lacks. cbn [fst]. by apply line_ints.
Qed.
Lemma read_unsat : read_solution ("UNSAT" +:+ newline) = Raise ValueError.
Proof. reflexivity. Qed.
