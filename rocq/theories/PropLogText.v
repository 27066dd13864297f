(** * Property C88: the texts of the decision log. *)
From Coq Require Import Ascii String.
From Verif Require Import LogTextProofs LogProofs PropLog DimacsProofs ExternalProofs.
Local Open Scope string_scope.
Local Open Scope list_scope.

(** Whenever the report can be made as data (C63), there is a text, and it says just that: the header, one line per reported
    decision with its number, marks, package and id, below it the changes, by name and version. *)
Theorem C88_text : ∀ po vstr items wa m suggestions log h ls,
  plain_pool po vstr → (∀ c, items c ≡ₚ map_to_list c) →
  log_report (name_of po) wa m suggestions log = Ok (h, ls) →
  ∃ text, log_report_text po vstr items wa m suggestions log = Ok text ∧ report_says po vstr text h ls.
Proof. intros po vstr items wa m sg log h ls Hpo Hi E. pose proof (report_cases po vstr items wa m Hpo Hi sg log) as H. by rewrite E in H. Qed.
(** Otherwise the same exception is raised: only unknown ids do that. *)
Theorem C88_raises : ∀ po vstr items wa m suggestions log e,
  plain_pool po vstr → (∀ c, items c ≡ₚ map_to_list c) →
  (log_report_text po vstr items wa m suggestions log = Raise e ↔ log_report (name_of po) wa m suggestions log = Raise e).
Proof.
  intros po vstr items wa m sg log e Hpo Hi. pose proof (report_cases po vstr items wa m Hpo Hi sg log) as H.
  destruct (log_report (name_of po) wa m sg log) as [[h ls]|e'].
  - destruct H as (t & -> & _). done.
  - rewrite H. split; by intros [= ->].
Qed.
(** For the log of a run the text exists. *)
Theorem C88_right_log : ∀ po vstr items m snaps answers suggestions log,
  plain_pool po vstr → (∀ c, items c ≡ₚ map_to_list c) →
  (∀ v, v ∈ answers → is_ok (id_to_package po (Z.abs v)) = true) →
  (∀ now k, now ∈ snaps → is_Some (now !! k) → is_ok (id_to_package po k) = true) →
  right_log snaps answers suggestions log →
  ∃ text header lines, log_report_text po vstr items true m suggestions log = Ok text ∧
    report_says po vstr text header lines ∧ log_report (name_of po) true m suggestions log = Ok (header, lines) ∧
    List.length lines = pred (List.length answers).
Proof.
  intros po vstr items m snaps answers sg log Hpo Hi Ha Hs HR.
  assert (Hn : ∀ k, is_ok (id_to_package po k) = true → is_ok (name_of po k) = true).
  { intros k. unfold name_of. by destruct (id_to_package po k). }
  destruct (C63_report (name_of po) m snaps answers sg log) as (h & ls & E & Hl & _); [by auto|intros now k H1 H2; apply Hn; by eapply Hs|done|].
  destruct (C88_text po vstr items true m sg log h ls Hpo Hi E) as (t & Ht & Hsays). by exists t, h, ls.
Qed.

(** The text can be read: two logs with the same text have the same header (up to the old values, which are not printed) and the same
    lines.  They may be logs of different runs, with different pools. *)
Theorem C88_readable : ∀ po po' vstr vstr' items items' wa m m' suggestions suggestions' log log' text h ls h' ls',
  plain_pool po vstr → plain_pool po' vstr' → (∀ c, items c ≡ₚ map_to_list c) → (∀ c, items' c ≡ₚ map_to_list c) →
  log ≠ [] → log' ≠ [] →
  log_report_text po vstr items wa m suggestions log = Ok text →
  log_report_text po' vstr' items' wa m' suggestions' log' = Ok text →
  log_report (name_of po) wa m suggestions log = Ok (h, ls) →
  log_report (name_of po') wa m' suggestions' log' = Ok (h', ls') →
  ls = ls' ∧ ∀ k b, (∃ old, default ∅ h !! k = Some (old, Some b)) ↔ (∃ old, default ∅ h' !! k = Some (old, Some b)).
Proof.
  intros po po' vstr vstr' items items' wa m m' sg sg' log log' text h ls h' ls' Hpo Hpo' Hi Hi' Hne Hne' T T' E E'.
  destruct (C88_text _ _ _ _ _ _ _ _ _ Hpo Hi E) as (t & Et & Hs). destruct (C88_text _ _ _ _ _ _ _ _ _ Hpo' Hi' E') as (t' & Et' & Hs').
  rewrite T in Et. rewrite T' in Et'. injection Et as <-. injection Et' as <-.
  assert (Hh : ∀ po m sg log h ls, log ≠ [] → log_report (name_of po) wa m sg log = Ok (h, ls) → (h = None ↔ wa = false)).
  { clear. intros po m sg log h ls Hne E. unfold log_report in E. destruct log as [|c log]; [done|]. destruct wa; cbn [mbind res_bind] in E.
    - destruct (known_keys (name_of po) c); [|done]. cbn [mbind res_bind] in E. destruct (report_lines _ _ _ _ _ _); [|done]. by injection E as <- <-.
    - destruct (report_lines _ _ _ _ _ _); [|done]. by injection E as <- <-. }
  destruct (report_says_inj _ _ _ _ _ _ _ _ _ (iff_trans (Hh _ _ _ _ _ _ Hne E) (iff_sym (Hh _ _ _ _ _ _ Hne' E'))) Hs Hs') as [Hv ->].
  split; [done|]. intros k b. assert (H : ∀ h : option changelog, (∃ old, default ∅ h !! k = Some (old, Some b)) ↔ new_values h !! k = Some b).
  { clear. intros h. unfold new_values. rewrite lookup_omap. change ((∃ old, default (∅ : changelog) h !! k = Some (old, Some b)) ↔ (default (∅ : changelog) h !! k) ≫= snd = Some b).
    destruct (default (∅ : changelog) h !! k) as [[o n]|]; cbn.
    - split; [by intros [old [= _ ->]]|intros ->; by eauto].
    - split; [by intros [old [=]]|done]. }
  by rewrite !H, Hv.
Qed.
(** What a line of the text determines. *)
Theorem C88_line : ∀ po vstr line i R I k po' vstr' i' R' I' k',
  decision_says po vstr line i R I k → decision_says po' vstr' line i' R' I' k' → i = i' ∧ R = R' ∧ I = I' ∧ k = k'.
Proof. intros. by eapply decision_inj. Qed.

(** The histogram: a line for every entry of the data (C63_histogram), in that order; an exception if a package is unknown. *)
Theorem C88_histogram : ∀ po vstr suggestions, plain_pool po vstr →
  match histogram_text po vstr suggestions with
  | Ok text => ∃ lines, text_lines text = (match lines with [] => [""] | _ => lines end) ∧
      Forall2 (count_says po vstr) lines (log_histogram suggestions)
  | Raise e => e = ValueError ∧ ∃ v, v ∈ suggestions ∧ is_ok (id_to_package po (Z.abs v)) = false
  end.
Proof.
  intros po vstr sg Hpo. destruct (histogram_cases po vstr Hpo sg) as [[(v & Hv & Hk) E]|[Hk (t & lines & E & Ht & HF)]]; rewrite E.
  - split; [done|]. exists v. split; [done|]. unfold known in Hk. by destruct (is_ok _).
  - exists lines. split; [exact Ht|exact HF].
Qed.
Theorem C88_histogram_readable : ∀ po vstr line kn po' vstr' kn',
  count_says po vstr line kn → count_says po' vstr' line kn' → kn = kn'.
Proof.
  intros po vstr line [k n] po' vstr' [k' n'] (ws & (a & b & c & ->)%names_len & E) (ws' & (a' & b' & c' & ->)%names_len & E').
  rewrite E in E'. cbn in E'. injection E' as _ _ Hk _ Hn. apply numeral_inj in Hk, Hn. f_equal; [done|lia].
Qed.

(** The columns: name and version take the first 30 characters if they fit, the id (of three digits) ends in column 34, the repository starts in column 36. *)
Theorem C88_columns : ∀ po vstr k p text, id_to_package po k = Ok p →
  (String.length (p_name p +:+ " " +:+ vstr (p_version p)) ≤ 30)%nat → (String.length (numeral k) ≤ 3)%nat →
  pretty_pkg_id po vstr k = Ok text →
  ∃ front, text = front +:+ default "installed" (p_repo p) ∧ String.length front = 35%nat ∧
    substring 0 (String.length (p_name p +:+ " " +:+ vstr (p_version p))) text = p_name p +:+ " " +:+ vstr (p_version p) ∧
    substring (34 - String.length (numeral k)) (String.length (numeral k)) text = numeral k.
Proof.
  intros po vstr k p text Hp Hn Hk. unfold pretty_pkg_id. rewrite Hp. cbn [mbind res_bind]. intros [= <-]. unfold ljust, rjust.
  change (str_of_Z k) with (numeral k). set (nv := p_name p +:+ " " +:+ vstr (p_version p)) in *. set (f := if decide _ then _ else _). set (repo := default _ _).
  assert (Hfill : ∀ n c, String.length (fill_str n c) = n) by (clear; intros n c; induction n as [|n IH]; cbn; [done|by rewrite IH]).
  exists (nv +:+ fill_str (30 - String.length nv) f +:+ " " +:+ fill_str (3 - String.length (numeral k)) " " +:+ numeral k +:+ " ").
  assert (Hsub : ∀ a b, substring 0 (String.length a) (a +:+ b) = a).
  { clear. intros a b. induction a as [|x a IH]; [by destruct b|]. change (String x (substring 0 (String.length a) (a +:+ b)) = String x a). by rewrite IH. }
  split; [by rewrite !s_assoc|]. split; [|split].
  - rewrite !length_app, !Hfill. cbn [String.length]. lia.
  - rewrite !s_assoc. apply Hsub.
  - set (a := nv +:+ fill_str (30 - String.length nv) f +:+ " " +:+ fill_str (3 - String.length (numeral k)) " ").
    assert (Ha : String.length a = (34 - String.length (numeral k))%nat) by (unfold a; rewrite !length_app, !Hfill; cbn [String.length]; lia).
    assert ((nv +:+ fill_str (30 - String.length nv) f) +:+ " " +:+ (fill_str (3 - String.length (numeral k)) " " +:+ numeral k) +:+ " " +:+ repo
      = a +:+ numeral k +:+ " " +:+ repo) as -> by (unfold a; by rewrite !s_assoc).
    rewrite <-Ha. rewrite <-(Nat.add_0_r (String.length a)). rewrite substring_app. apply Hsub.
Qed.

(** ** Examples *)
Definition lt_vstr (v : version) : string := str_of_Z (upstream v).
Definition lt_pool : pool :=
  match pool_of [[Pkg "numpy" (V 2 0) [] [] [] (Some "remote"); Pkg "numpy" (V 1 0) [] [] [] (Some "remote"); Pkg "mkl" (V 10 0) [] [] [] (Some "remote");
                  Pkg "six" (V 1 0) [] [] [] None; Pkg "gdata" (V 1 0) [] [] [] (Some "remote")]] None with
  | Ok po => po | Raise _ => pool_empty None end.
Definition one_word_b (s : string) : bool := negb (bool_decide (s = "")) && forallb (λ c, negb (is_white c)) (list_ascii_of_string s).
Lemma one_word_check s : one_word_b s = true → one_word s.
Proof.
  unfold one_word_b. rewrite andb_true_iff, negb_true_iff, bool_decide_eq_false, forallb_forall. intros [H1 H2]. split; [done|].
  intros c Hc. apply elem_of_list_In, H2 in Hc. by apply negb_true_iff in Hc.
Qed.
Lemma zdict_get_in (l : list (Z * package)) k p : zdict_get l k = Some p → (k, p) ∈ l.
Proof.
  induction l as [|[j q] l IH]; [done|]. cbn [zdict_get]. destruct (Z.eqb_spec j k) as [->|_]; [intros [= ->]; left|intros H; right; by apply IH].
Qed.
Lemma lt_plain : plain_pool lt_pool lt_vstr.
Proof.
  intros k p H. unfold id_to_package in H. destruct (zdict_get (po_i2p lt_pool) k) as [q|] eqn:E; [|done]. injection H as <-.
  apply zdict_get_in in E.
  assert (HF : forallb (λ kp : Z * package, one_word_b (p_name kp.2) && one_word_b (lt_vstr (p_version kp.2)) && one_word_b (default "installed" (p_repo kp.2)))
    (po_i2p lt_pool) = true) by (vm_compute; reflexivity).
  rewrite forallb_forall in HF. apply elem_of_list_In, HF in E. rewrite !andb_true_iff in E. destruct E as [[E1 E2] E3].
  split; [|split]; by apply one_word_check.
Qed.
Definition lt_items (c : changelog) : list (Z * (option bool * option bool)) := map_to_list c.
Definition lt_log : list changelog :=
  [{[5 := (None, Some true)]}; {[1 := (None, Some false); 2 := (None, Some true); 3 := (None, Some true)]}; {[3 := (Some true, None); 1 := (Some false, Some true)]}].
Definition lt_lines (l : list string) : string := str_join nl_str l.
Definition tb : string := tab_str.
Theorem C88_text_example :
  log_report_text lt_pool lt_vstr lt_items true (LogMeta [2] ∅) [2; -4; 3] lt_log = Ok (lt_lines
    ["gdata 1.......................   5 remote : True";
     "   0 R  - numpy 1                          2 remote";
     tb +:+ "None       - True       : mkl 10........................   3 remote";
     "   1    - six 1                            4 installed";
     tb +:+ "True       - None       : mkl 10........................   3 remote";
     tb +:+ "False      - True       : numpy 2.......................   1 remote";
     "BACKTRACKED";
     ""]) ∧
  histogram_text lt_pool lt_vstr [2; -2; 3] = Ok (lt_lines
    ["numpy 1                          2 remote     2"; "mkl 10........................   3 remote     1"]).
Proof. split; vm_compute; reflexivity. Qed.
(** The hypotheses of the theorems hold of it. *)
Theorem C88_example : plain_pool lt_pool lt_vstr ∧ (∀ c, lt_items c ≡ₚ map_to_list c) ∧ lt_log ≠ [] ∧
  is_ok (log_report (name_of lt_pool) true (LogMeta [2] ∅) [2; -4; 3] lt_log) = true.
Proof. split; [apply lt_plain|]. split; [done|]. split; [done|]. vm_compute. reflexivity. Qed.
(** The condition on the texts is needed: a repository name with line breaks can imitate other lines. *)
Theorem C88_readable_refuted : ∃ po po' log log' text h h',
  log_report_text po lt_vstr lt_items true log_meta_new [] log = Ok text ∧
  log_report_text po' lt_vstr lt_items true log_meta_new [] log' = Ok text ∧
  log_report (name_of po) true log_meta_new [] log = Ok (h, []) ∧ log_report (name_of po') true log_meta_new [] log' = Ok (h', []) ∧
  size (default ∅ h) = 2%nat ∧ size (default ∅ h') = 1%nat.
Proof.
  set (a := "a 1...........................   1 x"). set (b := "b 1                              2 y").
  exists (match pool_of [[Pkg "a" (V 1 0) [] [] [] (Some "x"); Pkg "b" (V 1 0) [] [] [] (Some "y")]] None with Ok po => po | Raise _ => pool_empty None end).
  exists (match pool_of [[Pkg "a" (V 1 0) [] [] [] (Some ("x : True" +:+ nl_str +:+ b))]] None with Ok po => po | Raise _ => pool_empty None end).
  exists [{[1 := (None, Some true); 2 := (None, Some true)]}], [{[1 := (None, Some true)]}].
  eexists _, _, _. split; [vm_compute; reflexivity|]. split; [vm_compute; reflexivity|]. split; [vm_compute; reflexivity|].
  split; [vm_compute; reflexivity|]. split; vm_compute; reflexivity.
Qed.

Print Assumptions C88_text. Print Assumptions C88_raises. Print Assumptions C88_right_log. Print Assumptions C88_readable. Print Assumptions C88_line.
Print Assumptions C88_histogram. Print Assumptions C88_histogram_readable. Print Assumptions C88_columns.
Print Assumptions C88_text_example. Print Assumptions C88_example. Print Assumptions C88_readable_refuted.
