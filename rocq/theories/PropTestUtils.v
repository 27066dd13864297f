(** * Property C91: packages and rules from a definition text. *)
From Coq Require Import Ascii String.
From Verif Require Import PropParser ReqProofs ScenarioProofs External ExternalProofs PropPretty PropScenario RepositoryProofs PropRules PropPool RulesMain PropExternal PropConstraints SpecInstall.
From Verif Require Export SpecTestUtils.
Open Scope list_scope.

(** ** Lines *)
Lemma boundary_iff c : is_boundary c = true ↔ c ∈ ends_line.
Proof.
  split; [intros H%boundary_in; exact H|]. intros H. unfold ends_line in H. cbn in H.
  repeat (apply elem_of_cons in H as [->|H]; [done|]). by apply elem_of_nil in H.
Qed.
Lemma split_cons c r : splitlines (String c r) =
  if is_boundary c then
    EmptyString :: match r with
          | String d r' => if bool_decide (c = carriage_return) && bool_decide (d = line_feed) then splitlines r' else splitlines r
          | EmptyString => []
          end
  else match splitlines r with [] => [String c EmptyString] | w :: ws => String c w :: ws end.
Proof. done. Qed.
Lemma lines_cons c r : text_lines (c :: r) =
  if is_boundary c then
    [] :: match r with
          | d :: r' => if bool_decide (c = carriage_return) && bool_decide (d = line_feed) then text_lines r' else text_lines r
          | [] => []
          end
  else match text_lines r with [] => [[c]] | w :: ws => (c :: w) :: ws end.
Proof.
  unfold text_lines. change (to_s (c :: r)) with (String c (to_s r)). rewrite split_cons. destruct (is_boundary c).
  - destruct r as [|d r]; [done|]. change (to_s (d :: r)) with (String d (to_s r)). cbn iota. destruct (_ && _); done.
  - destruct (splitlines (to_s r)); done.
Qed.
Lemma piece_cons c l : one_piece (c :: l) ↔ is_boundary c = false ∧ one_piece l.
Proof.
  split.
  - intros H. split; [|intros d Hd; apply H; by right]. destruct (is_boundary c) eqn:E; [|done]. apply boundary_iff in E.
    exfalso. apply (H c); [left|done].
  - intros [E H] d Hd Hb. apply boundary_iff in Hb. apply elem_of_cons in Hd as [->|Hd]; [congruence|]. apply (H d Hd). by apply boundary_iff.
Qed.
Lemma lines_whole l : one_piece l → l ≠ [] → text_lines l = [l].
Proof.
  induction l as [|c l IH]; [done|]. intros [Hc Hl]%piece_cons _. rewrite lines_cons, Hc. destruct l as [|d l]; [done|].
  by rewrite IH.
Qed.
Lemma lines_end l c t ls : one_piece l → text_lines (c :: t) = [] :: ls → text_lines (l ++ c :: t) = l :: ls.
Proof.
  intros Hl E. induction l as [|d l IH]; [done|]. apply piece_cons in Hl as [Hd Hl].
  rewrite <-app_comm_cons, lines_cons, Hd, IH by done. done.
Qed.
Lemma lines_of_said ls t : lines_say ls t → text_lines t = ls.
Proof.
  induction 1 as [|l Hl Hne|l ls t Hl H IH|l c ls t Hl Hc Hcr H IH].
  - done.
  - by apply lines_whole.
  - apply lines_end; [done|]. rewrite lines_cons. change (is_boundary carriage_return) with true. cbn iota.
    rewrite !bool_decide_eq_true_2 by done. cbn [andb]. by rewrite IH.
  - apply lines_end; [done|]. rewrite lines_cons. apply boundary_iff in Hc. rewrite Hc. destruct t as [|d t]; [by rewrite <-IH|].
    case_bool_decide as E1; case_bool_decide as E2; cbn [andb]; try (by rewrite IH). subst. exfalso. by eapply (Hcr eq_refl).
Qed.
Lemma lines_exist t : lines_say (text_lines t) t.
Proof.
  assert (H : ∀ n t, (List.length t ≤ n)%nat → lines_say (text_lines t) t); [|by eapply H].
  clear t. intros n. induction n as [|n IH]; intros t Hn.
  { destruct t; [constructor|cbn in Hn; lia]. }
  destruct t as [|c r]; [constructor|]. cbn in Hn. rewrite lines_cons. destruct (is_boundary c) eqn:E.
  - apply boundary_iff in E. destruct r as [|d r]; [apply (ls_one [] c [] []); [by intros ? ?%elem_of_nil|done|done|constructor]|].
    case_bool_decide as E1; case_bool_decide as E2; cbn [andb].
    + subst. apply (ls_both []); [by intros ? ?%elem_of_nil|]. apply IH. cbn in Hn. lia.
    + apply (ls_one []); [by intros ? ?%elem_of_nil|done|by intros _ ? [= ? _]|]. apply IH. lia.
    + apply (ls_one []); [by intros ? ?%elem_of_nil|done|done|]. apply IH. lia.
    + apply (ls_one []); [by intros ? ?%elem_of_nil|done|done|]. apply IH. lia.
  - assert (H1 : one_piece [c]) by (apply piece_cons; split; [done|by intros ? ?%elem_of_nil]).
    specialize (IH r ltac:(lia)). inversion IH as [E1 E2|l Hl Hne E1 E2|l ls t Hl H E1 E2|l d ls t Hl Hd Hcr H E1 E2].
    + by apply ls_last.
    + apply ls_last; [|done]. by apply piece_cons.
    + apply (ls_both (c :: l)); [by apply piece_cons|done].
    + apply (ls_one (c :: l)); [by apply piece_cons|done|done|done].
Qed.
(** Every text has its lines, and only one way. *)
Theorem C91_lines : ∀ t, ∃ ls, lines_say ls t ∧ ∀ ls', lines_say ls' t → ls' = ls.
Proof. intros t. exists (text_lines t). split; [apply lines_exist|]. intros ls' H%lines_of_said. done. Qed.

(** ** Packages *)
Lemma blank_strip t : strip t = [] ↔ blank t.
Proof.
  destruct (strip_spec t) as (b & b' & E & Hb & Hb'). split.
  - intros H. rewrite H in E. rewrite E. by apply Forall_app.
  - intros H. assert (X := strip_trimmed t [] [] H ltac:(constructor)). rewrite !app_nil_r in X. apply X. split; by intros ? ?.
Qed.
Lemma parse_strip vparse l : parse_to_package vparse (strip l) = parse_to_package vparse l.
Proof. unfold parse_to_package, parse_pretty. by rewrite strip_idem. Qed.
Lemma filter_blank (ls : list text) : filter (λ line, strip line ≠ []) ls = filter (λ l, ¬ blank l) ls.
Proof. apply list_filter_iff. intros l. by rewrite blank_strip. Qed.
(** The text is read exactly if every line that is not blank describes a package, and these are the packages, in the order of the lines. *)
Theorem C91_packages : ∀ vparse t ms, packages_from_definition vparse t = Ok ms ↔ defines vparse t ms.
Proof.
  intros vparse t ms. unfold packages_from_definition, defines. rewrite mapM_res_iff, filter_blank.
  assert (Hf : ∀ ls, Forall2 (λ x y, parse_to_package vparse (strip x) = Ok y) ls ms ↔ Forall2 (λ l m, parse_to_package vparse l = Ok m) ls ms).
  { intros ls. apply Forall2_iff. intros x y. by rewrite parse_strip. }
  rewrite Hf. split.
  - intros H. exists (text_lines t). split; [apply lines_exist|done].
  - intros (ls & Hl%lines_of_said & H). by rewrite Hl.
Qed.
Theorem C91_errors : ∀ vparse t e, packages_from_definition vparse t = Raise e → e = ValueError ∨ ∃ s, vparse s = Raise e.
Proof. intros vparse t e (x & H)%mapM_res_err. by apply C61_errors in H. Qed.
(** The printed forms of packages, one in each line, are read back. *)
Lemma parsed_not_blank vparse l m : parse_to_package vparse l = Ok m → ¬ blank l.
Proof.
  intros H%C61_preamble Hb. destruct H as (b & pre & rest & n & v & -> & _ & _ & _ & Hp & _).
  destruct (preamble_chars _ _ _ Hp) as (_ & [Ht _] & Hne). destruct pre as [|c pre]; [done|].
  apply Forall_app in Hb as [_ Hb]. apply Forall_app in Hb as [Hb _]. apply Forall_cons in Hb as [Hc _].
  rewrite (Ht c pre eq_refl) in Hc. done.
Qed.
Lemma joined_lines ss : Forall one_piece ss → (∀ s, last ss = Some s → s ≠ []) → lines_say ss (text_join [line_feed] ss).
Proof.
  induction ss as [|s ss IH]; intros Hs Hl; [constructor|]. apply Forall_cons in Hs as [Hs Hss].
  destruct ss as [|s' ss]; [apply ls_last; [done|by apply Hl]|].
  change (text_join [line_feed] (s :: s' :: ss)) with (s ++ [line_feed] ++ text_join [line_feed] (s' :: ss)). cbn [app].
  apply ls_one; [done|by left|done|]. apply IH; [done|]. intros x Hx. apply Hl. by rewrite last_cons_cons.
Qed.
Theorem C91_round_trip : ∀ vparse vstr ps ss,
  (∀ p, p ∈ ps → canonical p ∧ version_text (vstr (mt_version p)) ∧ vparse (vstr (mt_version p)) = Ok (mt_version p)) →
  Forall2 (λ p s, package_to_pretty_string vstr p = Ok s ∧ one_piece s) ps ss →
  packages_from_definition vparse (text_join [line_feed] ss) = Ok ps.
Proof.
  intros vparse vstr ps ss Hp HF.
  assert (HF' : Forall2 (λ l m, parse_to_package vparse l = Ok m) ss ps).
  { induction HF as [|p s ps ss [Hs Ho] HF IH]; [constructor|]. constructor; [|apply IH; intros q Hq; apply Hp; by right].
    destruct (Hp p) as (H1 & H2 & H3); [left|]. destruct (C61_round_trip vparse vstr p H1 H2 H3) as (s' & Hs' & E). congruence. }
  assert (Hb : Forall (λ s, ¬ blank s) ss).
  { clear -HF'. induction HF' as [|s p ss ps H HF IH]; constructor; [|done]. by eapply parsed_not_blank. }
  apply C91_packages. exists ss. split.
  - apply joined_lines.
    + clear -HF. induction HF as [|p s ps ss [_ Ho] _ IH]; by constructor.
    + intros s Hs ->. rewrite Forall_forall in Hb. apply (Hb []); [by apply last_Some_elem_of|constructor].
  - assert (filter (λ l : text, ¬ blank l) ss = ss) as ->; [|done]. clear -Hb. induction Hb as [|s ss H _ IH]; [done|].
    by rewrite filter_cons_True, IH.
Qed.

(** ** Rules *)
Lemma bare_spec vparse m p : bare_package vparse m = Ok p ↔ package_meant vparse m p.
Proof.
  unfold bare_package, package_meant. rewrite bind_ok. split.
  - intros (q & (H1 & H2 & H3 & H4 & H5 & _)%package_of_spec & [= <-]). done.
  - intros (H1 & H2 & H3 & H4 & H5 & H6). exists (Pkg (p_name p) (p_version p) (p_requires p) (p_conflicts p) (p_provides p) (Some "")).
    split; [by apply package_of_spec|]. destruct p; cbn in *. by subst.
Qed.
Lemma meant_name vparse t ms l : defines vparse t ms → Forall2 (package_meant vparse) ms l → ∀ p, p ∈ l → dist_name (of_s (p_name p)).
Proof.
  intros (ls & _ & HF) Hm p Hp. apply elem_of_list_lookup in Hp as (i & Hp).
  destruct (Forall2_lookup_r _ _ _ _ _ Hm Hp) as (m & Hi & Hn & _). destruct (Forall2_lookup_r _ _ _ _ _ HF Hi) as (s & _ & Hs).
  apply C61_preamble in Hs as (b & pre & rest & n & v & _ & _ & _ & _ & (sp & _ & Hd & _) & E & _). by rewrite Hn, E, of_to_s.
Qed.
(** The repository has exactly the packages of the text, and the pool is about this repository. *)
Theorem C91_repository : ∀ vparse t po r, pool_and_repository_from_packages vparse t = Ok (po, r) →
  pool_of [repo_iter r] None = Ok po ∧
  ∃ ms l, defines vparse t ms ∧ Forall2 (package_meant vparse) ms l ∧ repo_iter r ≡ₚ l.
Proof.
  intros vparse t po r (ms & Hms & (ps & Hps & (po' & Hpo & [= <- <-])%mbind_ok)%mbind_ok)%mbind_ok. split; [done|].
  exists ms, ps. split; [by apply C91_packages|]. split; [|apply repo_iter_perm].
  eapply Forall2_impl; [by apply mapM_res_iff|]. intros m p. apply bare_spec.
Qed.
(** The rules generated for a requirement can be satisfied exactly if it can be installed, out of the packages of the text and with nothing
    installed before.  (No two lines describe different packages that count as equal.) *)
Theorem C91_rules : ∀ vparse t po r fuel rq rules, pool_and_repository_from_packages vparse t = Ok (po, r) →
  requirement_rules po fuel rq = Ok rules →
  (∀ p q, p ∈ repo_iter r → q ∈ repo_iter r → pkg_key p = pkg_key q → p = q) →
  satisfiable (ru_lits <$> rules) ↔ ∃ S, valid (repo_iter r) [] no_mods [Job (Some rq) JInstall] S.
Proof.
  intros vparse t po r fuel rq rules Hp Hg Hk. destruct (C91_repository _ _ _ _ Hp) as (Hpo & ms & l & Hd & Hm & Hl).
  assert (WF : well_formed (mjoin [repo_iter r])).
  { cbn. rewrite app_nil_r. split; [done|]. intros p Hin. rewrite Hl in Hin. by eapply meant_name. }
  apply mbind_ok in Hg as (q & [= <-] & (st & Hst & [= <-])%mbind_ok). cbn in Hst.
  assert (G : generates [repo_iter r] None [] false fuel [Job (Some rq) JInstall] po st).
  { split; [done|]. split; [by intros p ?%elem_of_nil|]. by exists []. }
  cbn in WF, G. split.
  - intros (f & Hf). destruct (C19_consistent _ _ _ _ _ _ _ _ f G WF Hf) as (_ & _ & V). cbn in V. rewrite app_nil_r in V. eauto.
  - intros HS. destruct (C87_tools _ _ _ _ _ _ _ _ _ G WF C87_solver_exists) as [(_ & _ & k & _ & SN)|(_ & Hn & _)]; [by eapply solution_sat|].
    exfalso. apply Hn. cbn. by rewrite app_nil_r.
Qed.
(** The helper for this never works. *)
Theorem C91_helper_refuted : ∀ po r installed, generate_rules_for_requirement po r installed = Raise TypeError.
Proof. done. Qed.

(** ** A text, its packages and its rules *)
Definition ex_text : text := of_s "  MKL 1.0-3" ++ [carriage_return; line_feed] ++ [line_feed] ++ of_s "   " ++ [line_feed] ++
  of_s "numpy 1.0; depends (MKL)  " ++ [ascii_of_nat 12] ++ of_s "numpy 2.0; depends (MKL, nose)".
Definition ex_asked (n : string) : requirement := Req RBase n [CAny].
Theorem C91_example :
  lines_say [of_s "  MKL 1.0-3"; []; of_s "   "; of_s "numpy 1.0; depends (MKL)  "; of_s "numpy 2.0; depends (MKL, nose)"] ex_text ∧
  defines ex_vparse ex_text [Meta "MKL" (V 10 3) [] [] []; Meta "numpy" (V 10 0) [("MKL", [[[]]])] [] [];
    Meta "numpy" (V 20 0) [("MKL", [[[]]]); ("nose", [[[]]])] [] []] ∧
  ∃ po r rules, pool_and_repository_from_packages ex_vparse ex_text = Ok (po, r) ∧
    requirement_rules po 60 (ex_asked "numpy") = Ok rules ∧
    ru_lits <$> rules = [[-2; 1]; [-3; -2]; [-3; 1]; [-3]; [2; 3]] ∧
    ∀ p q, p ∈ repo_iter r → q ∈ repo_iter r → pkg_key p = pkg_key q → p = q.
Proof.
  split; [|split].
  - assert (E : text_lines ex_text = [of_s "  MKL 1.0-3"; []; of_s "   "; of_s "numpy 1.0; depends (MKL)  "; of_s "numpy 2.0; depends (MKL, nose)"]) by reflexivity.
    rewrite <-E. apply lines_exist.
  - apply C91_packages. vm_compute. reflexivity.
  - eexists _, _, _. split; [vm_compute; reflexivity|]. split; [vm_compute; reflexivity|]. split; [vm_compute; reflexivity|].
    vm_compute. intros p q Hp Hq.
    repeat (apply elem_of_cons in Hp as [->|Hp]; [|]); try (by apply elem_of_nil in Hp);
    repeat (apply elem_of_cons in Hq as [->|Hq]; [|]); try (by apply elem_of_nil in Hq); try done.
Qed.
Print Assumptions C91_lines. Print Assumptions C91_packages. Print Assumptions C91_errors. Print Assumptions C91_round_trip. Print Assumptions C91_repository. Print Assumptions C91_rules. Print Assumptions C91_helper_refuted. Print Assumptions C91_example.
