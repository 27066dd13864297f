(** * Strings (C54, C55, C56). *)
From Verif Require Import ReqProofs.
From Coq Require Import Ascii String.
Open Scope list_scope.

(** ** C54: package full names *)
Theorem C54_full_name s n v : parse_package_full_name s = Ok (n, v) ↔ full_name_of s n v.
Proof. apply parse_full_name_spec. Qed.
Theorem C54_full_name_error s : (∀ n v, ¬ full_name_of s n v) → parse_package_full_name s = Raise SolverException.
Proof. apply parse_full_name_else. Qed.
Theorem C54_package_string vparse cls n v w : dist_name n → version_text v → vparse v = Ok w →
  from_package_string vparse cls (n ++ "-"%char :: v) = Ok (Req cls (to_s n) [CEqual w]).
Proof.
  intros Hn Hv Hw. unfold from_package_string.
  assert (E : parse_package_full_name (n ++ "-"%char :: v) = Ok (n, v)); [|rewrite E, ok_bind, Hw; done].
  apply parse_full_name_spec. exists ["-"%char], []. rewrite app_nil_r. auto 10.
Qed.

(** Names and versions can be checked by running the matchers. *)
Lemma version_by t : bool_decide ((rev t, []) ∈ r_version ([], t)) = true → version_text t.
Proof.
  intros H%bool_decide_eq_true. apply version_spec in H as (w & Hw & E & _). cbn in E. rewrite app_nil_r in E. by subst.
Qed.
Theorem C54_example : full_name_of (of_s "numpy-1.8.1-1") (of_s "numpy") (of_s "1.8.1-1") ∧
  ∀ n v, full_name_of (of_s "numpy-1.8.1-1") n v → n = of_s "numpy" ∧ v = of_s "1.8.1-1".
Proof.
  assert (H : full_name_of (of_s "numpy-1.8.1-1") (of_s "numpy") (of_s "1.8.1-1")).
  { apply parse_full_name_spec. vm_compute. done. }
  split; [done|]. intros n v H'. destruct (full_name_unique _ _ _ _ _ H H') as [-> ->]. done.
Qed.
(** A package whose name contains "-": its full name is misread as another package's, or rejected. *)
Theorem C54_dash_refuted :
  ¬ (∀ n v, Forall (λ c, is_word c = true ∨ c = "-"%char ∨ c = "."%char) n → n ≠ [] → version_text v →
      parse_package_full_name (n ++ "-"%char :: v) = Ok (n, v)) ∧
  parse_package_full_name (of_s "a-1-2") = Ok (of_s "a", of_s "1-2") ∧
  parse_package_full_name (of_s "numpy-nomkl-1.0") = Raise SolverException.
Proof.
  split; [|split; vm_compute; reflexivity]. intros H.
  specialize (H (of_s "a-1") (of_s "2")).
  assert (E : parse_package_full_name (of_s "a-1-2") = Ok (of_s "a-1", of_s "2")).
  { apply H; [|done|by apply version_by]. repeat constructor; (left; reflexivity) || (right; left; reflexivity). }
  vm_compute in E. done.
Qed.

(** ** C55: requirement strings *)
Theorem C55_requirement_string vparse cls s r : req_from_string vparse cls s = Ok r ↔
  ∃ n cs, r = Req cls (to_s n) cs ∧ requirement_text vparse n cs s.
Proof. apply req_from_string_spec. Qed.

(** A bare name asks for any version. *)
Theorem C55_bare_name vparse cls name : dist_name (of_s name) →
  req_from_string vparse cls (of_s name) = Ok (req_of_name cls name).
Proof. apply bare_name_ok. Qed.
(** "name == version", as [Request.upgrade] writes it. *)
Theorem C55_exact vparse cls name v w : dist_name (of_s name) → version_text v → vparse v = Ok w →
  req_from_string vparse cls (of_s name ++ of_s " == " ++ v) = Ok (Req cls name [CEqual w]).
Proof.
  intros Hn Hv Hw. apply req_from_string_spec. exists (of_s name), [CEqual w]. rewrite to_of_s. split; [done|]. split; [done|].
  exists [of_s name ++ of_s " == " ++ v]. split; [done|].
  assert (H := parts_one (req_part vparse (of_s name)) [] (CEqual w) (of_s name ++ of_s " " ++ op_text OEqual ++ of_s " " ++ v) [] [] []).
  cbn [app] in H. rewrite app_nil_r in H. apply H; [constructor| |constructor|constructor].
  apply (part_op vparse (of_s name) (of_s " ") OEqual (of_s " ") w v); try done; repeat constructor.
Qed.

(** ** Printing and reading back *)
Section printed.
  Context (vparse : text → res version) (vstr ustr : version → text).
  (** What a constraint becomes when it is printed and read back. *)
  Definition again (c : constr) : constr :=
    match c with
    | CUpstream v => match vparse (ustr v) with Ok w => CUpstream w | Raise _ => c end
    | _ => c
    end.
  Lemma again_matches c v : reads_back vparse vstr ustr c → cmatches (again c) v = cmatches c v.
  Proof. destruct c as [| | | | | | |u]; try done. cbn. intros (_ & w & -> & E). cbn. by rewrite E. Qed.
  Lemma again_multi cs v : Forall (reads_back vparse vstr ustr) cs → multi_matches (again <$> cs) v = multi_matches cs v.
  Proof. induction 1 as [|c cs Hc _ IH]; [done|]. cbn. rewrite (again_matches c v Hc), IH. done. Qed.
  (** The text of a constraint is an operator, a space and a version. *)
  Lemma constr_op c : reads_back vparse vstr ustr c → c ≠ CAny →
    ∃ o t w, constr_str vstr ustr c = op_text o ++ of_s " " ++ t ∧ version_text t ∧ vparse t = Ok w ∧ again c = cmp_constr o w.
  Proof.
    destruct c as [|v|v|v|v|v|v|v]; intros H Hc; [done|..]; cbn in H.
    1: exists OEqual. 2: exists ONot. 3: exists OGeq. 4: exists OGt. 5: exists OLeq. 6: exists OLt.
    1-6: destruct H as [H1 H2]; exists (vstr v), v; done.
    destruct H as (H1 & w & H2 & H3). exists OUpstream, (ustr v), w. cbn. by rewrite H2.
  Qed.
  Lemma again_any c : again c = CAny → c = CAny.
  Proof. destruct c; try done. cbn. by destruct (vparse _). Qed.
  Lemma constr_text c : reads_back vparse vstr ustr c →
    constraint_text vparse [again c] (match c with CAny => of_s "*" | _ => constr_str vstr ustr c end).
  Proof.
    intros H.
    assert (Hp : constr_part vparse (again c) (match c with CAny => of_s "*" | _ => constr_str vstr ustr c end)).
    { destruct (decide (c = CAny)) as [->|Hc]; [constructor|].
      destruct (constr_op c H Hc) as (o & t & w & E & Ht & Hw & ->).
      assert (E' : match c with CAny => of_s "*" | _ => constr_str vstr ustr c end = op_text o ++ of_s " " ++ t) by (by destruct c).
      rewrite E'. apply cpart_op; [repeat constructor|done|done]. }
    right. destruct (cpart_solid _ _ _ Hp) as ([Hs _] & Hne & _). split.
    - intros Hb. destruct (match c with CAny => of_s "*" | _ => constr_str vstr ustr c end) as [|x t]; [done|].
      apply Forall_cons in Hb as [Hb _]. by rewrite (Hs x t eq_refl) in Hb.
    - eexists [_]. split; [reflexivity|].
      assert (HH := parts_one (constr_part vparse) [] (again c) _ [] [] [] ltac:(constructor) Hp ltac:(constructor) ltac:(constructor)).
      cbn [app] in HH. rewrite app_nil_r in HH. exact HH.
  Qed.
End printed.

(** ** C56: the constraint strings of package metadata *)
Theorem C56_constraint_string vparse s cs : parse_constraints vparse s = Ok cs ↔ constraint_text vparse cs s.
Proof. apply parse_constraints_spec. Qed.

(** [from_constraints] is what the rest of the model has, applied to what the strings say. *)
Theorem C56_metadata vparse cls name strs r :
  from_constraint_strings vparse cls (name, strs) = Ok r ↔
  ∃ says, metadata_says vparse strs says ∧ from_constraints cls (name, says) = Ok r.
Proof.
  unfold from_constraint_strings, from_constraints, metadata_says.
  assert (Hlen : ∀ says, Forall2 (Forall2 (λ s cs, constraint_text vparse cs s)) strs says → List.length says = List.length strs).
  { intros says H. symmetry. by eapply Forall2_length. }
  destruct (1 <? List.length strs)%nat eqn:El.
  { split; [done|]. intros (says & H & E). unfold cstr in E. rewrite (Hlen says H), El in E. done. }
  assert (Hstar : parse_constraints vparse (of_s "*") = Ok [CAny]) by (vm_compute; done).
  destruct strs as [|conj [|conj' strs]]; [| |done].
  - cbn. split.
    + intros [= <-]. exists []. split; [constructor|done].
    + intros (says & H & E). inversion H; subst. done.
  - cbn [fmap list_fmap mjoin list_join]. rewrite app_nil_r.
    set (conj1 := match conj with [] => [of_s "*"] | _ => conj end).
    assert (Hc : ∀ l, mapM_res (parse_constraints vparse) conj = Ok l → mapM_res (parse_constraints vparse) conj1 = Ok (insert_star l)).
    { intros l H. destruct conj as [|x conj].
      - cbn [mapM_res] in H. injection H as <-. subst conj1. cbn [mapM_res]. rewrite Hstar. done.
      - apply mapM_res_ok in H as H'. inversion H' as [|? y ? ys]; subst. exact H. }
    assert (Hf : ∀ l, Forall2 (λ s cs, constraint_text vparse cs s) conj l ↔ mapM_res (parse_constraints vparse) conj = Ok l).
    { intros l. rewrite mapM_res_ok. split; intros H; (eapply Forall2_impl; [exact H|]); intros ? ?; by rewrite parse_constraints_spec. }
    split.
    + intros H. destruct (mapM_res (parse_constraints vparse) conj) as [l|e] eqn:E.
      * rewrite (Hc l eq_refl) in H. rewrite ok_bind in H. injection H as <-. exists [l].
        split; [constructor; [by apply Hf|constructor]|]. cbn. by rewrite app_nil_r.
      * exfalso. destruct conj as [|x conj]; [done|]. subst conj1. rewrite E in H. done.
    + intros (says & H & E). inversion H as [|? l ? ? H1 H2]; subst. inversion H2; subst.
      apply Hf in H1. rewrite (Hc l H1), ok_bind. cbn in E. rewrite app_nil_r in E. done.
Qed.
(** Printing a requirement as metadata and reading it back gives a requirement that matches the same versions, and
    the same requirement unless it had no constraints at all or "^=" lost a build number. *)
Theorem C56_round_trip vparse vstr ustr cls r : Forall (reads_back vparse vstr ustr) (r_cons r) →
  ∃ cs, from_constraint_strings vparse cls (to_constraint_strings vstr ustr r) = Ok (Req cls (r_name r) cs) ∧
    (∀ v, multi_matches cs v = req_matches r v) ∧
    (r_cons r ≠ [] → (∀ v, CUpstream v ∈ r_cons r → vparse (ustr v) = Ok v) → cs = r_cons r).
Proof.
  intros H. set (cs0 := again vparse ustr <$> r_cons r).
  exists (match cs0 with [] => [CAny] | _ => cs0 end). split; [|split].
  - apply C56_metadata. exists [(λ c, [again vparse ustr c]) <$> r_cons r]. split.
    + constructor; [|constructor]. clear cs0. induction H as [|c cs Hc H IH]; cbn; [constructor|].
      constructor; [|exact IH]. by apply constr_text.
    + cbn. f_equal. f_equal. rewrite app_nil_r. unfold cs0. destruct (r_cons r) as [|c cs]; [done|]. cbn. f_equal.
      clear. induction cs as [|c cs IH]; [done|]. cbn. f_equal. exact IH.
  - intros v. unfold req_matches. rewrite <-(again_multi vparse vstr ustr (r_cons r) v H). fold cs0. by destruct cs0.
  - intros Hne Hu. assert (E : cs0 = r_cons r); [|rewrite E; by destruct (r_cons r)].
    unfold cs0. clear -Hu. induction (r_cons r) as [|c cs IH]; [done|]. cbn. f_equal.
    + destruct c as [| | | | | | |u]; try done. cbn. rewrite (Hu u); [done|]. by left.
    + apply IH. intros v Hv. apply Hu. by right.
Qed.

(** ** C55: printing a requirement and reading it back *)

Lemma constr_ne_star vp vstr ustr c : reads_back vp vstr ustr c → c ≠ CAny → constr_str vstr ustr c ≠ of_s "*".
Proof. intros H Hc E. destruct (constr_op vp vstr ustr c H Hc) as (o & t & w & E' & _). rewrite E in E'. by destruct o. Qed.
Lemma str_parts vp vstr ustr cs : Forall (reads_back vp vstr ustr) cs →
  filter (λ t, t ≠ of_s "*") ((λ c, match c with CAny => of_s "*" | _ => constr_str vstr ustr c end) <$> cs) =
  constr_str vstr ustr <$> List.filter (λ c, match c with CAny => false | _ => true end) cs.
Proof.
  induction 1 as [|c cs Hc H IH]; [done|]. rewrite fmap_cons. destruct (decide (c = CAny)) as [->|Hn].
  - rewrite filter_cons_False by (intros Hx; by apply Hx). exact IH.
  - rewrite filter_cons_True.
    + rewrite IH. destruct c; done.
    + destruct c; try done; by apply (constr_ne_star vp).
Qed.
(** A requirement with at most one version constraint reads back, as one that matches the same versions. *)
Theorem C55_round_trip vparse vstr ustr cls r : dist_name (of_s (r_name r)) →
  Forall (reads_back vparse vstr ustr) (r_cons r) → (version_constraints (r_cons r) ≤ 1)%nat →
  ∃ cs, req_from_string vparse cls (requirement_str vstr ustr r) = Ok (Req cls (r_name r) cs) ∧
    ∀ v, multi_matches cs v = req_matches r v.
Proof.
  intros Hn H Hle. unfold requirement_str. rewrite (str_parts vparse vstr ustr (r_cons r) H).
  unfold version_constraints in Hle.
  set (nz := List.filter (λ c, match c with CAny => false | _ => true end) (r_cons r)) in *.
  assert (Hm : ∀ v, multi_matches nz v = req_matches r v).
  { intros v. unfold req_matches. subst nz. clear. induction (r_cons r) as [|c cs IH]; [done|]. cbn. destruct c; cbn; rewrite ?IH; done. }
  assert (Hr : Forall (reads_back vparse vstr ustr) nz ∧ CAny ∉ nz).
  { subst nz. clear Hm Hle. induction H as [|c cs Hc H [IH1 IH2]]; [split; [constructor|apply not_elem_of_nil]|]. cbn.
    destruct c; try (split; [by constructor|by apply not_elem_of_cons]). done. }
  destruct nz as [|c [|c' nz]]; [| |cbn in Hle; lia].
  - exists [CAny]. split; [by apply C55_bare_name|]. intros v. by rewrite <-Hm.
  - destruct Hr as [Hr Hc]. apply Forall_cons in Hr as [Hr _].
    assert (Hc' : c ≠ CAny) by (intros ->; apply Hc; by left).
    destruct (constr_op vparse vstr ustr c Hr Hc') as (o & t & w & E & Ht & Hw & Ea).
    exists [again vparse ustr c]. split.
    + cbn [fmap list_fmap text_join]. apply req_from_string_spec. exists (of_s (r_name r)), [again vparse ustr c].
      rewrite to_of_s. split; [done|]. split; [done|]. eexists [_]. split; [reflexivity|].
      assert (HH := parts_one (req_part vparse (of_s (r_name r))) [] (again vparse ustr c)
        (of_s (r_name r) ++ of_s " " ++ constr_str vstr ustr c) [] [] []). cbn [app] in HH. rewrite !app_nil_r in HH.
      apply HH; [constructor| |constructor|constructor]. rewrite Ea, E.
      apply (part_op vparse _ (of_s " ") o (of_s " ") w t); try done; repeat constructor.
    + intros v. rewrite <-Hm. cbn. by rewrite (again_matches vparse vstr ustr c v Hr).
Qed.

Lemma scan_op lx o t : lex_ok lx → version_text t →
  scan lx (op_text o ++ of_s " " ++ t) = ([TCmp o (op_text o); TVersion t], []).
Proof.
  intros Hlx Ht. apply scan_scans.
  refine (scans_step _ _ (op_text o) _ (Some (TCmp o (op_text o))) _ (op_ne o) _ _).
  { by apply step_op. }
  apply scans_ws; [done|by repeat constructor|intros c0 r0 E; by destruct (version_not_space t Ht _ _ E)|].
  by apply scans_version.
Qed.
Lemma join_commas t l : text_join (of_s ", ") (t :: l) = commas (t :: ((λ x, " "%char :: x) <$> l)).
Proof. revert t. induction l as [|x l IH]; intros t; [done|]. change (text_join (of_s ", ") (t :: x :: l)) with (t ++ of_s ", " ++ text_join (of_s ", ") (x :: l)). rewrite IH. destruct l as [|y l]; done. Qed.
(** With two or more version constraints it never does: the printed form omits the name in the later parts, and is refused. *)
Theorem C55_round_trip_many vparse vstr ustr cls r : dist_name (of_s (r_name r)) →
  Forall (reads_back vparse vstr ustr) (r_cons r) → (2 ≤ version_constraints (r_cons r))%nat →
  req_from_string vparse cls (requirement_str vstr ustr r) = Raise InvalidConstraint.
Proof.
  intros Hn H Hle. unfold requirement_str. rewrite (str_parts vparse vstr ustr (r_cons r) H).
  unfold version_constraints in Hle.
  set (nz := List.filter (λ c, match c with CAny => false | _ => true end) (r_cons r)) in *.
  assert (Hr : Forall (λ c, reads_back vparse vstr ustr c ∧ c ≠ CAny) nz).
  { subst nz. clear Hle. induction H as [|c cs Hc H IH]; [constructor|]. cbn.
    destruct c; try done; by constructor. }
  destruct nz as [|c1 [|c2 nz]]; [cbn in Hle; lia|cbn in Hle; lia|]. clear Hle.
  assert (Hop : ∀ c, reads_back vparse vstr ustr c ∧ c ≠ CAny → ∃ o t w, constr_str vstr ustr c = op_text o ++ of_s " " ++ t ∧
    version_text t ∧ vparse t = Ok w).
  { intros c [Hc Hne]. destruct (constr_op vparse vstr ustr c Hc Hne) as (o & t & w & E & Ht & Hw & _). by exists o, t, w. }
  apply Forall_cons in Hr as [H1 Hr]. apply Forall_cons in Hr as [H2 Hr].
  destruct (Hop c1 H1) as (o1 & t1 & w1 & E1 & Ht1 & Hw1). destruct (Hop c2 H2) as (o2 & t2 & w2 & E2 & Ht2 & Hw2).
  set (name := of_s (r_name r)) in *.
  cbn [fmap list_fmap].
  set (p1 := name ++ of_s " " ++ op_text o1 ++ of_s " " ++ t1).
  set (p2 := op_text o2 ++ of_s " " ++ t2).
  assert (Es : name ++ of_s " " ++ text_join (of_s ", ") (constr_str vstr ustr c1 :: constr_str vstr ustr c2 :: (constr_str vstr ustr <$> nz)) =
    commas (p1 :: (" "%char :: p2) :: ((λ x, " "%char :: x) <$> (constr_str vstr ustr <$> nz)))).
  { rewrite join_commas, E1, E2. unfold p1. cbn [fmap list_fmap commas]. rewrite <-!app_assoc. done. }
  change (list_fmap constr text (constr_str vstr ustr) nz) with (constr_str vstr ustr <$> nz).
  rewrite Es.
  set (parts := p1 :: (" "%char :: p2) :: ((λ x, " "%char :: x) <$> (constr_str vstr ustr <$> nz))).
  assert (Hp1 : req_part vparse name (cmp_constr o1 w1) p1).
  { apply (part_op vparse name (of_s " ") o1 (of_s " ") w1 t1); try done; repeat constructor. }
  assert (Hopsolid : ∀ o t, version_text t → solid (op_text o ++ of_s " " ++ t)).
  { intros o t Ht. apply solid_join; [apply op_solid|repeat constructor|by apply version_solid]. }
  assert (Hsp : ∀ t, solid t → ","%char ∉ " "%char :: t).
  { intros t (_ & _ & Ht). by apply not_elem_of_cons. }
  assert (Hnc : Forall (λ t, ","%char ∉ t) parts).
  { constructor; [exact (proj2 (proj2 (part_solid _ _ _ _ Hp1)))|]. constructor; [apply Hsp; by apply Hopsolid|].
    rewrite !Forall_fmap. eapply Forall_impl; [exact Hr|]. intros c Hc. cbn. destruct (Hop c Hc) as (o & t & w & -> & Ht & _).
    apply Hsp. by apply Hopsolid. }
  assert (Hstr : ∀ t, solid t → strip (" "%char :: t) = t).
  { intros t [Ht _]. assert (E := strip_trimmed [" "%char] t [] ltac:(by repeat constructor) ltac:(constructor) Ht).
    by rewrite app_nil_r in E. }
  assert (Hlx : lex_ok requirements_lexicon) by (by right).
  destruct (part_scan _ _ _ _ Hp1) as (toks1 & Hs1 & Hne1 & Hb1).
  assert (Htl : ∃ tl, Forall2 (λ p toks, scan requirements_lexicon (strip p) = (toks, [])) parts
     (toks1 :: [TCmp o2 (op_text o2); TVersion t2] :: tl)).
  { assert (Hrest : ∃ tl, Forall2 (λ p toks, scan requirements_lexicon (strip p) = (toks, []))
       ((λ x, " "%char :: x) <$> (constr_str vstr ustr <$> nz)) tl).
    { clear -Hr Hop Hstr Hopsolid Hlx. induction Hr as [|c nz Hc Hr (tl & IH)]; [exists []; constructor|].
      destruct (Hop c Hc) as (o & t & w & E & Ht & _).
      exists ([TCmp o (op_text o); TVersion t] :: tl). rewrite !fmap_cons. constructor; [|done].
      rewrite E, Hstr by (by apply Hopsolid). by apply scan_op. }
    destruct Hrest as (tl & Hrest). exists tl. constructor.
    - assert (E := strip_trimmed [] p1 [] ltac:(constructor) ltac:(constructor) (proj1 (part_solid _ _ _ _ Hp1))).
      cbn [app] in E. rewrite app_nil_r in E. rewrite E. exact Hs1.
    - constructor; [|exact Hrest]. rewrite Hstr by (by apply Hopsolid). by apply scan_op. }
  destruct Htl as (tl & Htl).
  assert (Hnb : ¬ blank (commas parts)).
  { intros Hb. destruct (part_solid _ _ _ _ Hp1) as ([Hx _] & Hne & _). unfold parts in Hb. cbn [commas] in Hb.
    apply Forall_app in Hb as [Hb _]. destruct p1 as [|x y]; [done|]. apply Forall_cons in Hb as [Hb _].
    by rewrite (Hx x y eq_refl) in Hb. }
  assert (Htok : tokenize requirements_lexicon (commas parts) = Ok (toks1 :: [TCmp o2 (op_text o2); TVersion t2] :: List.filter nonempty_block tl)).
  { apply (tokenize_spec _ _ _ Hnb). exists (toks1 :: [TCmp o2 (op_text o2); TVersion t2] :: tl).
    rewrite split_commas by done. split; [done|]. cbn. by destruct toks1. }
  unfold req_from_string, named_from_string, parse_requirements. rewrite Htok, ok_bind. cbn [foldM].
  rewrite Hb1. cbn. done.
Qed.

(** ** Errors *)
Theorem C56_errors vparse s e : parse_constraints vparse s = Raise e →
  e = InvalidConstraint ∨ e = AssertionError ∨ ∃ t, vparse t = Raise e.
Proof. apply constraint_errors. Qed.
(** An AssertionError is for strings of commas and white space only, the (model's) TypeError for blank strings. *)
Theorem C55_errors vparse cls s e : req_from_string vparse cls s = Raise e →
  e = InvalidConstraint ∨ e = InvalidDependencyString ∨ (∃ t, vparse t = Raise e) ∨
  (e = AssertionError ∧ Forall (λ c, is_white c = true ∨ c = ","%char) s) ∨
  (e = TypeError ∧ blank s).
Proof. apply req_errors. Qed.

(** ** Examples *)
Definition ex_vparse (t : text) : res version :=
  if decide (t = of_s "1.0") then Ok (V 10 0)
  else if decide (t = of_s "1.0-3") then Ok (V 10 3)
  else if decide (t = of_s "2.0") then Ok (V 20 0)
  else if decide (t = of_s "2.0-0") then Ok (V 20 0)
  else Raise ValueError.
Definition ex_vstr (v : version) : text :=
  if decide (v = V 10 3) then of_s "1.0-3" else of_s "2.0-0".
Definition ex_ustr (v : version) : text :=
  if decide (upstream v = 10) then of_s "1.0" else of_s "2.0".
Theorem C55_example :
  requirement_text ex_vparse (of_s "MKL") [CGeq (V 10 3); CLt (V 20 0)] (of_s " MKL >=1.0-3,, MKL <  2.0 ") ∧
  req_from_string ex_vparse RInstall (of_s " MKL >=1.0-3,, MKL <  2.0 ") =
    Ok (Req RInstall "MKL" [CGeq (V 10 3); CLt (V 20 0)]).
Proof.
  assert (E : req_from_string ex_vparse RInstall (of_s " MKL >=1.0-3,, MKL <  2.0 ") =
    Ok (Req RInstall "MKL" [CGeq (V 10 3); CLt (V 20 0)])) by (vm_compute; reflexivity).
  split; [|exact E]. apply req_from_string_spec in E as (n & cs & [= En <-] & H).
  assert (n = of_s "MKL") as -> by (by rewrite En, of_to_s). exact H.
Qed.
Definition ex_req := Req RInstall "MKL" [CAny; CUpstream (V 10 3)].
Definition ex_req2 := Req RInstall "MKL" [CGeq (V 10 3); CAny; CLt (V 20 0)].
Theorem C55_round_trip_example :
  dist_name (of_s (r_name ex_req)) ∧ Forall (reads_back ex_vparse ex_vstr ex_ustr) (r_cons ex_req) ∧
  (version_constraints (r_cons ex_req) = 1)%nat ∧
  requirement_str ex_vstr ex_ustr ex_req = of_s "MKL ^= 1.0" ∧
  req_from_string ex_vparse RInstall (of_s "MKL ^= 1.0") = Ok (Req RInstall "MKL" [CUpstream (V 10 0)]) ∧
  Forall (reads_back ex_vparse ex_vstr ex_ustr) (r_cons ex_req2) ∧ (version_constraints (r_cons ex_req2) = 2)%nat ∧
  requirement_str ex_vstr ex_ustr ex_req2 = of_s "MKL >= 1.0-3, < 2.0-0".
Proof.
  split; [by apply dist_by|]. split; [|split; [done|split; [vm_compute; reflexivity|split; [vm_compute; reflexivity|]]]].
  { repeat constructor; cbn; [by apply version_by|]. exists (V 10 0). done. }
  split; [|split; [done|vm_compute; reflexivity]].
  repeat constructor; cbn; by apply version_by.
Qed.
(** Odd strings that are accepted, or refused in unexpected ways. *)
Theorem C55_odd_strings vparse cls :
  named_from_string vparse (of_s "") = Ok (None, [CAny]) ∧
  req_from_string vparse cls (of_s ">=") = Ok (Req cls ">=" [CAny]) ∧
  req_from_string vparse cls (of_s "* *") = Ok (Req cls "*" [CAny]) ∧
  req_from_string vparse cls (of_s "1.0-1") = Ok (Req cls "1.0-1" [CAny]) ∧
  req_from_string vparse cls (of_s " , ") = Raise AssertionError ∧
  req_from_string vparse cls (of_s "a, b") = Raise InvalidDependencyString ∧
  req_from_string vparse cls (of_s "numpy-nomkl") = Raise InvalidConstraint.
Proof. repeat split; vm_compute; reflexivity. Qed.
Theorem C56_example :
  from_constraint_strings ex_vparse RConflict ("nose", [[of_s ">= 1.0-3"; of_s "<2.0"]]) =
    Ok (Req RConflict "nose" [CGeq (V 10 3); CLt (V 20 0)]) ∧
  Forall (reads_back ex_vparse ex_vstr ex_ustr) [CGeq (V 10 3); CLt (V 20 0)] ∧
  to_constraint_strings ex_vstr ex_ustr (Req RConflict "nose" [CGeq (V 10 3); CLt (V 20 0)]) =
    ("nose", [[of_s ">= 1.0-3"; of_s "< 2.0-0"]]) ∧
  parse_constraints ex_vparse (of_s "1.0") = Raise AssertionError ∧
  parse_constraints ex_vparse (of_s ",") = Ok [].
Proof.
  split; [vm_compute; reflexivity|]. split; [repeat constructor; cbn; by apply version_by|].
  repeat split; vm_compute; reflexivity.
Qed.

(** ** The character classes of the regular expressions, as lists. *)
Theorem C54_classes c :
  (is_digit c = true ↔ c ∈ of_s "0123456789") ∧
  (is_word c = true ↔ c ∈ of_s "0123456789abcdefghijklmnopqrstuvwxyzABCDEFGHIJKLMNOPQRSTUVWXYZ_" ++
    (ascii_of_nat <$> [170; 178; 179; 181; 185; 186; 188; 189; 190; 192; 193; 194; 195; 196; 197; 198; 199; 200; 201; 202; 203; 204; 205; 206; 207; 208;
       209; 210; 211; 212; 213; 214; 216; 217; 218; 219; 220; 221; 222; 223; 224; 225; 226; 227; 228; 229; 230; 231; 232; 233; 234; 235; 236; 237; 238;
       239; 240; 241; 242; 243; 244; 245; 246; 248; 249; 250; 251; 252; 253; 254; 255]%nat)) ∧
  (is_white c = true ↔ c ∈ ascii_of_nat <$> [9; 10; 11; 12; 13; 28; 29; 30; 31; 32; 133; 160]%nat).
Proof.
  assert (H : ∀ l, c ∈ l ↔ existsb (Ascii.eqb c) l = true).
  { intros l. rewrite existsb_exists. setoid_rewrite Ascii.eqb_eq. split; [intros Hc; exists c; split; [by apply elem_of_list_In|done]|].
    intros (x & Hx & ->). by apply elem_of_list_In. }
  rewrite !H. clear H.
  split_and!; (enough (E : ∀ a b : bool, a = b → (a = true ↔ b = true)); [apply E|by intros a b ->]);
    destruct c as [[] [] [] [] [] [] [] []]; vm_compute; reflexivity.
Qed.
