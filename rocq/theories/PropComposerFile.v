(** * Property C93: the files written for PHP's Composer are JSON texts of the entries. *)
From Coq Require Import Ascii String.
From Verif Require Import DimacsProofs RepositoryProofs ComposerFile SpecComposerFile PropComposer PropDimacs PropKey.
Local Open Scope string_scope.
Local Open Scope list_scope.

(** ** What the encoder writes is read back *)
Fixpoint json_ind' (P : json → Prop) (HS : ∀ s, P (JString s)) (HA : ∀ l, Forall P l → P (JArray l))
    (HO : ∀ l : list (string * json), Forall (λ m, P m.2) l → P (JObject l)) (v : json) : P v :=
  match v with
  | JString s => HS s
  | JArray l => HA l ((fix go l : Forall P l := match l with [] => Forall_nil_2 _ | x :: r => Forall_cons_2 _ _ _ (json_ind' P HS HA HO x) (go r) end) l)
  | JObject l => HO l ((fix go (l : list (string * json)) : Forall (λ m, P m.2) l :=
      match l with [] => Forall_nil_2 _ | m :: r => Forall_cons_2 _ _ _ (json_ind' P HS HA HO m.2) (go r) end) l)
  end.
(** The tokens of [s], line feeds dropped, whatever follows. *)
Definition reads' (s : string) (ts : list json_token) : Prop :=
  ∃ us, reads s us ∧ filter (λ t, t ≠ line_feed_token) us = ts.
Lemma reads'_app s t ts us : reads' s ts → reads' t us → reads' (s +:+ t) (ts ++ us).
Proof. intros (a & Ha & <-) (b & Hb & <-). exists (a ++ b). split; [by apply reads_app|]. by rewrite filter_app. Qed.
Lemma reads'_nil : reads' "" [].
Proof. exists []. split; [|done]. intros n r ts' H. exact H. Qed.
Lemma reads_blanks n : reads (String.concat "" (repeat "    " n)) [].
Proof.
  induction n as [|n IH]; [intros n r ts' H; exact H|].
  assert (E : String.concat "" (repeat "    " (S n)) = "    " +:+ String.concat "" (repeat "    " n)).
  { destruct n; [done|]. done. }
  rewrite E. apply (reads_app _ _ [] []); [|done]. intros m r ts' H.
  change ("    " +:+ r) with (String " " (String " " (String " " (String " " r)))). cbn [String.length Nat.add read_tokens]. done.
Qed.
Lemma reads'_line level : reads' (line_start level) [].
Proof.
  exists [line_feed_token]. split; [|done]. unfold line_start.
  change (String (ascii_of_N 10) (String.concat "" (repeat "    " level))) with (String (ascii_of_N 10) "" +:+ String.concat "" (repeat "    " level)).
  apply (reads_app _ _ [line_feed_token] []); [|apply reads_blanks].
  intros n r ts' H. change (String (ascii_of_N 10) "" +:+ r) with (String (ascii_of_N 10) r). cbn [String.length Nat.add]. 
  cbn. by rewrite H.
Qed.
Lemma reads'_string s : reads' (json_string s) [TString s].
Proof. exists [TString s]. split; [apply reads_string|done]. Qed.
Lemma reads'_colon : reads' ": " [TPunct ":"].
Proof. exists [TPunct ":"]. split; [apply reads_colon|done]. Qed.
Lemma reads'_punct c : (c = "," ∨ c = "[" ∨ c = "]" ∨ c = "{" ∨ c = "}")%char → reads' (String c "") [TPunct c].
Proof.
  intros Hc. exists [TPunct c]. split; [|by destruct Hc as [->|[->|[->|[->| ->]]]]].
  intros n r ts' H. change (String c "" +:+ r) with (String c r). cbn [String.length Nat.add].
  destruct Hc as [->|[->|[->|[->| ->]]]]; cbn [read_tokens]; by rewrite H.
Qed.
(** A block of parts, each of which reads as the tokens of the same place of [tss]. *)
Definition block (level : nat) (o c : string) (parts : list string) : string :=
  match parts with
  | [] => o +:+ c
  | _ => o +:+ line_start (S level) +:+ str_join ("," +:+ line_start (S level)) parts +:+ line_start level +:+ c
  end.
Lemma dumps_array level l : dumps level (JArray l) = block level "[" "]" (map (dumps (S level)) l).
Proof. done. Qed.
Lemma dumps_object level l : dumps level (JObject l) =
  block level "{" "}" (map (λ m : string * json, json_string m.1 +:+ ": " +:+ dumps (S level) m.2) l).
Proof. done. Qed.
Definition comma_tokens (tss : list (list json_token)) : list json_token := mjoin ((λ ts, TPunct "," :: ts) <$> tss).
Lemma reads'_parts sep ps p tss ts : reads' sep [TPunct ","] → reads' p ts → Forall2 reads' ps tss →
  reads' (str_join sep (p :: ps)) (ts ++ comma_tokens tss).
Proof.
  intros Hs Hp H. revert p ts Hp. induction H as [|q us qs uss Hq _ IH]; intros p ts Hp.
  - cbn. by rewrite app_nil_r.
  - change (str_join sep (p :: q :: qs)) with (p +:+ sep +:+ str_join sep (q :: qs)).
    unfold comma_tokens. cbn [fmap list_fmap]. rewrite mjoin_cons.
    apply reads'_app; [done|]. apply (reads'_app _ _ [TPunct ","]); [done|]. by apply IH.
Qed.
Lemma reads'_sep level : reads' ("," +:+ line_start level) [TPunct ","].
Proof. apply (reads'_app _ _ [TPunct ","] []); [apply reads'_punct; by left|apply reads'_line]. Qed.
Lemma reads'_block level o c p ps ts tss : (o = "[" ∧ c = "]" ∨ o = "{" ∧ c = "}")%char → reads' p ts → Forall2 reads' ps tss →
  reads' (block level (String o "") (String c "") (p :: ps)) (TPunct o :: ts ++ comma_tokens tss ++ [TPunct c]).
Proof.
  intros Hoc Hp H. unfold block. apply (reads'_app _ _ [TPunct o]); [apply reads'_punct; naive_solver|].
  apply (reads'_app _ _ [] (ts ++ comma_tokens tss ++ [TPunct c])); [apply reads'_line|]. rewrite (assoc_L (++)).
  apply reads'_app; [by apply reads'_parts; [apply reads'_sep|..]|].
  apply (reads'_app _ _ [] [_]); [apply reads'_line|apply reads'_punct; naive_solver].
Qed.
Lemma says_items xs tss : Forall2 json_says xs tss → items_say xs (comma_tokens tss ++ [TPunct "]"]).
Proof.
  induction 1 as [|x ts xs tss Hx _ IH]; [constructor|]. unfold comma_tokens. cbn [fmap list_fmap]. rewrite mjoin_cons, <-(assoc_L (++)).
  by apply is_item.
Qed.
Definition member_says (m : string * json) (ts : list json_token) : Prop := ∃ us, ts = TString m.1 :: TPunct ":" :: us ∧ json_says m.2 us.
Lemma says_members ms tss : Forall2 member_says ms tss → members_say ms (comma_tokens tss ++ [TPunct "}"]).
Proof.
  induction 1 as [|[k x] ts xs tss (us & -> & Hx) _ IH]; [constructor|]. unfold comma_tokens. cbn [fmap list_fmap]. rewrite mjoin_cons, <-(assoc_L (++)).
  cbn [app]. by apply ms_member.
Qed.
Lemma dumps_reads v : ∀ level, ∃ ts, reads' (dumps level v) ts ∧ json_says v ts.
Proof.
  induction v as [s|l IH|l IH] using json_ind'; intros level.
  - exists [TString s]. split; [apply reads'_string|constructor].
  - rewrite dumps_array. destruct IH as [|x l Hx Hl].
    { exists [TPunct "["; TPunct "]"]. split; [|constructor]. apply (reads'_app "[" "]" [_] [_]); apply reads'_punct; naive_solver. }
    destruct (Hx (S level)) as (ts & Hr & Hj).
    assert (H : ∃ tss, Forall2 reads' (map (dumps (S level)) l) tss ∧ Forall2 json_says l tss).
    { clear x Hx ts Hr Hj. induction Hl as [|x l Hx _ (tss & H1 & H2)]; [exists []; split; constructor|].
      destruct (Hx (S level)) as (ts & Hr & Hj). exists (ts :: tss). split; by constructor. }
    destruct H as (tss & H1 & H2). exists (TPunct "[" :: ts ++ comma_tokens tss ++ [TPunct "]"]). split.
    + apply (reads'_block level "[" "]"); [by left|done|done].
    + apply js_array; [done|by apply says_items].
  - rewrite dumps_object. destruct IH as [|[k x] l Hx Hl].
    { exists [TPunct "{"; TPunct "}"]. split; [|constructor]. apply (reads'_app "{" "}" [_] [_]); apply reads'_punct; naive_solver. }
    assert (M : ∀ k x, (∀ level, ∃ ts, reads' (dumps level x) ts ∧ json_says x ts) →
      ∃ us, reads' (json_string k +:+ ": " +:+ dumps (S level) x) (TString k :: TPunct ":" :: us) ∧ json_says x us).
    { intros k' y Hy. destruct (Hy (S level)) as (us & Hr & Hj). exists us. split; [|done].
      apply (reads'_app _ _ [_] (_ :: us)); [apply reads'_string|]. apply (reads'_app _ _ [_] us); [apply reads'_colon|done]. }
    destruct (M k x Hx) as (us & Hr & Hj).
    assert (H : ∃ tss, Forall2 reads' (map (λ m : string * json, json_string m.1 +:+ ": " +:+ dumps (S level) m.2) l) tss ∧ Forall2 member_says l tss).
    { clear k x Hx us Hr Hj. induction Hl as [|[k x] l Hx _ (tss & H1 & H2)]; [exists []; split; constructor|].
      destruct (M k x Hx) as (us & Hr & Hj). exists ((TString k :: TPunct ":" :: us) :: tss). split; constructor; [done..| |done]. by exists us. }
    destruct H as (tss & H1 & H2). eexists. split; [apply (reads'_block level "{" "}"); [by right|exact Hr|exact H1]|].
    cbn [app]. apply js_object; [done|by apply says_members].
Qed.
(** What the encoder writes at the top level is a JSON text of the value. *)
Theorem C93_dumps : ∀ v, text_says (dumps 0 v) v.
Proof.
  intros v. destruct (dumps_reads v 0) as (ts & (us & Hr & <-) & Hj). eexists. split; [|exact Hj].
  specialize (Hr 0%nat "" [] eq_refl). rewrite app_str_nil, Nat.add_0_r, app_nil_r in Hr. unfold tokens_of. by rewrite Hr.
Qed.
Scheme json_says_ind2 := Minimality for json_says Sort Prop
  with items_say_ind2 := Minimality for items_say Sort Prop
  with members_say_ind2 := Minimality for members_say Sort Prop.
Combined Scheme says_ind from json_says_ind2, items_say_ind2, members_say_ind2.
Lemma says_unique :
  (∀ v ts, json_says v ts → ∀ v' ts' r r', json_says v' ts' → ts ++ r = ts' ++ r' → v = v' ∧ r = r') ∧
  (∀ xs ts, items_say xs ts → ∀ xs' ts' r r', items_say xs' ts' → ts ++ r = ts' ++ r' → xs = xs' ∧ r = r') ∧
  (∀ ms ts, members_say ms ts → ∀ ms' ts' r r', members_say ms' ts' → ts ++ r = ts' ++ r' → ms = ms' ∧ r = r').
Proof.
  apply says_ind.
  - intros s v' ts' r r' H E. destruct H; cbn in E; simplify_eq. done.
  - intros v' ts' r r' H E. destruct H as [| |x xs ts us H1 _| |]; cbn in E; simplify_eq; [done|].
    destruct H1; cbn in E; simplify_eq.
  - intros x xs ts us H1 IH1 H2 IH2 v' ts' r r' H E. destruct H as [| |x' xs' ts' us' H1' H2'| |]; cbn in E; simplify_eq.
    + destruct H1; cbn in E; simplify_eq.
    + match goal with K : _ ++ _ = _ ++ _ |- _ => rename K into EE end. rewrite <-!(assoc_L (++)) in EE. destruct (IH1 _ _ _ _ H1' EE) as [-> E2]. destruct (IH2 _ _ _ _ H2' E2) as [-> ->]. done.
  - intros v' ts' r r' H E. destruct H; cbn in E; simplify_eq. done.
  - intros k x ms ts us H1 IH1 H2 IH2 v' ts' r r' H E. destruct H as [| | | |k' x' ms' ts' us' H1' H2']; cbn in E; simplify_eq.
    match goal with K : _ ++ _ = _ ++ _ |- _ => rename K into EE end. rewrite <-!(assoc_L (++)) in EE. destruct (IH1 _ _ _ _ H1' EE) as [-> E2]. destruct (IH2 _ _ _ _ H2' E2) as [-> ->]. done.
  - intros xs' ts' r r' H E. destruct H; cbn in E; simplify_eq. done.
  - intros x xs ts us H1 IH1 H2 IH2 v' ts' r r' H E. destruct H as [|x' xs' ts' us' H1' H2']; cbn in E; simplify_eq.
    match goal with K : _ ++ _ = _ ++ _ |- _ => rename K into EE end. rewrite <-!(assoc_L (++)) in EE. destruct (IH1 _ _ _ _ H1' EE) as [-> E2]. destruct (IH2 _ _ _ _ H2' E2) as [-> ->]. done.
  - intros ms' ts' r r' H E. destruct H; cbn in E; simplify_eq. done.
  - intros k x xs ts us H1 IH1 H2 IH2 v' ts' r r' H E. destruct H as [|k' x' xs' ts' us' H1' H2']; cbn in E; simplify_eq.
    match goal with K : _ ++ _ = _ ++ _ |- _ => rename K into EE end. rewrite <-!(assoc_L (++)) in EE. destruct (IH1 _ _ _ _ H1' EE) as [-> E2]. destruct (IH2 _ _ _ _ H2' E2) as [-> ->]. done.
Qed.
(** A text is the JSON text of at most one value: what is read is what was written. *)
Theorem C93_unique : ∀ s v v', text_says s v → text_says s v' → v = v'.
Proof.
  intros s v v' (ts & E & H) (ts' & E' & H'). rewrite E in E'. injection E' as <-. by destruct (proj1 says_unique _ _ H _ _ [] [] H' eq_refl).
Qed.

(** ** The files *)
Section files.
  Context (ustr vstr : version → text).
  Lemma entries_say r es : (∃ ps, r = repo_of ps) → repository_to_composer ustr vstr r = Ok es → says_repository ustr vstr r (dumps 0 (JArray (entry_json <$> es))).
  Proof.
    intros [ps ->] H. apply C76_repository in H. exists (entry_json <$> es). split; [apply C93_dumps|].
    apply Forall2_fmap_r. eapply Forall2_impl; [exact H|]. intros p e (Hn & Hv & Hf & Hr). exists (e_normalized e), (e_require e).
    split_and!; [done..|]. by rewrite <-Hn, <-Hv.
  Qed.
  Lemma entries_refused ps e : repository_to_composer ustr vstr (repo_of ps) = Raise e → ∃ p, p ∈ ps ∧ ¬ exportable p.
  Proof.
    intros H. assert (G : ∃ p, p ∈ repo_iter (repo_of ps) ∧ ¬ exportable p); [|destruct G as (p & Hp & Hn); exists p; split; [by rewrite <-(repo_iter_perm ps)|done]].
    unfold repository_to_composer in H. revert H. generalize (repo_iter (repo_of ps)). intros l. induction l as [|p l IH]; cbn; [done|].
    destruct (package_to_entry ustr vstr p) as [x|e'] eqn:E.
    - cbn. destruct (mapM_res _ l) as [y|e'] eqn:E2; cbn; [done|]. intros [= ->]. destruct (IH eq_refl) as (q & Hq & Hn). exists q. split; [by right|done].
    - intros _. exists p. split; [left|]. intros Hx. apply (entry_ok ustr vstr) in Hx as [x Hx]. congruence.
  Qed.
End files.
(** If the export succeeds, the names are returned with the parts of the request, the first file is a JSON text that says what the first remote repository has, the second
    one says what the installed repository has, and the other files are as before. *)
Theorem C93_files : ∀ ustr vstr files ps others qs jobs remote installed files' a b parts, remote ≠ installed →
  template_variables ustr vstr files (repo_of ps :: others) (repo_of qs) jobs remote installed = (files', Ok (a, b, parts)) →
  a = remote ∧ b = installed ∧ Forall2 (job_part ustr) jobs parts ∧
  (∃ t, files' !! remote = Some t ∧ says_repository ustr vstr (repo_of ps) t) ∧
  (∃ t, files' !! installed = Some t ∧ says_repository ustr vstr (repo_of qs) t) ∧
  (∀ name, name ≠ remote → name ≠ installed → files' !! name = files !! name).
Proof.
  intros ustr vstr files ps others qs jobs remote installed files' a b parts Hne H. unfold template_variables, write_definition in H.
  destruct (repository_to_composer ustr vstr (repo_of ps)) as [es|] eqn:E1; [|done]. destruct (repository_to_composer ustr vstr (repo_of qs)) as [es'|] eqn:E2; [|done].
  destruct (request_to_php_parts ustr jobs) as [l|] eqn:E3; cbn in H; [|done]. injection H as <- <- <- <-. apply C76_request in E3.
  split_and!; [done..| | |].
  - eexists. rewrite lookup_insert_ne by done. rewrite lookup_insert. split; [done|]. apply entries_say; eauto.
  - eexists. rewrite lookup_insert. split; [done|]. apply entries_say; eauto.
  - intros name H1 H2. by rewrite !lookup_insert_ne.
Qed.
(** It succeeds exactly if the packages and the request can be exported. *)
Theorem C93_succeeds : ∀ ustr vstr files ps others qs jobs remote installed,
  (∃ files' x, template_variables ustr vstr files (repo_of ps :: others) (repo_of qs) jobs remote installed = (files', Ok x)) ↔
  (∀ p, p ∈ ps ∨ p ∈ qs → exportable p) ∧ ∀ j, j ∈ jobs → job_problem j = None.
Proof.
  intros ustr vstr files ps others qs jobs remote installed.
  assert (HJ : (∃ l, request_to_php_parts ustr jobs = Ok l) ↔ ∀ j, j ∈ jobs → job_problem j = None).
  { split.
    - intros [l Hl] j Hj. destruct (job_problem j) as [e|] eqn:Ej; [|done]. exfalso. clear -Hl Hj Ej. unfold request_to_php_parts in Hl. revert l Hl.
      induction jobs as [|k jobs IH]; intros l Hl; [by apply elem_of_nil in Hj|]. cbn in Hl. pose proof (job_php_problem ustr k) as Hk.
      destruct (job_to_php ustr k) as [p|] eqn:Ek; cbn in Hl; [|done]. destruct (mapM_res _ jobs) as [ps|]; cbn in Hl; [|done].
      apply elem_of_cons in Hj as [->|Hj]; [|by eapply (IH Hj)]. congruence.
    - intros H. destruct (request_to_php_parts ustr jobs) as [l|e] eqn:E; [eauto|]. apply C76_request_error in E as (b & j & a & -> & _ & Hj).
      rewrite (H j) in Hj; [done|]. set_solver. }
  rewrite <-HJ. pose proof (C76_exportable ustr vstr ps) as H1. pose proof (C76_exportable ustr vstr qs) as H2. unfold template_variables, write_definition.
  destruct (repository_to_composer ustr vstr (repo_of ps)) as [es|]; [|naive_solver].
  destruct (repository_to_composer ustr vstr (repo_of qs)) as [es'|]; [|naive_solver].
  destruct (request_to_php_parts ustr jobs) as [l|]; cbn; naive_solver.
Qed.
(** If it fails, the files tell how far it came: the file of a repository with a package that cannot be exported is left empty. *)
Theorem C93_failure : ∀ ustr vstr files rs qs jobs remote installed files' e,
  template_variables ustr vstr files (repo_of <$> rs) (repo_of qs) jobs remote installed = (files', Raise e) →
  (rs = [] ∧ e = IndexError ∧ files' = files) ∨
  (∃ ps others, rs = ps :: others ∧
    ((∃ p, p ∈ ps ∧ ¬ exportable p) ∧ files' = <[remote := ""]> files ∧ (e = InvalidConstraint ∨ e = NotImplementedError) ∨
     ∃ t, says_repository ustr vstr (repo_of ps) t ∧
      ((∃ p, p ∈ qs ∧ ¬ exportable p) ∧ files' = <[installed := ""]> (<[remote := t]> files) ∧ (e = InvalidConstraint ∨ e = NotImplementedError) ∨
       ∃ t', says_repository ustr vstr (repo_of qs) t' ∧ files' = <[installed := t']> (<[remote := t]> files) ∧
         ∃ before j after, jobs = before ++ j :: after ∧ (∀ i, i ∈ before → job_problem i = None) ∧ job_problem j = Some e))).
Proof.
  intros ustr vstr files rs qs jobs remote installed files' e H. destruct rs as [|ps others]; cbn in H; [left; by injection H as -> ->|].
  right. exists ps, others. split; [done|].
  unfold write_definition in H. destruct (repository_to_composer ustr vstr (repo_of ps)) as [es|x] eqn:E1.
  2:{ left. injection H as <- <-. split_and!; [|done|by eapply C76_repository_error]. by eapply entries_refused. }
  right. eexists. split; [apply entries_say; eauto|].
  destruct (repository_to_composer ustr vstr (repo_of qs)) as [es'|x] eqn:E2.
  2:{ left. injection H as <- <-. split_and!; [|done|by eapply C76_repository_error]. by eapply entries_refused. }
  right. eexists. split; [apply entries_say; eauto|].
  destruct (request_to_php_parts ustr jobs) as [l|x] eqn:E3; cbn in H; [done|]. injection H as <- <-. split; [done|]. by apply C76_request_error in E3.
Qed.
(** An empty file is no JSON text. *)
Theorem C93_empty_is_no_json : ∀ v, ¬ text_says "" v.
Proof. intros v (ts & [= <-] & H). inversion H. Qed.


(** ** Non-vacuity *)
Definition nl1 : string := String (ascii_of_N 10) "".
Definition ex_bad : package := Pkg "odd" (V 1 0) [("MKL", [[[CGeq (V 2 0)]]])] [] [] None.
(** The remote repository, written out; and an installed package with ">=" that leaves its file empty. *)
Theorem C93_example :
  template_variables ex_ustr ex_ustr (<["log" := "x"]> ∅) [repo_of [ex_pkg]; repo_of [ex_bad]] (repo_of []) [Job (Some (Req RBase "foo" [CGeq (V 1 2)])) JInstall] "r.json" "i.json"
  = (<["i.json" := "[]"]> (<["r.json" := String.concat nl1
      ["["; "    {"; "        ""name"": ""numpy"","; "        ""version"": ""1.2"","; "        ""version_normalized"": ""1.2.0.0-patch3"","; "        ""require"": {";
       "            ""MKL"": ""~2010.15.0.0, 1.2.0.0-patch1"","; "            ""nose"": ""*"""; "        }"; "    }"; "]"]]> (<["log" := "x"]> ∅)),
     Ok ("r.json", "i.json", [(of_s "install", "foo", of_s ">= 1.2.0.0-patch2")])) ∧
  (template_variables ex_ustr ex_ustr (<["i.json" := "[]"]> ∅) [repo_of [ex_pkg]] (repo_of [ex_bad]) [] "r.json" "i.json").1 !! "i.json" = Some "" ∧
  (template_variables ex_ustr ex_ustr (<["i.json" := "[]"]> ∅) [repo_of [ex_pkg]] (repo_of [ex_bad]) [] "r.json" "i.json").2 = Raise NotImplementedError.
Proof. split_and!; vm_compute; reflexivity. Qed.
Print Assumptions C93_dumps. Print Assumptions C93_unique. Print Assumptions C93_files. Print Assumptions C93_succeeds. Print Assumptions C93_failure.
Print Assumptions C93_empty_is_no_json. Print Assumptions C93_example.
