(** * Property C64, the key of the exported problem: which variable is which package. *)
From Coq Require Import Ascii String.
From Verif Require Import SpecJson PoolProofs PropDimacs.
Local Open Scope string_scope.
Local Open Scope list_scope.

(** ** Reading back the JSON text *)
Lemma read_char c r : read_chars (json_char c +:+ r) = (λ tr, (String c tr.1, tr.2)) <$> read_chars r.
Proof.
  destruct c as [[] [] [] [] [] [] [] []];
    (match goal with |- read_chars (json_char ?c +:+ r) = _ =>
      let x := eval vm_compute in (json_char c) in change (json_char c) with x end);
    cbv [String.append]; cbn; destruct (read_chars r) as [[t r']|]; reflexivity.
Qed.
Lemma read_chars_json s r : read_chars (json_chars s +:+ String """" r) = Some (s, r).
Proof.
  induction s as [|c s IH]; [done|]. cbn [json_chars]. rewrite app_str_assoc, read_char, IH. done.
Qed.
Lemma more_tokens n : ∀ s ts k, read_tokens n s = Some ts → read_tokens (n + k) s = Some ts.
Proof.
  induction n as [|n IH]; intros s ts k H.
  - destruct s; [|done]. destruct k; exact H.
  - destruct s as [|c s]; [exact H|]. change (read_tokens (S n + k) (String c s)) with (read_tokens (S (n + k)) (String c s)).
    revert H. destruct c as [[] [] [] [] [] [] [] []]; cbn [read_tokens]; try (intros H; by apply IH);
      try (destruct (read_chars s) as [[t r]|]; [|done]);
      match goal with |- context [read_tokens n ?x] => destruct (read_tokens n x) as [ts'|] eqn:E; [|done]; rewrite (IH _ _ k E); done end.
Qed.
Definition reads (s : string) (ts : list json_token) : Prop := ∀ n r ts', read_tokens n r = Some ts' → read_tokens (String.length s + n) (s +:+ r) = Some (ts ++ ts').
Lemma str_length_app s t : String.length (s +:+ t) = (String.length s + String.length t)%nat.
Proof. induction s as [|c s IH]; [done|]. change (String c s +:+ t) with (String c (s +:+ t)). cbn [String.length]. by rewrite IH. Qed.
Lemma reads_app s t ts us : reads s ts → reads t us → reads (s +:+ t) (ts ++ us).
Proof.
  intros H1 H2 n r ts' H. rewrite str_length_app, app_str_assoc, <-(assoc_L (++)), <-Nat.add_assoc. by apply H1, H2.
Qed.
Lemma reads_string s : reads (json_string s) [TString s].
Proof.
  intros n r ts' H. unfold json_string. rewrite !app_str_assoc. change ("""" +:+ (json_chars s +:+ """" +:+ r)) with (String """" (json_chars s +:+ String """" r)).
  rewrite str_length_app. change (String.length """") with 1%nat. change (1 + ?x + n)%nat with (S (x + n)). cbn [read_tokens]. rewrite read_chars_json, Nat.add_comm.
  rewrite (more_tokens n r ts' _ H). done.
Qed.
Lemma reads_sep : reads ", " [TPunct ","].
Proof. intros n r ts' H. change (", " +:+ r) with (String "," (String " " r)). cbn [String.length Nat.add read_tokens]. by rewrite H. Qed.
Lemma reads_colon : reads ": " [TPunct ":"].
Proof. intros n r ts' H. change (": " +:+ r) with (String ":" (String " " r)). cbn [String.length Nat.add read_tokens]. by rewrite H. Qed.
Lemma reads_open : reads "{" [TPunct "{"].
Proof. intros n r ts' H. change ("{" +:+ r) with (String "{" r). cbn [String.length Nat.add read_tokens]. by rewrite H. Qed.
Lemma reads_close : reads "}" [TPunct "}"].
Proof. intros n r ts' H. change ("}" +:+ r) with (String "}" r). cbn [String.length Nat.add read_tokens]. by rewrite H. Qed.
Definition member (kv : Z * string) : string := json_string (str_of_Z kv.1) +:+ ": " +:+ json_string kv.2.
Lemma reads_member kv : reads (member kv) [TString (str_of_Z kv.1); TPunct ":"; TString kv.2].
Proof. exact (reads_app _ _ [_] _ (reads_string _) (reads_app _ _ [_] _ reads_colon (reads_string _))). Qed.
Fixpoint member_tokens (d : list (Z * string)) : list json_token :=
  match d with
  | [] => []
  | [kv] => [TString (str_of_Z kv.1); TPunct ":"; TString kv.2]
  | kv :: r => [TString (str_of_Z kv.1); TPunct ":"; TString kv.2; TPunct ","] ++ member_tokens r
  end.
Lemma reads_members d : reads (str_join ", " (member <$> d)) (member_tokens d).
Proof.
  induction d as [|kv d IH]; [intros n r ts' H; exact H|]. destruct d as [|kv' d]; [apply reads_member|].
  change (reads (member kv +:+ ", " +:+ str_join ", " (member <$> kv' :: d)) (([TString (str_of_Z kv.1); TPunct ":"; TString kv.2] ++ [TPunct ","] ++ member_tokens (kv' :: d)))).
  apply reads_app; [apply reads_member|]. apply reads_app; [apply reads_sep|done].
Qed.
Lemma members_read d : d ≠ [] → read_members (member_tokens d ++ [TPunct "}"]) = Some ((λ kv, (str_of_Z kv.1, kv.2)) <$> d).
Proof.
  induction d as [|kv d IH]; [done|]. intros _. destruct d as [|kv' d]; [done|].
  change (member_tokens (kv :: kv' :: d)) with ([TString (str_of_Z kv.1); TPunct ":"; TString kv.2; TPunct ","] ++ member_tokens (kv' :: d)).
  rewrite <-(assoc_L (++)). cbn [app read_members]. by rewrite IH.
Qed.
Lemma json_read d : read_json (json_dict d) = Some ((λ kv, (str_of_Z kv.1, kv.2)) <$> d).
Proof.
  assert (H : reads (json_dict d) ([TPunct "{"] ++ member_tokens d ++ [TPunct "}"])).
  { unfold json_dict. change (λ kv, json_string (str_of_Z kv.1) +:+ ": " +:+ json_string kv.2) with member.
    apply reads_app; [apply reads_open|]. apply reads_app; [apply reads_members|apply reads_close]. }
  specialize (H 0%nat "" [] eq_refl). rewrite app_str_nil, Nat.add_0_r, app_nil_r in H. unfold read_json. rewrite H.
  destruct d as [|kv d]; [done|]. destruct d as [|kv' d]; [done|]. rewrite <-(members_read (kv :: kv' :: d)) by done. done.
Qed.

(** ** The theorem *)
Section key.
  Context (vstr : version → string).
  Lemma key_line po cls : ∃ rest, lines_of (str_join nl_str (to_dimacs vstr po cls)) =
    "c KEY" :: ("c " +:+ json_dict ((λ ip : Z * package, (ip.1, p_name ip.2 +:+ " " +:+ vstr (p_version ip.2))) <$> po_i2p po)) :: rest.
  Proof.
    eexists. unfold lines_of. change nl_str with (String nl ""). rewrite split_join; [reflexivity|done|].
    unfold to_dimacs. apply Forall_cons. split; [by apply lit_lacks|]. apply Forall_cons. split; [apply lacks_app; split; [by apply lit_lacks|apply json_dict_lacks]|].
    unfold clauses_to_dimacs. apply Forall_cons. split; [apply header_lacks|]. apply Forall_forall. intros l (c & -> & _)%elem_of_list_fmap. apply clause_line_lacks.
  Qed.
End key.
(** The second line of the exported text is a comment with a JSON object.  Reading it gives, for every id of the pool and for nothing else, the name and the
    version of the package that the pool gives for this id; whatever characters names and versions consist of (up to code 255). *)
Theorem C64_key : ∀ vstr repos mods po cls, pool_of repos mods = Ok po →
  ∃ key entries, lines_of (str_join nl_str (to_dimacs vstr po cls)) !! 1%nat = Some ("c " +:+ key) ∧ read_json key = Some entries ∧
    NoDup entries.*1 ∧
    ∀ k v, (k, v) ∈ entries ↔ ∃ i p, id_to_package po i = Ok p ∧ k = str_of_Z i ∧ v = p_name p +:+ " " +:+ vstr (p_version p).
Proof.
  intros vstr repos mods po cls Hpo. destruct (pool_of_rep _ _ _ Hpo) as [R _]. destruct (key_line vstr po cls) as [rest E].
  eexists _, _. split; [rewrite E; reflexivity|]. split; [apply json_read|]. rewrite (pr_i2p _ _ R). split.
  - rewrite <-!list_fmap_compose. unfold compose. cbn. apply NoDup_fmap_2_strong.
    + intros x y Hx Hy Exy. apply (f_equal read_int) in Exy. rewrite !read_str in Exy. injection Exy as Exy.
      apply elem_of_list_lookup in Hx as [i Hi], Hy as [j Hj]. rewrite list_lookup_imap in Hi, Hj.
      destruct (mjoin repos !! i) eqn:Ei; [|done]. destruct (mjoin repos !! j) eqn:Ej; [|done]. cbn in Hi, Hj. injection Hi as <-. injection Hj as <-. cbn in Exy.
      assert (i = j) as -> by lia. by rewrite Ei in Ej; injection Ej as ->.
    + apply NoDup_alt. intros i j x Hi Hj. rewrite list_lookup_imap in Hi, Hj.
      destruct (mjoin repos !! i); [|done]. destruct (mjoin repos !! j); [|done]. cbn in Hi, Hj. injection Hi as <-. injection Hj as E1 _. lia.
  - intros k v. rewrite <-list_fmap_compose, elem_of_list_fmap. unfold compose. cbn. split.
    + intros ([i p] & [= -> ->] & H). exists i, p. split; [|done]. apply (rep_id_to_package _ _ R). apply elem_of_list_lookup in H as [j Hj].
      rewrite list_lookup_imap in Hj. destruct (mjoin repos !! j) eqn:Ej; [|done]. cbn in Hj. injection Hj as <- <-. split; [lia|]. by replace (Z.to_nat (Z.of_nat j + 1 - 1)) with j by lia.
    + intros (i & p & H & -> & ->). exists (i, p). split; [done|]. apply (rep_id_to_package _ _ R) in H as [H0 H].
      apply elem_of_list_lookup. exists (Z.to_nat (i - 1)). rewrite list_lookup_imap, H. cbn. do 2 f_equal. lia.
Qed.
(** The line at the top says so. *)
Theorem C64_key_header : ∀ vstr po cls, lines_of (str_join nl_str (to_dimacs vstr po cls)) !! 0%nat = Some "c KEY".
Proof. intros vstr po cls. destruct (key_line vstr po cls) as [rest ->]. done. Qed.

(** ** Non-vacuity *)
Definition odd_name : string := "a""\" +:+ String (ascii_of_N 10) (String (ascii_of_N 233) "").
Example key_example : ∃ po, pool_of [[Pkg "x" (V 1 0) [] [] [] None; Pkg odd_name (V 2 1) [] [] [] None]] None = Ok po ∧
  lines_of (str_join nl_str (to_dimacs (λ _, "1-1") po [])) !! 1%nat = Some ("c {""1"": ""x 1-1"", ""2"": ""a\""\\\n\u00e9 1-1""}").
Proof. eexists. split; vm_compute; reflexivity. Qed.
Print Assumptions C64_key. Print Assumptions C64_key_header.
