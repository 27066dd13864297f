(** * Property C76: the export to Composer. *)
From Verif Require Import Composer SpecComposer RepositoryProofs ScenarioProofs PoolProofs SatLearn.
From Coq Require Import Ascii String.
Open Scope list_scope.

(** ** Versions *)
Lemma replaced_get t : replaced t (normalize_get t).
Proof.
  unfold normalize_get, TO_NORMALIZE. destruct (list_find _ _) as [[i [a b]]|] eqn:E.
  - apply list_find_Some in E as (E & Ha & _). cbn [fst] in Ha. subst a. rewrite list_lookup_fmap in E.
    destruct (_ !! i) as [[a b']|] eqn:E2; cbn in E; [|done]. injection E as <- <-.
    left. exists a, b'. split_and!; [|done|done]. by eapply elem_of_list_lookup_2.
  - right. split; [|done]. intros a b Hin ->. apply list_find_None in E. rewrite Forall_forall in E.
    eapply (E (of_s a, of_s b)); [|done]. apply elem_of_list_fmap. exists (a, b). done.
Qed.
Lemma of_s_inj a b : of_s a = of_s b → a = b.
Proof. revert b. induction a as [|c a IH]; intros [|d b] H; try done. injection H as -> H. f_equal. by apply IH. Qed.
Lemma replaced_unique t u u' : replaced t u → replaced t u' → u = u'.
Proof.
  intros [(a & b & Hin & Ha & ->)|[Hn ->]] [(a' & b' & Hin' & Ha' & ->)|[Hn' ->]].
  - rewrite Ha in Ha'. apply of_s_inj in Ha' as <-. clear Ha. f_equal.
    assert (Hd : NoDup replacements.*1) by (apply (bool_decide_unpack _); vm_compute; exact I).
    apply elem_of_list_lookup in Hin as [i Hi]. apply elem_of_list_lookup in Hin' as [j Hj].
    assert (i = j); [|congruence]. eapply (NoDup_lookup _ i j a Hd); rewrite list_lookup_fmap; [by rewrite Hi|by rewrite Hj].
  - by destruct (Hn' _ _ Hin).
  - by destruct (Hn _ _ Hin').
  - done.
Qed.

Lemma dots_app t u : dots (t ++ u) = (dots t + dots u)%nat.
Proof. unfold dots. by rewrite filter_app, app_length. Qed.
Lemma dots_zeros n : dots (mjoin (replicate n (of_s ".0"))) = n.
Proof. induction n as [|n IH]; cbn [replicate]; [done|]. rewrite mjoin_cons, dots_app, IH. done. Qed.
Lemma completed_unique t u u' : completed t u → completed t u' → u = u'.
Proof.
  intros (n & -> & H1 & H2) (m & -> & H3 & H4). rewrite dots_app, dots_zeros in H1, H2, H3, H4.
  assert (n = m) as -> by lia. done.
Qed.
Lemma pad_completed k t : (3 ≤ dots t + k)%nat → completed t (pad k t).
Proof.
  revert t. induction k as [|k IH]; intros t Hk; cbn [pad].
  { exists 0%nat. cbn. rewrite app_nil_r. split_and!; [done|lia|by left]. }
  change (count_dots t) with (dots t). destruct (dots t <? 3)%nat eqn:E.
  - apply Nat.ltb_lt in E. assert (Hz : dots (of_s ".0") = 1%nat) by reflexivity.
    destruct (IH (t ++ of_s ".0")) as (n & En & H1 & H2); [rewrite dots_app, Hz; lia|].
    exists (S n). split_and!; [|done|].
    + rewrite En. cbn [replicate]. rewrite mjoin_cons. by rewrite app_assoc.
    + right. destruct H2 as [->|H2]; [|done]. rewrite En in H1 |- *. cbn [replicate] in H1 |- *.
      rewrite app_nil_r in H1 |- *. rewrite dots_app, Hz in H1 |- *. lia.
  - apply Nat.ltb_ge in E. exists 0%nat. cbn. rewrite app_nil_r. split_and!; [done|lia|by left].
Qed.

Section versions.
  Context (ustr : version → text).
  Lemma upstream_iff v u : upstream_text ustr v u ↔ php_upstream ustr v = u.
  Proof.
    unfold php_upstream. assert (H : upstream_text ustr v (pad 3 (normalize_get (ustr v)))).
    { exists (normalize_get (ustr v)). split; [apply replaced_get|]. apply pad_completed. lia. }
    split; [|by intros <-]. intros (t & Ht & Hu). destruct H as (t' & Ht' & Hu').
    rewrite (replaced_unique _ _ _ Ht Ht') in Hu. by eapply completed_unique.
  Qed.
  Lemma full_iff v u : full_text ustr v u ↔ php_version ustr v = u.
  Proof.
    unfold full_text, php_version, patch. split.
    - intros (t & Ht & ->). apply upstream_iff in Ht as <-. done.
    - intros <-. exists (php_upstream ustr v). split; [by apply upstream_iff|done].
  Qed.
  Lemma bound_iff v u : bound_text ustr v u ↔ php_version_constraint ustr v = u.
  Proof.
    unfold bound_text, php_version_constraint. destruct (decide (build v = 0)) as [E|E].
    - rewrite upstream_iff. naive_solver.
    - rewrite full_iff. naive_solver.
  Qed.
  Lemma job_text_iff c t : job_text ustr c t ↔ php_job_constraint ustr c = Ok t.
  Proof.
    split.
    - destruct 1 as [v t H|v t H|v t H|v t H|]; [..|done]; apply bound_iff in H as <-; done.
    - destruct c; cbn [php_job_constraint]; intros [= <-]; (apply jt_any || constructor; by apply bound_iff).
  Qed.
  Lemma dep_text_iff c t : dep_text ustr c t ↔ php_dep_constraint ustr c = Ok t.
  Proof.
    split.
    - destruct 1 as [v t H|v t H|]; [..|done]; apply bound_iff in H as <-; done.
    - destruct c; cbn [php_dep_constraint]; intros [= <-]; (apply dt_any || constructor; by apply bound_iff).
  Qed.
End versions.

(** The exported version is the text of the upstream version (or its replacement), completed to at least four components, and
    the build number. *)
Theorem C76_version : ∀ ustr v u,
  (php_version ustr v = u ↔ full_text ustr v u) ∧ (php_version_constraint ustr v = u ↔ bound_text ustr v u).
Proof. intros ustr v u. by rewrite full_iff, bound_iff. Qed.

(** One would expect different versions to stay different. *)
Theorem C76_version_distinct_refuted : ∀ ustr v w, build v = build w →
  ustr v = of_s "1.0a3" → ustr w = of_s "1.0" → php_version ustr v = php_version ustr w.
Proof.
  intros ustr v w Hb Hv Hw. unfold php_version, php_upstream, patch. rewrite Hb, Hv, Hw. f_equal.
Qed.
(** They do, if they have no replacement and at least four components. *)
Theorem C76_version_distinct : ∀ ustr v w, (∀ a b, (a, b) ∈ replacements → ustr v ≠ of_s a ∧ ustr w ≠ of_s a) →
  (3 ≤ dots (ustr v))%nat → (3 ≤ dots (ustr w))%nat → build v = build w →
  php_version ustr v = php_version ustr w → ustr v = ustr w.
Proof.
  intros ustr v w Hr Hv Hw Hb H.
  assert (G : ∀ x, (∀ a b, (a, b) ∈ replacements → ustr x ≠ of_s a) → (3 ≤ dots (ustr x))%nat → php_upstream ustr x = ustr x).
  { intros x Hx Hd. apply upstream_iff. exists (ustr x). split; [by right|]. exists 0%nat. cbn. rewrite app_nil_r. auto. }
  unfold php_version, patch in H. rewrite Hb in H. apply app_inv_tail in H.
  rewrite !G in H; try done; intros a b Hin; by apply (Hr a b).
Qed.

(** ** Requests *)
Lemma constraints_iff ustr r n t : requirement_to_php_constraints ustr (Some r) = Ok (n, t) ↔
  n = r_name r ∧ comma_list (job_text ustr) (r_cons r) t.
Proof.
  unfold requirement_to_php_constraints, comma_list. destruct (mapM_res _ _) as [ts|e] eqn:E; cbn.
  - apply mapM_res_iff in E. split.
    + intros [= <- <-]. split; [done|]. exists ts. split; [|done]. eapply Forall2_impl; [exact E|]. intros c t' H. by apply job_text_iff.
    + intros (-> & ts' & HF & ->). do 3 f_equal.
      assert (HF' : mapM_res (php_job_constraint ustr) (r_cons r) = Ok ts').
      { apply mapM_res_iff. eapply Forall2_impl; [exact HF|]. intros c t' H. by apply job_text_iff. }
      apply mapM_res_iff in E. congruence.
  - split; [done|]. intros (_ & ts & HF & _). exfalso.
    assert (HF' : mapM_res (php_job_constraint ustr) (r_cons r) = Ok ts).
    { apply mapM_res_iff. eapply Forall2_impl; [exact HF|]. intros c t' H. by apply job_text_iff. }
    congruence.
Qed.
Lemma job_part_iff ustr j p : job_to_php ustr j = Ok p ↔ job_part ustr j p.
Proof.
  unfold job_to_php, job_part. destruct (j_req j) as [r|] eqn:Er; cycle 1.
  { cbn. split; [done|]. by intros (r & m & t & [=] & _). }
  destruct (requirement_to_php_constraints ustr (Some r)) as [[n t]|e] eqn:E; cbn [mbind res_bind].
  - apply constraints_iff in E as [-> Hc]. split.
    + intros H. destruct (j_kind j) eqn:Ek; cbn in H; try done; injection H as <-.
      * exists r, "install"%string, t. split_and!; try done. by left.
      * exists r, "remove"%string, t. split_and!; try done. by right.
    + intros (r' & m & t' & [= <-] & -> & Hc' & Hk).
      assert (E1 : requirement_to_php_constraints ustr (Some r) = Ok (r_name r, t)) by by apply constraints_iff.
      assert (E2 : requirement_to_php_constraints ustr (Some r) = Ok (r_name r, t')) by by apply constraints_iff.
      rewrite E1 in E2. injection E2 as <-. destruct Hk as [[-> ->]|[-> ->]]; done.
  - split; [done|]. intros (r' & m & t & [= <-] & -> & Hc & _).
    assert (E1 : requirement_to_php_constraints ustr (Some r) = Ok (r_name r, t)) by by apply constraints_iff. congruence.
Qed.

(** A request is exported exactly if all its jobs install or remove and have only the constraints >=, >, <=, < and *; there
    is then one part per job, in order. *)
Theorem C76_request : ∀ ustr jobs parts,
  request_to_php_parts ustr jobs = Ok parts ↔ Forall2 (job_part ustr) jobs parts.
Proof.
  intros ustr jobs parts. unfold request_to_php_parts. rewrite mapM_res_iff.
  split; intros H; (eapply Forall2_impl; [exact H|]); intros j p; by rewrite job_part_iff.
Qed.

Definition job_supported (c : constr) : bool := match c with CGeq _ | CGt _ | CLeq _ | CLt _ | CAny => true | _ => false end.
(** The first job that cannot be exported decides the exception. *)
Definition job_problem (j : job) : option exn :=
  match j_req j with
  | None => Some AttributeError
  | Some r => if forallb job_supported (r_cons r)
              then match j_kind j with JInstall | JRemove => None | _ => Some KeyError end
              else Some ValueError
  end.
Lemma job_php_problem ustr j : match job_to_php ustr j with Ok _ => job_problem j = None | Raise e => job_problem j = Some e end.
Proof.
  unfold job_to_php, job_problem. destruct (j_req j) as [r|]; cbn [requirement_to_php_constraints mbind res_bind]; [|done].
  assert (H : match mapM_res (php_job_constraint ustr) (r_cons r) with
              | Ok _ => forallb job_supported (r_cons r) = true
              | Raise e => e = ValueError ∧ forallb job_supported (r_cons r) = false end).
  { induction (r_cons r) as [|c cs IH]; cbn [mapM_res forallb]; [done|].
    destruct c; cbn; try done; destruct (mapM_res _ cs); cbn; done. }
  destruct (mapM_res _ _) as [ts|e]; cbn.
  - rewrite H. by destruct (j_kind j).
  - destruct H as [-> ->]. done.
Qed.
Theorem C76_request_error : ∀ ustr jobs e, request_to_php_parts ustr jobs = Raise e ↔
  ∃ before j after, jobs = before ++ j :: after ∧ (∀ i, i ∈ before → job_problem i = None) ∧ job_problem j = Some e.
Proof.
  intros ustr jobs e. unfold request_to_php_parts. induction jobs as [|j jobs IH]; cbn [mapM_res].
  { split; [done|]. intros (b & j & a & H & _). by destruct b. }
  pose proof (job_php_problem ustr j) as Hj. destruct (job_to_php ustr j) as [p|e']; cbn [mbind res_bind].
  - split.
    + destruct (mapM_res (job_to_php ustr) jobs) as [ps|e']; cbn; [done|]. intros [= ->].
      destruct (proj1 IH eq_refl) as (b & k & a & -> & Hb & Hk). exists (j :: b), k, a. split_and!; [done| |done].
      intros i [->|Hi]%elem_of_cons; [done|by apply Hb].
    + intros (b & k & a & H & Hb & Hk). destruct b as [|i b]; cbn in H; injection H as <- ->; [congruence|].
      rewrite (proj2 IH); [done|]. exists b, k, a. split_and!; [done| |done]. intros i Hi. apply Hb. by right.
  - split.
    + intros [= ->]. exists [], j, jobs. split_and!; [done|by intros i ?%elem_of_nil|done].
    + intros (b & k & a & H & Hb & Hk). destruct b as [|i b]; cbn in H; injection H as <- ->; [congruence|].
      assert (job_problem j = None) by (apply Hb; left). congruence.
Qed.

(** ** Repositories *)
Lemma dict_append_keys d k t : (dict_append d k t).*1 = d.*1 ++ (if decide (k ∈ d.*1) then [] else [k]).
Proof.
  induction d as [|[k' ts] d IH]; cbn; [done|]. destruct (decide (k' = k)) as [->|Hne]; cbn.
  - rewrite decide_True by left. by rewrite app_nil_r.
  - fold (d.*1). fold ((dict_append d k t).*1). rewrite IH. do 2 f_equal. destruct (decide (k ∈ d.*1)) as [H|H].
    + by rewrite decide_True by by right.
    + rewrite decide_False; [done|]. intros [?|?]%elem_of_cons; done.
Qed.
Lemma fromkeys_snoc {A} `{EqDecision A} (l : list A) x :
  fromkeys (l ++ [x]) = fromkeys l ++ (if decide (x ∈ l) then [] else [x]).
Proof.
  induction l as [|y l IH]; cbn; [done|]. rewrite IH, filter_app. cbn. f_equal. f_equal.
  destruct (decide (x ∈ l)) as [Hx|Hx].
  - by rewrite decide_True by by right.
  - destruct (decide (x = y)) as [->|Hne].
    + rewrite decide_True by left. rewrite filter_cons_False by (intros H; by apply H). done.
    + rewrite decide_False by (intros [?|?]%elem_of_cons; done). rewrite filter_cons_True by done. done.
Qed.
Lemma dict_append_in d k t n ts : NoDup d.*1 → (n, ts) ∈ dict_append d k t →
  (n ≠ k ∧ (n, ts) ∈ d) ∨ (n = k ∧ ∃ ts', (k ∈ d.*1 → (k, ts') ∈ d) ∧ (k ∉ d.*1 → ts' = []) ∧ ts = ts' ++ [t]).
Proof.
  induction d as [|[k' us] d IH]; cbn; intros Hn H.
  - apply elem_of_list_singleton in H as [= -> ->]. right. split; [done|]. exists []. split_and!; [|done|done].
    by intros ?%elem_of_nil.
  - apply NoDup_cons in Hn as [Hk' Hn]. destruct (decide (k' = k)) as [->|Hne].
    + apply elem_of_cons in H as [[= -> ->]|H].
      * right. split; [done|]. exists us. split_and!; [intros _; left| |done]. intros Hk. destruct Hk. left.
      * left. split; [|by right]. intros ->. apply Hk', elem_of_list_fmap. by exists (k, ts).
    + apply elem_of_cons in H as [[= -> ->]|H]; [left; split; [done|left]|].
      destruct (IH Hn H) as [[? ?]|(-> & ts' & H1 & H2 & ->)]; [left; split; [done|by right]|].
      right. split; [done|]. exists ts'. split_and!; [| |done].
      * intros [?|Hk]%elem_of_cons; [done|]. right. by apply H1.
      * intros Hk. apply H2. intros Hk2. apply Hk. by right.
Qed.

Lemma dict_fold ustr rs : ∀ d d0, foldM (λ d r, t ← requirement_to_php_string ustr r; Ok (dict_append d (r_name r) t)) rs [] = Ok d →
  d0 = d → ∃ said, Forall2 (λ r y, y.1 = r_name r ∧ requirement_to_php_string ustr r = Ok y.2) rs said ∧
    d.*1 = fromkeys said.*1 ∧ (∀ n ts, (n, ts) ∈ d → ts = (filter (λ x, x.1 = n) said).*2).
Proof.
  induction rs as [|r rs IH] using rev_ind; intros d d0 H _.
  { injection H as <-. exists []. split_and!; [constructor|done|by intros n ts ?%elem_of_nil]. }
  rewrite foldM_app in H. destruct (foldM _ rs []) as [d1|] eqn:E; cbn [mbind res_bind] in H; [|done].
  cbn [foldM] in H. destruct (requirement_to_php_string ustr r) as [t|] eqn:Et; cbn in H; [|done]. injection H as <-.
  destruct (IH d1 d1 eq_refl eq_refl) as (said & HF & Hk & Hv). exists (said ++ [(r_name r, t)]). split_and!.
  - apply Forall2_app; [done|]. constructor; [done|constructor].
  - rewrite dict_append_keys, fmap_app. change ([(r_name r, t)].*1) with [r_name r]. rewrite fromkeys_snoc, Hk. f_equal.
    destruct (decide (r_name r ∈ fromkeys said.*1)) as [Hi|Hi]; rewrite fromkeys_elem in Hi; destruct (decide _); done.
  - intros n ts Hin. rewrite filter_app, fmap_app. apply dict_append_in in Hin as [[Hne Hin]|(-> & ts' & H1 & H2 & ->)].
    + rewrite filter_cons_False by (cbn; congruence). cbn. rewrite app_nil_r. by apply Hv.
    + rewrite filter_cons_True by done. cbn. f_equal. destruct (decide (r_name r ∈ d1.*1)) as [Hi|Hi].
      * apply Hv. by apply H1.
      * rewrite H2 by done. rewrite Hk, fromkeys_elem in Hi. symmetry. assert (filter (λ x : string * text, x.1 = r_name r) said = []) as ->; [|done].
        clear -Hi. induction said as [|[a b] said IHs]; [done|]. cbn in Hi. apply not_elem_of_cons in Hi as [? ?].
        rewrite filter_cons_False by (cbn; congruence). by apply IHs.
    + rewrite Hk. apply NoDup_fromkeys.
Qed.

Lemma string_iff ustr r t : requirement_to_php_string ustr r = Ok t ↔ comma_list (dep_text ustr) (r_cons r) t.
Proof.
  unfold requirement_to_php_string, comma_list. split.
  - destruct (mapM_res _ _) as [ts|] eqn:E; cbn; [|done]. intros [= <-]. apply mapM_res_iff in E. exists ts. split; [|done].
    eapply Forall2_impl; [exact E|]. intros c t H. by apply dep_text_iff.
  - intros (ts & HF & ->).
    assert (mapM_res (php_dep_constraint ustr) (r_cons r) = Ok ts) as ->; [|done].
    apply mapM_res_iff. eapply Forall2_impl; [exact HF|]. intros c t H. by apply dep_text_iff.
Qed.
Lemma dep_says_iff d n cs : dep_says d (n, cs) ↔ from_constraints RInstall d = Ok (Req RInstall n cs).
Proof.
  destruct d as [m dj]. unfold from_constraints. split.
  - inversion 1; subst; cbn; by rewrite ?app_nil_r.
  - destruct dj as [|cj [|]]; cbn; [intros [= <- <-]; constructor| |done].
    intros [= <- <-]. destruct cj as [|c cj]; cbn.
    + apply ds_any.
    + rewrite app_nil_r. apply ds_one.
Qed.
Lemma from_constraints_form d r : from_constraints RInstall d = Ok r → r = Req RInstall (r_name r) (r_cons r).
Proof. destruct d as [n dj]. unfold from_constraints. destruct (1 <? _)%nat; [done|]. by intros [= <-]. Qed.

Lemma dict_total ustr rs : (∀ r, r ∈ rs → is_ok (requirement_to_php_string ustr r) = true) →
  ∀ d0, ∃ d, foldM (λ d r, t ← requirement_to_php_string ustr r; Ok (dict_append d (r_name r) t)) rs d0 = Ok d.
Proof.
  induction rs as [|r rs IH]; intros H d0; cbn; [eauto|].
  pose proof (H r ltac:(left)) as Hr. destruct (requirement_to_php_string ustr r); cbn; [|done].
  apply IH. intros r' Hr'. apply H. by right.
Qed.
Lemma mapping_unique said d d' : mapping said d → mapping said d' → d = d'.
Proof.
  intros [Hk Hv] [Hk' Hv']. rewrite <- Hk in Hk'. clear Hk.
  revert d' Hk' Hv'. induction d as [|[n t] d IH]; intros [|[n' t'] d'] Hk' Hv'; try done.
  cbn in Hk'. injection Hk' as -> Hk'. f_equal.
  - f_equal. rewrite (Hv n t) by left. rewrite (Hv' n t') by left. done.
  - apply IH; [|done|].
    + intros m u Hin. apply Hv. by right.
    + intros m u Hin. apply Hv'. by right.
Qed.

Lemma entry_iff ustr vstr p e : package_to_entry ustr vstr p = Ok e ↔
  e_name e = p_name p ∧ e_version e = vstr (p_version p) ∧ full_text ustr (p_version p) (e_normalized e) ∧
  requires_map ustr (p_requires p) (e_require e).
Proof.
  rewrite full_iff. unfold package_to_entry, requirements_to_php_dict. split.
  - destruct (mapM_res _ (p_requires p)) as [rs|] eqn:Er; cbn [mbind res_bind]; [|done].
    destruct (foldM _ rs []) as [d|] eqn:Ed; cbn [mbind res_bind]; [|done]. intros [= <-]. cbn. split_and!; try done.
    destruct (dict_fold ustr rs d d Ed eq_refl) as (said & HF & Hk & Hv). exists said. split.
    + apply mapM_res_iff in Er. clear -Er HF. revert said HF. induction Er as [|c r cs rs H Er IH]; intros said HF.
      * inversion HF. constructor.
      * inversion HF as [|? y ? said' [Hy1 Hy2] HF']; subst. constructor; [|by apply IH].
        exists (r_cons r). split; [|by apply string_iff]. apply dep_says_iff. rewrite Hy1. by rewrite <- (from_constraints_form _ _ H).
    + split.
      * rewrite <- Hk. clear. induction d as [|x d IH]; [done|]. cbn. f_equal. exact IH.
      * intros n t Hin. apply elem_of_list_In, in_map_iff in Hin as ([m ts] & [= <- <-] & Hin).
        apply elem_of_list_In, Hv in Hin as ->. done.
  - intros (Hn & Hve & Hno & said & HF & Hm).
    assert (∃ rs, mapM_res (from_constraints RInstall) (p_requires p) = Ok rs ∧
              Forall2 (λ r y, y.1 = r_name r ∧ requirement_to_php_string ustr r = Ok y.2) rs said) as (rs & Er & HF2).
    { clear -HF. induction HF as [|c y cs said (k & Hs & Ht) HF IH]; [exists []; split; [done|constructor]|].
      destruct IH as (rs & E & H2). apply dep_says_iff in Hs. exists (Req RInstall y.1 k :: rs). cbn [mapM_res].
      rewrite Hs, E. split; [done|]. constructor; [|done]. split; [done|]. by apply string_iff. }
    rewrite Er. cbn [mbind res_bind].
    destruct (dict_total ustr rs) with (d0 := @nil (string * list text)) as [d Ed].
    { intros r Hr. apply elem_of_list_lookup in Hr as [i Hi]. destruct (Forall2_lookup_l _ _ _ _ _ HF2 Hi) as (y & _ & _ & H).
      by rewrite H. }
    rewrite Ed. cbn [mbind res_bind].
    destruct (dict_fold ustr rs d d Ed eq_refl) as (said' & HF' & Hk & Hv).
    assert (said' = said) as ->.
    { clear -HF' HF2. revert said' HF'. induction HF2 as [|r y rs said [H1 H2] HF IH]; intros said' HF'.
      - by inversion HF'.
      - inversion HF' as [|? y' ? s' [Hy1 Hy2] HF'']; subst. f_equal; [|by apply IH].
        destruct y, y'. cbn in *. congruence. }
    destruct e as [n ve no re]. cbn in *. subst. do 2 f_equal. eapply mapping_unique; [|exact Hm]. split.
    + rewrite <- Hk. clear. induction d as [|x d IH]; [done|]. cbn. f_equal. exact IH.
    + intros m t Hin. apply elem_of_list_In, in_map_iff in Hin as ([m' ts] & [= <- <-] & Hin).
      apply elem_of_list_In, Hv in Hin as ->. done.
Qed.

(** A repository is exported as one entry per package, in the order in which it lists them, with the mapping of its
    dependencies. *)
Theorem C76_repository : ∀ ustr vstr ps es, repository_to_composer ustr vstr (repo_of ps) = Ok es ↔
  Forall2 (λ p e, e_name e = p_name p ∧ e_version e = vstr (p_version p) ∧ full_text ustr (p_version p) (e_normalized e) ∧
                  requires_map ustr (p_requires p) (e_require e)) (repo_iter (repo_of ps)) es.
Proof.
  intros ustr vstr ps es. unfold repository_to_composer. rewrite mapM_res_iff.
  split; intros H; (eapply Forall2_impl; [exact H|]); intros p e; by rewrite entry_iff.
Qed.

(** It can be exported exactly if every dependency has at most one alternative, all of whose constraints are ^=, == or * . *)
Definition dep_supported (c : constr) : bool := match c with CUpstream _ | CEqual _ | CAny => true | _ => false end.
Definition exportable (p : package) : Prop :=
  ∀ (n : string) (dj : list (list cstr)), (n, dj) ∈ p_requires p → (List.length dj ≤ 1)%nat ∧ ∀ cj cs c, cj ∈ dj → cs ∈ cj → c ∈ cs → dep_supported c = true.
Lemma string_ok ustr r : is_ok (requirement_to_php_string ustr r) = forallb dep_supported (r_cons r).
Proof.
  unfold requirement_to_php_string. induction (r_cons r) as [|c cs IH]; cbn [mapM_res forallb]; [done|].
  destruct c; cbn; try done; destruct (mapM_res _ cs); cbn in *; done.
Qed.
Lemma requires_ok ds : (∃ rs, mapM_res (from_constraints RInstall) ds = Ok rs) ↔ ∀ (n : string) (dj : list (list cstr)), (n, dj) ∈ ds → (List.length dj ≤ 1)%nat.
Proof.
  induction ds as [|[n dj] ds IH]; cbn [mapM_res].
  { split; [by intros _ n dj ?%elem_of_nil|eauto]. }
  assert (Hf : from_constraints RInstall (n, dj) = if (1 <? List.length dj)%nat then Raise InvalidConstraint else Ok (Req RInstall n (mjoin (mjoin (insert_star <$> dj))))) by done.
  rewrite Hf. clear Hf. destruct (1 <? List.length dj)%nat eqn:E; cbn [mbind res_bind].
  - apply Nat.ltb_lt in E. split; [intros [rs Hrs]; discriminate|]. intros H. specialize (H n dj ltac:(left)). lia.
  - apply Nat.ltb_ge in E. split.
    + intros [rs H] m d [[= -> ->]|Hin]%elem_of_cons; [lia|]. apply (proj1 IH) with m; [|done].
      destruct (mapM_res (from_constraints RInstall) ds) as [rs'|]; [eauto|done].
    + intros H. destruct (proj2 IH) as [rs ->]; [|cbn; eauto]. intros m d Hin. apply (H m d). by right.
Qed.
Lemma dict_ok ustr rs d : foldM (λ d r, t ← requirement_to_php_string ustr r; Ok (dict_append d (r_name r) t)) rs [] = Ok d →
  ∀ r, r ∈ rs → is_ok (requirement_to_php_string ustr r) = true.
Proof.
  intros H r Hr. destruct (dict_fold ustr rs d d H eq_refl) as (said & HF & _).
  apply elem_of_list_lookup in Hr as [i Hi]. destruct (Forall2_lookup_l _ _ _ _ _ HF Hi) as (y & _ & _ & E). by rewrite E.
Qed.
Lemma constraints_of_dep n dj r : from_constraints RInstall (n, dj) = Ok r →
  forallb dep_supported (r_cons r) = true ↔ ∀ cj cs c, cj ∈ dj → cs ∈ cj → c ∈ cs → dep_supported c = true.
Proof.
  unfold from_constraints. destruct dj as [|cj [|]]; cbn [List.length]; [| |done].
  - intros [= <-]. cbn. split; [by intros _ cj cs c ?%elem_of_nil|done].
  - intros [= <-].
    cbn [r_cons]. rewrite app_nil_r.
    rewrite forallb_forall. split.
    + intros H cj' cs c ->%elem_of_list_singleton Hcs Hc. apply H. apply elem_of_list_In, elem_of_list_join. exists cs. split; [done|].
      destruct cj; [by apply elem_of_nil in Hcs|done].
    + intros H c Hc. apply elem_of_list_In, elem_of_list_join in Hc as (cs & Hc & Hcs). destruct cj as [|x cj].
      * cbn in Hcs. apply elem_of_list_singleton in Hcs as ->. by apply elem_of_list_singleton in Hc as ->.
      * eapply H; [left| |]; done.
Qed.
Lemma entry_ok ustr vstr p : (∃ e, package_to_entry ustr vstr p = Ok e) ↔ exportable p.
Proof.
  unfold package_to_entry, requirements_to_php_dict, exportable. split.
  - intros [e H] n dj Hin.
    destruct (mapM_res _ (p_requires p)) as [rs|] eqn:Er; cbn [mbind res_bind] in H; [|done].
    split; [eapply (proj1 (requires_ok _)); [by exists rs|exact Hin]|].
    destruct (foldM _ rs []) as [d|] eqn:Ed; cbn [mbind res_bind] in H; [|done].
    apply mapM_res_iff in Er. apply elem_of_list_lookup in Hin as [i Hi].
    destruct (Forall2_lookup_l _ _ _ _ _ Er Hi) as (r & Hr & Hf). apply (constraints_of_dep _ _ _ Hf).
    rewrite <- (string_ok ustr). eapply dict_ok; [exact Ed|]. by eapply elem_of_list_lookup_2.
  - intros H. destruct (proj2 (requires_ok (p_requires p))) as [rs Er]; [intros n dj Hin; by apply (H n)|].
    rewrite Er. cbn [mbind res_bind]. destruct (dict_total ustr rs) with (d0 := @nil (string * list text)) as [d Ed].
    + intros r Hr. rewrite string_ok. apply mapM_res_iff in Er. apply elem_of_list_lookup in Hr as [i Hi].
      destruct (Forall2_lookup_r _ _ _ _ _ Er Hi) as ([n dj] & Hd & Hf). apply (constraints_of_dep _ _ _ Hf).
      apply (H n). by eapply elem_of_list_lookup_2.
    + rewrite Ed. cbn. eauto.
Qed.
Theorem C76_exportable : ∀ ustr vstr ps,
  (∃ es, repository_to_composer ustr vstr (repo_of ps) = Ok es) ↔ ∀ p, p ∈ ps → exportable p.
Proof.
  intros ustr vstr ps. unfold repository_to_composer.
  transitivity (∀ p, p ∈ repo_iter (repo_of ps) → exportable p); [|by setoid_rewrite (repo_iter_perm ps)].
  generalize (repo_iter (repo_of ps)). clear ps.
  intros l. induction l as [|p l IH]; cbn [mapM_res].
  { split; [by intros _ p ?%elem_of_nil|eauto]. }
  split.
  - intros [es H] q Hq. destruct (package_to_entry ustr vstr p) as [e|] eqn:E; cbn [mbind res_bind] in H; [|done].
    destruct (mapM_res _ l) as [es'|] eqn:El; cbn [mbind res_bind] in H; [|done].
    apply elem_of_cons in Hq as [->|Hq]; [apply (entry_ok ustr vstr); eauto|]. apply (proj1 IH); eauto.
  - intros H. destruct (proj2 (entry_ok ustr vstr p)) as [e ->]; [apply H; left|].
    destruct (proj2 IH) as [es ->]; [intros q Hq; apply H; by right|]. cbn. eauto.
Qed.
(** Otherwise the export raises InvalidConstraint or NotImplementedError. *)
Theorem C76_repository_error : ∀ ustr vstr ps e, repository_to_composer ustr vstr (repo_of ps) = Raise e →
  e = InvalidConstraint ∨ e = NotImplementedError.
Proof.
  intros ustr vstr ps e. unfold repository_to_composer. generalize (repo_iter (repo_of ps)). intros l.
  induction l as [|p l IH]; cbn [mapM_res]; [done|].
  destruct (package_to_entry ustr vstr p) as [x|e'] eqn:E; cbn [mbind res_bind].
  - destruct (mapM_res _ l); cbn; [done|]. intros [= ->]. by apply IH.
  - intros [= ->]. unfold package_to_entry, requirements_to_php_dict in E.
    destruct (mapM_res _ (p_requires p)) as [rs|e'] eqn:Er; cbn [mbind res_bind] in E.
    + destruct (foldM _ rs []) as [d|e'] eqn:Ed; cbn [mbind res_bind] in E; [done|]. injection E as ->. right.
      clear -Ed. revert Ed. generalize (@nil (string * list text)). induction rs as [|r rs IH]; intros d0 H; cbn in H; [done|].
      destruct (requirement_to_php_string ustr r) as [t|e'] eqn:Es; cbn in H; [by apply IH in H|]. injection H as ->.
      clear -Es. unfold requirement_to_php_string in Es. induction (r_cons r) as [|c cs IH]; cbn in Es; [done|].
      destruct c; cbn in Es; try (by injection Es as <-); destruct (mapM_res _ cs); cbn in Es; try done; by apply IH.
    + injection E as ->. left. clear -Er. induction (p_requires p) as [|[n dj] ds IH]; cbn in Er; [done|].
      destruct (base.length dj) as [|[|]]; cbn in Er; try (by injection Er as <-);
        (destruct (mapM_res _ ds); cbn in Er; [done|by apply IH]).
Qed.

(** ** Refutation and non-vacuity *)
(** One would expect every request to be exportable: already "install foo == 1.0-1" is not. *)
Theorem C76_request_refuted : ∀ ustr n v, request_to_php_parts ustr [Job (Some (Req RBase n [CEqual v])) JInstall] = Raise ValueError.
Proof. done. Qed.

Definition ex_ustr (v : version) : text := if decide (upstream v = 1) then of_s "1.2" else of_s "2010o".
Definition ex_pkg : package :=
  Pkg "numpy" (V 1 3) [("MKL", [[[CUpstream (V 2 0)]]]); ("nose", [[]]); ("MKL", [[[CEqual (V 1 1)]]])]%string [] [] None.
Theorem C76_example :
  request_to_php_parts ex_ustr [Job (Some (Req RBase "foo" [CGeq (V 1 2); CLt (V 2 0)])) JInstall; Job (Some (Req RBase "bar" [CAny])) JRemove]
  = Ok [(of_s "install", "foo"%string, of_s ">= 1.2.0.0-patch2, < 2010.15.0.0"); (of_s "remove", "bar"%string, of_s "*")] ∧
  repository_to_composer ex_ustr ex_ustr (repo_of [ex_pkg])
  = Ok [Entry "numpy" (of_s "1.2") (of_s "1.2.0.0-patch3")
          [("MKL"%string, of_s "~2010.15.0.0, 1.2.0.0-patch1"); ("nose"%string, of_s "*")]].
Proof. split; vm_compute; reflexivity. Qed.

Print Assumptions C76_version. Print Assumptions C76_version_distinct. Print Assumptions C76_version_distinct_refuted.
Print Assumptions C76_request. Print Assumptions C76_request_error. Print Assumptions C76_repository.
Print Assumptions C76_exportable. Print Assumptions C76_repository_error. Print Assumptions C76_example.
