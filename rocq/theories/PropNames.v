(** * Package names that cannot be read (C57). *)
From Verif Require Import ReqProofs PropParser PoolProofs PropPool RulesLoop PropRules SolveProofs SolveMain SpecCheck PropLimits.
From Coq Require Import Ascii String.
Open Scope list_scope.

(** A name with a "-" in it, such as "numpy-nomkl" (and that is not a version, such as "1.0-1"). *)
Definition hyphenated (name : string) : Prop :=
  ∃ n rest, of_s name = n ++ "-"%char :: rest ∧ dist_name n ∧
    Forall (λ c, is_word c = true ∨ c = "."%char ∨ c = "-"%char) rest ∧ ¬ version_text (of_s name).

Lemma vchar_alt c : is_word c = true ∨ c = "."%char ∨ c = "-"%char ↔ is_vchar c = true.
Proof.
  unfold is_vchar, is_dchar. rewrite !orb_true_iff, !is_ch_true. split; [intros [?|[->| ->]]|intros [[?|<-]|<-]]; tauto.
Qed.
Lemma dash_scan n rest : dist_name n → Forall (λ c, is_vchar c = true) rest → ¬ version_text (n ++ "-"%char :: rest) →
  scan requirements_lexicon (n ++ "-"%char :: rest) = ([TName n], "-"%char :: rest).
Proof.
  intros Hn Hr Hv. set (s := n ++ "-"%char :: rest).
  assert (Hs : Forall (λ c, is_vchar c = true) s).
  { apply Forall_app. split; [|constructor; [done|exact Hr]]. eapply Forall_impl; [apply (dotted_chars _ Hn)|]. apply dchar_vchar. }
  assert (H0 : r_version ([], s) = []).
  { apply not_elem_nil. intros q (w & Hw & Hp & _ & Hq)%version_spec. cbn in Hp. destruct Hq as [Hq|Hq]; rewrite Hq in Hp.
    - rewrite app_nil_r in Hp. subst w. done.
    - rewrite Hp in Hs. apply Forall_app in Hs as [_ Hs]. by inversion Hs. }
  assert (H1 : first_match requirements_lexicon ([], s) = Some ((rev n, "-"%char :: rest), Some (TName n))).
  { unfold requirements_lexicon. cbn [first_match]. rewrite H0.
    destruct (ScanProofs.head_cons _ _ (dist_head n ("-"%char :: rest) [] Hn ltac:(by intros c t [= <- <-]))) as [q Hq].
    unfold s. rewrite Hq. rewrite app_nil_r. f_equal. f_equal. f_equal. f_equal. 
    rewrite <-(app_nil_r (rev n)). apply consumed_rev. }
  unfold scan. cbn [scan_go]. rewrite H1.
  case_decide as E; [|]. { injection E as E. destruct n; [by inversion Hn|]. apply (f_equal List.length) in E. rewrite rev_length in E. done. }
  destruct (List.length s) as [|k] eqn:Hlen. { apply nil_length_inv in Hlen. unfold s in Hlen. by destruct n. }
  cbn [scan_go].
  assert (H2 : first_match requirements_lexicon (rev n, "-"%char :: rest) = None).
  { rewrite (first_ops requirements_lexicon); [|by right|done]. by repeat take_char. }
  by rewrite H2.
Qed.
(** Such a name is not a requirement string. *)
Theorem C57_name : ∀ vparse cls name, hyphenated name → req_from_string vparse cls (of_s name) = Raise InvalidConstraint.
Proof.
  intros vparse cls name (n & rest & -> & Hn & Hr & Hv).
  assert (Hr' : Forall (λ c, is_vchar c = true) rest) by (eapply Forall_impl; [exact Hr|]; intros c; apply vchar_alt).
  assert (Hsol : solid (n ++ "-"%char :: rest)).
  { apply vchars_solid; [by destruct n|]. apply Forall_app. split; [|by constructor].
    eapply Forall_impl; [apply (dotted_chars _ Hn)|]. apply dchar_vchar. }
  destruct Hsol as (Ht & Hne & Hc).
  assert (Hst : strip (n ++ "-"%char :: rest) = n ++ "-"%char :: rest).
  { pose proof (strip_trimmed [] _ [] (List.Forall_nil _) (List.Forall_nil _) Ht) as H. by rewrite app_nil_l, app_nil_r in H. }
  unfold req_from_string, named_from_string, parse_requirements.
  rewrite tokenize_unfold.
  - rewrite Hst, (split_one _ _ Hc). cbn [foldM]. unfold tok_step. rewrite Hst, (dash_scan n rest Hn Hr' Hv). done.
  - intros Hb. apply strip_blank in Hb. by rewrite Hst in Hb.
Qed.

(** ** Rule generation reads the name of every package it makes rules for *)
Definition readable (p : package) : Prop := ∃ r, name_requirement RConflict (p_name p) = Ok r.
Lemma hyphenated_not p : hyphenated (p_name p) → ¬ readable p.
Proof. intros H [r Hr]. unfold name_requirement in Hr. by rewrite C57_name in Hr. Qed.

Section names.
  Context (po : pool) (l : list package) (R : pool_rep po l).
  (** The packages that have rules are readable. *)
  Definition all_readable (st : gst) : Prop := ∀ p i, package_id po p = Ok i → i ∈ g_added st → readable p.
  Definition has (st : gst) (p : package) : Prop := ∃ i, package_id po p = Ok i ∧ i ∈ g_added st.
  Definition grows (st st' : gst) : Prop := g_added st ⊆ g_added st' ∧ (all_readable st → all_readable st').
  Lemma grows_refl st : grows st st.
  Proof. by split. Qed.
  Lemma grows_trans s1 s2 s3 : grows s1 s2 → grows s2 s3 → grows s1 s3.
  Proof. intros [A1 A2] [B1 B2]. split; [set_solver|auto]. Qed.
  Lemma grows_same st st' : g_added st' = g_added st → grows st st'.
  Proof. intros E. unfold grows, all_readable. rewrite E. done. Qed.
  Lemma add_rule_added st r : g_added (add_rule st r) = g_added st.
  Proof. unfold add_rule. by destruct (existsb _ _). Qed.
  Lemma has_mono st st' p : grows st st' → has st p → has st' p.
  Proof. intros [H _] (i & Hi & Hin). exists i. split; [done|]. by apply H. Qed.
  Lemma foldM_grows {A} (f : gst → A → res gst) (xs : list A) st st' :
    (∀ x st st', x ∈ xs → f st x = Ok st' → grows st st') → foldM f xs st = Ok st' → grows st st'.
  Proof.
    intros Hf H. apply (foldM_inv f (λ _ s, grows st s) xs st st'); [apply grows_refl| |done].
    intros ys x b b' Hb Hx E. exact (grows_trans _ _ _ Hb (Hf x b b' Hx E)).
  Qed.
  Lemma requires_added strict p reqs ds : ∀ acc st st' more, requires_rules po strict p reqs ds acc st = Ok (st', more) →
    g_added st' = g_added st.
  Proof.
    induction ds as [|c ds IH]; intros acc st st' more; cbn [requires_rules]; [by intros [= <- <-]|].
    destruct (from_constraints RInstall c) as [preq|]; cbn [mbind res_bind]; [|done].
    destruct (what_provides po preq true) as [[|q qs]|]; cbn [mbind res_bind]; [| |done].
    - destruct (strict_check _ _ _); cbn [mbind res_bind]; [|done]. destruct (remove_rule _ _ _ _); cbn [mbind res_bind]; [|done].
      intros [= <- <-]. apply add_rule_added.
    - destruct (dependency_rule _ _ _ _); cbn [mbind res_bind]; [|done]. intros H. rewrite (IH _ _ _ _ H). apply add_rule_added.
  Qed.
  Lemma add_conflicts_added p t comb qs st st' : add_conflicts po p t comb qs st = Ok st' → g_added st' = g_added st.
  Proof.
    intros H. apply (foldM_inv _ (λ _ s, g_added s = g_added st) qs st st' eq_refl) in H; [done|].
    intros ys x b b' Hb _. destruct (conflicts_rule _ _ _ _ _) as [[r|]|]; cbn [mbind res_bind]; [| |done]; intros [= <-]; [|done].
    by rewrite add_rule_added.
  Qed.
  Lemma conflicts_added strict p reqs st st' : conflicts_rules po strict p reqs st = Ok st' →
    g_added st' = g_added st ∧ readable p.
  Proof.
    unfold conflicts_rules. destruct (same_name_rules po p reqs st) as [s1|] eqn:H1; cbn [mbind res_bind]; [|done]. intros H2.
    unfold same_name_rules in H1. destruct (name_requirement RConflict (p_name p)) as [r|] eqn:Hr; cbn [mbind res_bind] in H1; [|done].
    split; [|by exists r].
    destruct (what_provides po r true); cbn [mbind res_bind] in H1; [|done]. apply add_conflicts_added in H1.
    rewrite <-H1. apply (foldM_inv _ (λ _ s, g_added s = g_added s1) _ s1 st' eq_refl) in H2; [done|].
    intros ys x b b' Hb _. destruct (from_constraints RConflict x); cbn [mbind res_bind]; [|done].
    destruct (what_provides _ _ _) as [q|]; cbn [mbind res_bind]; [|done].
    destruct (match q with [] => _ | _ => _ end); cbn [mbind res_bind]; [|done]. intros H. apply add_conflicts_added in H. congruence.
  Qed.
  Lemma loop_readable strict : ∀ fuel queue st st', package_rules_loop po strict fuel queue st = Ok st' →
    grows st st' ∧ ∀ w, w ∈ queue → has st' w.1.
  Proof.
    induction fuel as [|fuel IH]; intros [|[p reqs] queue] st st'; cbn [package_rules_loop]; try done.
    - intros [= <-]. split; [apply grows_refl|by intros w ?%elem_of_nil].
    - intros [= <-]. split; [apply grows_refl|by intros w ?%elem_of_nil].
    - destruct (package_id po p) as [i|] eqn:Hi; cbn [mbind res_bind]; [|done]. case_decide as Hd.
      + intros H. destruct (IH _ _ _ H) as [G1 G2]. split; [done|]. intros w [->|Hw]%elem_of_cons; [|auto].
        apply (has_mono st); [done|]. by exists i.
      + destruct (requires_rules _ _ _ _ _ _ _) as [[s1 more]|] eqn:H1; cbn [mbind res_bind]; [|done].
        destruct (conflicts_rules _ _ _ _ _) as [s2|] eqn:H2; cbn [mbind res_bind]; [|done]. intros H.
        apply requires_added in H1. apply conflicts_added in H2 as [H2 Hp]. cbn in H1.
        assert (E : g_added s2 = {[i]} ∪ g_added st) by congruence.
        destruct (IH _ _ _ H) as [G1 G2].
        assert (G0 : grows st s2).
        { unfold grows, all_readable. rewrite E. split; [set_solver|]. intros Hall q j Hj [Hij|Hij]%elem_of_union; [|by eapply Hall].
          apply elem_of_singleton in Hij as ->. apply (rep_package_id po l R) in Hi, Hj.
          assert (pkg_key q = pkg_key p) as Hk by exact (id_of_inj _ _ _ _ Hj Hi). unfold pkg_key in Hk.
          unfold readable in *. destruct Hp as [r Hr]. exists r. by replace (p_name q) with (p_name p) by congruence. }
        split; [exact (grows_trans _ _ _ G0 G1)|]. intros w [->|Hw]%elem_of_cons.
        * apply (has_mono s2); [done|]. exists i. split; [done|]. rewrite E. set_solver.
        * apply G2, elem_of_app. by left.
  Qed.
  Lemma package_rules_readable strict fuel p reqs st st' : package_rules po strict fuel p reqs st = Ok st' →
    grows st st' ∧ has st' p.
  Proof. intros H. destruct (loop_readable _ _ _ _ _ H) as [G1 G2]. split; [done|]. apply (G2 (p, reqs)). by left. Qed.
  Lemma job_rules_grows iids strict fuel j st st' : job_rules po iids strict fuel j st = Ok st' →
    grows st st' ∧
    ∀ r qs q i, (j_kind j = JInstall ∨ j_kind j = JSoftUpdate) → j_req j = Some r → what_provides po r false = Ok qs → q ∈ qs →
      package_id po q = Ok i → i ∉ iids.*1 → has st' q.
  Proof.
    unfold job_rules. 
    assert (Hinst : ∀ r, install_job_rules po iids strict fuel r st = Ok st' → grows st st' ∧
      ∀ qs q i, what_provides po r false = Ok qs → q ∈ qs → package_id po q = Ok i → i ∉ iids.*1 → has st' q).
    { intros r. unfold install_job_rules. destruct (what_provides po r false) as [qs|]; cbn [mbind res_bind]; [|done].
      destruct qs as [|q0 qs]; [done|]. 
      match goal with |- context [foldM ?f ?l st] => destruct (foldM f l st) as [s1|] eqn:H1; cbn [mbind res_bind]; [|done];
        set (F := f) in * end.
      destruct (one_of_rule _ _ _ _) as [ru|]; cbn [mbind res_bind]; [|done]. intros [= <-].
      assert (H := foldM_inv F (λ ys s, grows st s ∧ ∀ q i, q ∈ ys → package_id po q = Ok i → i ∉ iids.*1 → has s q) (q0 :: qs) st s1).
      feed specialize H; [split; [apply grows_refl|by intros q i ?%elem_of_nil]| |exact H1|].
      { intros ys x b b' [B1 B2] Hx. unfold F. destruct (package_id po x) as [i|] eqn:Hi; cbn [mbind res_bind]; [|done]. case_decide.
        - intros [= <-]. split; [done|]. intros q k [Hq|Hq]%elem_of_app Hj Hn; [by eapply B2|].
          apply elem_of_list_singleton in Hq as ->. congruence.
        - intros Hp%package_rules_readable. destruct Hp as [P1 P2]. split; [by eapply grows_trans|].
          intros q k [Hq|Hq]%elem_of_app Hj Hn; [eapply has_mono; [done|]; by eapply B2|]. by apply elem_of_list_singleton in Hq as ->. }
      destruct H as [G1 G2]. assert (G3 : grows s1 (add_rule s1 ru)) by apply grows_same, add_rule_added.
      split; [by eapply grows_trans|]. intros qs' q i [= <-] Hq Hi Hn. eapply has_mono; [done|]. by eapply G2. }
    destruct (j_kind j) eqn:Hkd, (j_req j) as [r|] eqn:Hreq; try done.
    - intros H. destruct (Hinst r H) as [G1 G2]. split; [done|]. intros r' qs q i _ [= <-]. apply G2.
    - intros H. split; [|by intros ? ? ? ? [?|?]]. unfold remove_job_rules in H. destruct (what_provides po r false); cbn [mbind res_bind] in H; [|done].
      apply foldM_grows in H; [done|]. intros x s s' _. destruct (remove_rule _ _ _ _); cbn [mbind res_bind]; [|done]. intros [= <-].
      apply grows_same, add_rule_added.
    - intros H. destruct (Hinst r H) as [G1 G2]. split; [done|]. intros r' qs q i _ [= <-]. apply G2.
    - intros H. split; [|by intros ? ? ? ? [?|?]]. unfold update_job_rules in H. destruct (what_provides po r false) as [[|q0 qs]|]; cbn [mbind res_bind] in H; [| |done].
      { injection H as <-. apply grows_refl. }
      destruct (package_rules _ _ _ _ _ _) as [s1|] eqn:H1; cbn [mbind res_bind] in H; [|done].
      destruct (package_id _ _); cbn [mbind res_bind] in H; [|done]. injection H as <-.
      eapply grows_trans; [apply (package_rules_readable _ _ _ _ _ _ H1)|]. apply grows_same, add_rule_added.
  Qed.
  Lemma iter_rules_readable iids strict fuel jobs st : iter_rules po iids strict fuel jobs = Ok st →
    all_readable st ∧
    (∀ ip, ip ∈ iids → has st ip.2) ∧
    (∀ j r qs q i, j ∈ jobs → (j_kind j = JInstall ∨ j_kind j = JSoftUpdate) → j_req j = Some r → what_provides po r false = Ok qs → q ∈ qs →
      package_id po q = Ok i → i ∉ iids.*1 → has st q).
  Proof.
    unfold iter_rules. destruct (foldM _ jobs _) as [s1|] eqn:H1; cbn [mbind res_bind]; [|done]. intros H2.
    apply (foldM_inv _ (λ ys s, grows (Gst [] ∅) s ∧ ∀ j r qs q i, j ∈ ys → (j_kind j = JInstall ∨ j_kind j = JSoftUpdate) → j_req j = Some r → what_provides po r false = Ok qs → q ∈ qs →
      package_id po q = Ok i → i ∉ iids.*1 → has s q)) in H1.
    2:{ split; [apply grows_refl|by intros ? ? ? ? ? ?%elem_of_nil]. }
    2:{ intros ys x b b' [B1 B2] _ Hj%job_rules_grows. destruct Hj as [J1 J2]. split; [by eapply grows_trans|].
        intros j r qs q i [Hj|Hj]%elem_of_app; [intros; eapply has_mono; [done|]; by eapply (B2 j)|].
        apply elem_of_list_singleton in Hj as ->. apply J2. }
    apply (foldM_inv _ (λ ys s, grows s1 s ∧ ∀ ip, ip ∈ ys → has s ip.2)) in H2.
    2:{ split; [apply grows_refl|by intros ? ?%elem_of_nil]. }
    2:{ intros ys x b b' [B1 B2] _. destruct (installed_package_rules _ _ _ _ _) as [b1|] eqn:Hb1; cbn [mbind res_bind]; [|done].
        intros Hp%package_rules_readable. destruct Hp as [P1 P2].
        assert (G : grows b b1).
        { apply foldM_grows in Hb1; [done|]. intros y s s' _ Hy. by apply (package_rules_readable _ _ _ _ _ _ Hy). }
        assert (G' : grows b b') by (by eapply grows_trans).
        split; [by eapply grows_trans|]. intros ip [Hip|Hip]%elem_of_app; [eapply has_mono; [exact G'|]; by apply B2|].
        by apply elem_of_list_singleton in Hip as ->. }
    destruct H1 as [A1 A2], H2 as [C1 C2]. split; [|split; [done|]].
    - apply (grows_trans _ _ _ A1 C1). intros p i _ Hi. by apply not_elem_of_empty in Hi.
    - intros j r qs q i; intros; eapply has_mono; [exact C1|]; by eapply (A2 j).
  Qed.
End names.

Lemma installed_ids_keys po inst iids : installed_ids po inst = Ok iids →
  ∀ p, p ∈ inst → ∃ i q, package_id po p = Ok i ∧ (i, q) ∈ iids ∧ package_id po q = Ok i.
Proof.
  assert (Hset : ∀ d i p j q, (j, q) ∈ d → (j, q) ∈ iset d i p ∨ j = i).
  { induction d as [|[k r] d IH]; intros i p j q H; [by apply elem_of_nil in H|]. cbn. destruct (k =? i) eqn:E.
    - apply Z.eqb_eq in E as ->. apply elem_of_cons in H as [[= -> ->]|H]; [by right|left; by right].
    - apply elem_of_cons in H as [[= -> ->]|H]; [left; by left|]. destruct (IH i p j q H); [left; by right|by right]. }
  assert (Hin : ∀ d i p, (i, p) ∈ iset d i p).
  { induction d as [|[k r] d IH]; intros i p; cbn; [by left|]. destruct (k =? i) eqn:E; [apply Z.eqb_eq in E as ->; by left|right; apply IH]. }
  intros H. refine (foldM_inv _ (λ ys d, ∀ p, p ∈ ys → ∃ i q, package_id po p = Ok i ∧ (i, q) ∈ d ∧ package_id po q = Ok i) _ _ _ _ _ H);
    [by intros p ?%elem_of_nil|].
  intros ys x d d' IH _. destruct (package_id po x) as [i|] eqn:Hi; cbn [mbind res_bind]; [|done]. intros [= <-] p [Hp|Hp]%elem_of_app.
  - destruct (IH p Hp) as (j & q & Hj & Hq & Hjq). destruct (Hset d i x j q Hq) as [?| ->]; [eauto|]. exists i, x. auto.
  - apply elem_of_list_singleton in Hp as ->. exists i, x. auto.
Qed.

(** If the solver gives any answer, it read the names of all installed packages. *)
Lemma solve_readable e ds fuel rq o repos m : pool_of repos m = Ok (ds_pool ds) → solve e ds fuel rq = Ok o →
  (∀ p, p ∈ ds_installed ds → readable p) ∧
  (∀ r k p, Job (Some r) k ∈ rq_jobs rq → k = JInstall ∨ k = JSoftUpdate → p ∈ mjoin repos → req_meets r p → readable p).
Proof.
  intros Hpo. unfold solve. destruct (convert_upgrade rq _ _) as [rq'|] eqn:Hc; cbn [mbind res_bind]; [|done].
  set (po := solve_pool (ds_pool ds) rq'). unfold create_rules.
  destruct (foldM (job_ids po (ds_installed ds)) (rq_jobs rq') ([], [])) as [[ids soft]|]; cbn [mbind res_bind]; [|done].
  destruct (installed_ids po (ds_installed ds)) as [iids|] eqn:Hi; cbn [mbind res_bind]; [|done].
  destruct (preferred_ids _ _ _ _); cbn [mbind res_bind]; [|done].
  destruct (iter_rules po iids _ _ _) as [st|] eqn:Hst; cbn [mbind res_bind]; [|done]. intros _.
  assert (R : pool_rep po (mjoin repos)).
  { unfold po, solve_pool. apply set_mods_rep. by apply (proj1 (pool_of_rep _ _ _ Hpo)). }
  destruct (iter_rules_readable po _ R _ _ _ _ _ Hst) as (G1 & G2 & G3).
  assert (Hh : ∀ p, has po st p → readable p) by (intros p (i & H1 & H2); by eapply G1).
  assert (HI : ∀ p i, package_id po p = Ok i → i ∈ iids.*1 → (∃ q, q ∈ ds_installed ds ∧ package_id po q = Ok i) → readable p).
  { intros p i Hp _ (q & Hq & Hqi). destruct (installed_ids_keys _ _ _ Hi q Hq) as (j & x & Hj & Hx & Hjx).
    assert (j = i) as -> by congruence. destruct (G2 _ Hx) as (j & Hj' & Hjin). cbn in Hj'. assert (j = i) as -> by congruence. by eapply G1. }
  split.
  - intros p Hp. destruct (installed_ids_keys _ _ _ Hi p Hp) as (i & x & Hpi & Hx & Hxi). apply (HI p i Hpi).
    + apply elem_of_list_fmap. by exists (i, x).
    + eauto.
  - intros r k p Hj Hk Hp Hm.
    assert (rq' = rq) as ->.
    { unfold convert_upgrade in Hc. destruct (rq_jobs rq) as [|j [|]] eqn:Ej; [by injection Hc| |by injection Hc].
      apply elem_of_list_singleton in Hj as <-. cbn in Hc. rewrite decide_False in Hc by (intros ->; destruct Hk; done). by injection Hc. }
    destruct (C38_what_provides repos (po_mods po) po r false) as (qs & Hqs & Hel); [|by right|].
    { unfold po, solve_pool. cbn. by eapply pool_of_mods. }
    assert (Hpq : p ∈ qs) by (apply Hel; destruct Hm as [M1 M2]; split; [done|]; split; [exact M1|]; unfold accepts; by destruct (po_mods po)).
    destruct (rep_package_id_total _ _ R p Hp) as (i & Hpi & _).
    destruct (decide (i ∈ iids.*1)) as [Hin|Hn].
    + apply (HI p i Hpi Hin). apply elem_of_list_fmap in Hin as ([i' x] & -> & Hx). cbn in *.
      clear -Hi Hx. unfold installed_ids in Hi.
      assert (H : ∀ d' , foldM (λ d p, i ← package_id po p; Ok (iset d i p)) (ds_installed ds) [] = Ok d' → ∀ i x, (i, x) ∈ d' → x ∈ ds_installed ds ∧ package_id po x = Ok i).
      { intros d' H. refine (foldM_inv _ (λ _ d, ∀ i x, (i, x) ∈ d → x ∈ ds_installed ds ∧ package_id po x = Ok i) _ _ _ _ _ H); [by intros ? ? ?%elem_of_nil|].
        intros ys y d d'' IH Hy. destruct (package_id po y) as [k|] eqn:Hk; cbn [mbind res_bind]; [|done]. intros [= <-] j z Hz.
        assert (Hs : ∀ d, (j, z) ∈ iset d k y → (j, z) ∈ d ∨ (j = k ∧ z = y)).
        { clear. induction d as [|[a b] d IHd]; cbn; [intros Hd%elem_of_list_singleton; right; by simplify_eq|].
          destruct (a =? k) eqn:E; [apply Z.eqb_eq in E as ->|]; intros [Hd|Hd]%elem_of_cons.
          - right. by simplify_eq.
          - left. by right.
          - left. rewrite Hd. by left.
          - destruct (IHd Hd); [left; by right|by right]. }
        destruct (Hs d Hz) as [?|[-> ->]]; [by apply IH|done]. }
      exists x. by apply (H iids Hi).
    + apply Hh. eapply (G3 (Job (Some r) k)); [exact Hj|by destruct Hk; [left|right]|reflexivity|exact Hqs|exact Hpq|exact Hpi|done].
Qed.

(** ** C57 *)
(** With an installed package whose name contains "-", the solver answers no request at all. *)
Theorem C57_installed : ∀ e repos m ds fuel rq o p, pool_of repos m = Ok (ds_pool ds) →
  p ∈ ds_installed ds → hyphenated (p_name p) → solve e ds fuel rq ≠ Ok o.
Proof.
  intros e repos m ds fuel rq o p Hpo Hp Hh H. apply (hyphenated_not p Hh). exact (proj1 (solve_readable _ _ _ _ _ _ _ Hpo H) p Hp).
Qed.
(** Nor a request to install something for which such a package is a candidate. *)
Theorem C57_candidate : ∀ e repos m ds fuel rq o r k p, pool_of repos m = Ok (ds_pool ds) →
  Job (Some r) k ∈ rq_jobs rq → k = JInstall ∨ k = JSoftUpdate → p ∈ mjoin repos → req_meets r p →
  hyphenated (p_name p) → solve e ds fuel rq ≠ Ok o.
Proof.
  intros e repos m ds fuel rq o r k p Hpo Hj Hk Hp Hm Hh H. apply (hyphenated_not p Hh).
  exact (proj2 (solve_readable _ _ _ _ _ _ _ Hpo H) r k p Hj Hk Hp Hm).
Qed.
(** Whatever else the solver is asked for: it answers without the "-", and with it raises InvalidConstraint. *)
Theorem C57_example :
  let p n := Pkg n (V 1 0) [] [] [] (Some "r"%string) in
  let run n := solve env0 (ds0 [[p n]] [[p n]] [] true false) 40 (ask [want n]) in
  hyphenated "numpy-nomkl" ∧ run "numpy-nomkl"%string = Raise InvalidConstraint ∧
  (∃ t, run "numpy_nomkl"%string = Ok (Normal t) ∧ t_ops t = [InstallOp (p "numpy_nomkl"%string)]).
Proof.
  split; [|split; [vm_compute; reflexivity|eexists; split; vm_compute; reflexivity]].
  exists (of_s "numpy"), (of_s "nomkl"). split; [done|]. split; [apply dist_by; vm_compute; reflexivity|]. split.
  - repeat constructor; by left.
  - intros H%version_first. by destruct H as (c & r & [= <- <-] & Hd).
Qed.
Print Assumptions C57_name. Print Assumptions C57_installed. Print Assumptions C57_candidate. Print Assumptions C57_example.
