(** * Properties C51 and C53: the explanations attached to rules, and the report of an
      unsatisfiable problem. *)
From Verif Require Import PoolProofs PropPool PropConstraints SpecSat ConstraintProofs PropSat PropRules SatLearn.
From Verif Require Export ReportProofs RulesAttrib PropLimits.

(** ** C53 *)
Theorem C53_rules_explained : ∀ repos m inst strict fuel jobs po st,
  generates repos m inst strict fuel jobs po st → well_formed (mjoin repos) →
  ∀ ru, ru ∈ g_rules st →
    explained po (mjoin repos) inst (default no_mods m) jobs ru ∧ StronglySorted Z.le (ru_lits ru) ∧
    (ru_reqs ru ≠ [] → ∃ j r, j ∈ jobs ∧ j_req j = Some r ∧ head (ru_reqs ru) = Some r).
Proof.
  intros repos m inst strict fuel jobs po st H Hinj ru Hru.
  destruct (gen_open _ _ _ _ _ _ _ _ H Hinj) as (iids & R & Hm & Hinst & Hii & Hst). rewrite <-Hm.
  destruct (iter_rules_explained po _ R Hinj inst Hinst iids Hii strict jobs fuel st Hst ru Hru) as [He Hso].
  split; [done|]. split; [done|]. intros Hne. destruct (ru_reqs ru) as [|r rs] eqn:E; [done|].
  destruct (explained_head po _ inst jobs ru r He) as (j & Hj & Hr); [by rewrite E|]. eauto.
Qed.

(** ** C51 *)
(** What the report consists of: [rp_rules] and [rp_reqs] are its attributes [rules] and
    [requirements], [text] the clauses of [SatisfiabilityError.reason], path by path. *)
Record reported (ord : gset nat → list nat) (c k : nat) (s : solver) (rp : report) (rules : list rule)
    (reqs : list requirement) (text : list (list (list Z))) : Prop := {
  rd_report : unsat_report ord s c k = Ok rp;
  rd_rules : report_rules s rp = Ok rules;
  rd_reqs : report_requirements s rp = Ok reqs;
  rd_text : report_reason s rp = Ok text }.

Definition same_lits (a b : list Z) : Prop := ∀ l, l ∈ a ↔ l ∈ b.
Definition common_var (a b : list Z) : Prop := ∃ l l', l ∈ a ∧ l' ∈ b ∧ Z.abs l = Z.abs l'.

Lemma sort_Z_canon a b : a ≡ₚ b → sort_Z a = sort_Z b.
Proof.
  intros H. apply (StronglySorted_unique Z.le); [apply sort_Z_sorted..|]. by rewrite !sort_Z_perm.
Qed.
Lemma filter_pair {A} (S : A → A → Prop) (Q : A → Prop) `{∀ x, Decision (Q x)} (l : list A) :
  ForallOrdPairs S l → ForallOrdPairs S (filter Q l).
Proof.
  induction 1 as [|x l Hx Hl IH]; [constructor|]. rewrite filter_cons. case_decide; [|done].
  constructor; [|done]. apply Forall_forall. intros y [_ Hy]%elem_of_list_filter. rewrite Forall_forall in Hx. auto.
Qed.
Lemma fromkeys_by_distinct {A} (eq : A → A → bool) (l : list A) :
  ForallOrdPairs (λ a b, eq a b = false) (fromkeys_by eq l).
Proof.
  induction l as [|x l IH]; cbn; [constructor|]. constructor; [|by apply filter_pair].
  apply Forall_forall. by intros y [? _]%elem_of_list_filter.
Qed.
Lemma ordpairs_map {A B} (f : A → B) (S : A → A → Prop) (T : B → B → Prop) l :
  (∀ a b, S a b → T (f a) (f b)) → ForallOrdPairs S l → ForallOrdPairs T (map f l).
Proof.
  intros H. induction 1 as [|x l Hx Hl IH]; cbn; constructor; [|done].
  rewrite Forall_forall in Hx. apply Forall_forall. intros y Hy.
  apply elem_of_list_In, in_map_iff in Hy as (z & <- & Hz%elem_of_list_In). auto.
Qed.

Section unsat.
  Context {P : Type} (pol : policy P) (PInv : P → Prop) (Extra : gset Z) (Dec : aset → Z → Prop).
  Context (rules : rules_t) (Hwf : wf_cnf rules.*1) (Hpol : good_policy rules.*1 Extra Dec pol PInv).
  Context (fuel : nat) (p : P) (Hp : PInv p) (c k : nat) (s : solver).
  Context (Hs : solve_clauses pol fuel p rules = Ok (Unsat c k s)).
  Lemma unsat_ok : UnsatOk rules c k s.
  Proof.
    destruct (solve_clauses_spec pol PInv rules Extra Dec Hpol Hwf p Hp) as (N & o' & HN & Ho).
    assert (o' = Unsat c k s) as ->; [|apply Ho].
    apply (solve_mono pol rules _ (max N fuel)) in Hs; [|lia]. rewrite HN in Hs by lia. by injection Hs.
  Qed.
End unsat.

Lemma mjoin_elem {A} (ls : list (list A)) x : x ∈ mjoin ls ↔ ∃ l, l ∈ ls ∧ x ∈ l.
Proof. rewrite elem_of_list_join. naive_solver. Qed.

Section rep.
  Context (rules : rules_t) (c k : nat) (s : solver) (Hu : UnsatOk rules c k s).
  Context (ord : gset nat → list nat) (Ho : set_order ord).

  Lemma text_spec rp : GoodReport k s ord rp →
    report_reason s rp = Ok (map (λ path, map (lits_of s)
      (fromkeys_by (λ a b, bool_decide (clause_key s a = clause_key s b)) path)) (rp_paths rp)).
  Proof.
    intros Hg. unfold report_reason.
    assert (H : ∀ ps, (∀ q, q ∈ ps → q ∈ rp_paths rp) →
      mapM_res (λ path, cs ← path_clauses s rp path; Ok (map (lits_of s) cs)) ps
      = Ok (map (λ path, map (lits_of s) (fromkeys_by (λ a b, bool_decide (clause_key s a = clause_key s b)) path)) ps)).
    { induction ps as [|q ps IH]; intros Hps; [done|]. cbn.
      rewrite (path_clauses_spec rules c k s Hu ord rp q Hg) by (apply Hps; left). cbn.
      rewrite IH by (intros ? ?; apply Hps; by right). done. }
    by apply H.
  Qed.

  (** A clause of the report. *)
  Lemma part_spec rp path x : GoodReport k s ord rp → path ∈ rp_paths rp → x ∈ path →
    ∃ r lits, rule_of s x = Some r ∧ (lits, Some r) ∈ rules ∧ ru_reqs r ≠ [] ∧ same_lits (lits_of s x) lits.
  Proof.
    intros Hg Hpa Hx. apply (det_rule rules c k s Hu). apply (report_det k s ord rp); [done|].
    apply mjoin_elem. eauto.
  Qed.

  Lemma share_common a b : share s a b → common_var (lits_of s a) (lits_of s b).
  Proof.
    intros (v & (l & Hl & Hla)%elem_of_list_fmap & (l' & Hl' & Hlb)%elem_of_list_fmap). exists l, l'.
    split_and!; [done|done|congruence].
  Qed.

  Lemma job_clause_true x : Report.job_clause s x = Ok true ↔ ∃ r, rule_of s x = Some r ∧ is_job (ru_reason r) = true.
  Proof.
    unfold Report.job_clause. destruct (rule_of s x) as [r|]; [|naive_solver]. split.
    - intros [= H]. eauto.
    - intros (r' & [= <-] & ->). done.
  Qed.
End rep.

(** For every unsatisfiable problem the report can be built and printed.  Its rules are rules of the
    problem that come from requests; its requirements are the first ones of these rules; what is printed
    are clauses of such rules, none twice in one part; a part is a chain of clauses with common variables
    from one end to another one, an end being a job or a clause that contains the contested literal. *)
Theorem C51_report : ∀ {P} (pol : policy P) PInv Extra Dec (rules : rules_t) fuel p c k s ord,
  wf_cnf rules.*1 → good_policy rules.*1 Extra Dec pol PInv → PInv p →
  solve_clauses pol fuel p rules = Ok (Unsat c k s) → set_order ord →
  ∃ rp rs qs text, reported ord c k s rp rs qs text ∧
    (∀ r, r ∈ rs → ru_reqs r ≠ [] ∧ ∃ lits, (lits, Some r) ∈ rules) ∧
    (∀ q, q ∈ qs → ∃ r, r ∈ rs ∧ head (ru_reqs r) = Some q) ∧
    (∀ r, r ∈ rs → ∃ q q', head (ru_reqs r) = Some q ∧ q' ∈ qs ∧ r_name q' = r_name q ∧ r_cons q' = r_cons q) ∧
    (∀ part cl, part ∈ text → cl ∈ part →
       ∃ r lits, (lits, Some r) ∈ rules ∧ ru_reqs r ≠ [] ∧ same_lits cl lits ∧ ∃ r', r' ∈ rs ∧ ru_lits r' = ru_lits r) ∧
    (∀ part, part ∈ text → ForallOrdPairs (λ a b, ¬ a ≡ₚ b) part) ∧
    (∀ path, path ∈ rp_paths rp → path = [] ∨
       (∀ i a b, path !! i = Some a → path !! S i = Some b → common_var (lits_of s a) (lits_of s b)) ∧
       ∃ a b, head path = Some a ∧ last path = Some b ∧
         ∀ x, x = a ∨ x = b → rp_implicand rp ∈ lits_of s x ∨ ∃ r, rule_of s x = Some r ∧ is_job (ru_reason r) = true).
Proof.
  intros P pol PInv Extra Dec rules fuel p c k s ord Hwf Hpol Hp Hs Ho.
  pose proof (unsat_ok pol PInv Extra Dec rules Hwf Hpol fuel p Hp c k s Hs) as Hu.
  destruct (unsat_report_spec rules c k s Hu ord Ho) as (rp & Hrp & Hg).
  destruct (report_requirements_spec rules c k s Hu ord rp Hg) as (rs & qs & Hrs & Hqs & Q1 & Q2).
  destruct (report_rules_spec rules c k s Hu ord rp Hg) as (rs' & Hrs' & R1 & R2).
  rewrite Hrs in Hrs'. injection Hrs' as <-.
  eexists rp, rs, qs, _. split; [split; [done|done|done|exact (text_spec rules c k s Hu ord rp Hg)]|].
  assert (H0 : ∀ (l : list requirement), l !! 0%nat = head l) by (by intros []).
  split_and!.
  - intros r (x & Hx & Hr)%R1. apply mjoin_elem in Hx as (path & Hpa & Hx).
    destruct (part_spec rules c k s Hu ord rp path x Hg Hpa Hx) as (r' & lits & Hr' & Hin & Hne & _).
    rewrite Hr in Hr'. injection Hr' as <-. eauto.
  - intros q (r & Hr & Hq)%Q1. exists r. by rewrite <-H0.
  - intros r (q & q' & Hq & Hq' & He)%Q2. exists q', q. rewrite <-H0. split_and!; [done|done|..];
      unfold req_eqb in He; apply bool_decide_eq_true in He; tauto.
  - intros part cl Hpart Hcl. apply elem_of_list_In, in_map_iff in Hpart as (path & <- & Hpa%elem_of_list_In).
    apply elem_of_list_In, in_map_iff in Hcl as (x & <- & Hx%elem_of_list_In). apply elem_of_fromkeys_by in Hx.
    destruct (part_spec rules c k s Hu ord rp path x Hg Hpa Hx) as (r & lits & Hr & Hin & Hne & Hl).
    exists r, lits. split_and!; [done..|]. destruct (R2 x) as (r1 & r2 & Hr2 & Hr1 & He).
    { apply mjoin_elem. eauto. }
    rewrite Hr in Hr2. injection Hr2 as <-. eauto.
  - intros part Hpart. apply elem_of_list_In, in_map_iff in Hpart as (path & <- & _).
    eapply ordpairs_map; [|apply fromkeys_by_distinct]. cbn beta. intros a b He%bool_decide_eq_false Hab.
    apply He. unfold clause_key. by apply sort_Z_canon.
  - intros path Hpa. destruct (gr_paths _ _ _ _ Hg path Hpa) as [-> |[G1 G2 (a & Ha & Ea) (b & Hb & Eb)]]; [by left|right].
    split.
    { intros i x y Hx Hy. apply share_common. by eapply G2. }
    exists a, b. split_and!; [done|done|]. intros x [-> | ->].
    + apply (elem_of_end_clauses _ _ Ho) in Ea as (_ & _ & [?|H]); [by left|right]. by apply job_clause_true.
    + apply (elem_of_end_clauses _ _ Ho) in Eb as (_ & _ & [?|H]); [by left|right]. by apply job_clause_true.
Qed.

(** ** The report of the dependency solver *)
Section transport.
  Context (po po' : pool) (l inst : list package) (m m' : modifiers) (jobs jobs' : list job).
  Context (Hid : ∀ p i, has_id po p i ↔ has_id po' p i).
  Context (Hm : ∀ n c v, relaxed m n c v ↔ relaxed m' n c v) (Hj : ∀ j, j ∈ jobs → j ∈ jobs').
  Lemma led_ext rs p : led_to l m jobs rs p → led_to l m' jobs' rs p.
  Proof.
    induction 1 as [j r p Hi Hr Hp Hq|rs p d r q H IH Hd Hf Hq Hdm]; [eapply led_job; eauto|].
    eapply led_dep; eauto. by apply (dep_meets_mods m m' Hm).
  Qed.
  Lemma because_ext p r reqs : because l m jobs p r reqs → because l m' jobs' p r reqs.
  Proof. intros [?|(rs & H & ?)]; [by left|right]. exists rs. split; [by apply led_ext|done]. Qed.
  Lemma explained_ext ru : explained po l inst m jobs ru → explained po' l inst m' jobs' ru.
  Proof.
    pose proof (dep_meets_mods m m' Hm) as Hd.
    unfold explained. destruct (ru_reason ru).
    - intros (j & r & ? & ? & ? & ? & Hz). exists j, r. split_and!; [auto..|]. intros x. rewrite Hz.
      split; intros (p & ? & ? & ?); exists p; split_and!; auto; by apply Hid.
    - intros (j & r & p & i & ? & ? & ? & ? & ? & ? & ? & ?). exists j, r, p, i. split_and!; auto; by apply Hid.
    - intros (j & r & p & i & ? & ? & ? & ? & ? & ? & ?). exists j, r, p, i. split_and!; auto; by apply Hid.
    - intros (p & i & d & r & ? & Hi & ? & ? & Hb & (q & ? & ?) & Hz). exists p, i, d, r.
      split_and!; [done|by apply Hid|done|done|by apply because_ext| |].
      + exists q. split; [done|by apply Hd].
      + destruct Hz as (ls & Hp & Hz). exists ls. split; [done|]. intros x. rewrite Hz.
        split; (intros (q' & ? & ? & ? & ?); exists q'; split_and!; try done); by (apply Hd || apply Hid).
    - intros (p & i & d & r & q & k & ? & ? & ? & ? & ? & ? & ? & ? & Hb & Hz). exists p, i, d, r, q, k.
      split_and!; try done; [by apply Hid..|by apply because_ext].
    - intros (p & i & q & k & ? & ? & ? & ? & ? & ? & Hb & Hz). exists p, i, q, k.
      split_and!; try done; [by apply Hid..|by apply because_ext].
    - intros (p & i & d & r & ? & Hi & ? & ? & Hb & Hn & Hz). exists p, i, d, r.
      split_and!; [done|by apply Hid|done|done|by apply because_ext| |done].
      intros (q & ? & ?). apply Hn. exists q. split; [done|by apply Hd].
  Qed.
End transport.

Lemma rep_ids po po' l p i : pool_rep po l → pool_rep po' l → has_id po p i ↔ has_id po' p i.
Proof.
  intros R R'. unfold has_id, package_id. pose proof (pr_p2i _ _ R p i) as H. pose proof (pr_p2i _ _ R' p i) as H'.
  assert (G : ∀ o : option Z, of_option ValueError o = Ok i ↔ o = Some i) by (intros []; cbn; naive_solver).
  rewrite !G, H, H'. done.
Qed.

(** Rules about the packages of the pool can be printed. *)
Section print.
  Context (po : pool) (l : list package) (R : pool_rep po l) (Hinj : well_formed l).
  Context (vstr : version → string) (rstr : requirement → string).
  Definition known (x : Z) : Prop := ∃ q, q ∈ l ∧ has_id po q (Z.abs x).
  Lemma known_string x : known x → ∃ t, id_to_string vstr po x = Ok t.
  Proof.
    intros (q & Hq & Hi). unfold id_to_string. apply (has_id_pid po l R q _ Hq) in Hi. rewrite Hi.
    pose proof (pid_package po l R Hinj q Hq) as H. unfold id_to_package in H.
    destruct (zdict_get _ _); [cbn; eauto|done].
  Qed.
  Lemma pretty_ok lits sign unique : (∀ x, x ∈ lits → known x) → ∃ t, pretty_literals vstr po lits sign unique = Ok t.
  Proof.
    intros H. unfold pretty_literals.
    destruct (mapM_res_ok (id_to_string vstr po) (λ _ _, True) lits) as (ys & -> & _).
    { intros x Hx. destruct (known_string x (H x Hx)) as [t Ht]. eauto. }
    cbn. eauto.
  Qed.
  Lemma known_abs x : known x → known (Z.abs x).
  Proof. unfold known. by rewrite Z.abs_involutive. Qed.
  Lemma rule_string_ok r unique : ru_lits r ≠ [] → (∀ x, x ∈ ru_lits r → known x) →
    ∃ t, rule_to_string vstr rstr po r unique = Ok t.
  Proof.
    intros Hne H. unfold rule_to_string.
    assert (Ha : ∀ ls : list Z, (∀ x, x ∈ ls → x ∈ ru_lits r) → ∀ x, x ∈ Z.abs <$> ls → known x).
    { intros ls Hls x (y & -> & Hy)%elem_of_list_fmap. apply known_abs. auto. }
    assert (Hdrop : ∀ x, x ∈ drop 1 (ru_lits r) → x ∈ ru_lits r).
    { intros x Hx. destruct (ru_lits r); [done|]. by right. }
    assert (Htake : ∀ x, x ∈ take 1 (ru_lits r) → x ∈ ru_lits r).
    { intros x Hx. destruct (ru_lits r); [done|]. cbn in Hx. apply elem_of_list_singleton in Hx as ->. left. }
    assert (Hx0 : ∃ x0, ru_lits r !! 0%nat = Some x0 ∧ known x0).
    { destruct (ru_lits r) as [|x0 ls] eqn:E; [done|]. exists x0. split; [done|]. apply H. left. }
    destruct Hx0 as (x0 & Hx0 & Hk0).
    assert (Hd : ∃ d, rule_desc vstr po r unique = Ok d).
    { unfold rule_desc. destruct (pretty_ok (ru_lits r) true unique H) as (t & ->). rewrite res_bind_ok.
      destruct (ru_reason r); eauto.
      - rewrite Hx0. cbn [of_option]. rewrite res_bind_ok.
        destruct (pretty_ok [Z.abs x0] true unique) as (t1 & ->).
        { intros x ->%elem_of_list_singleton. by apply known_abs. }
        rewrite res_bind_ok. destruct (pretty_ok (drop 1 (ru_lits r)) true unique) as (t2 & ->); [auto|].
        rewrite res_bind_ok. eauto.
      - destruct (pretty_ok (take 1 (ru_lits r)) false false) as (t1 & ->); [auto|]. rewrite res_bind_ok.
        destruct (pretty_ok (Z.abs <$> drop 1 (ru_lits r)) true false) as (t2 & ->); [by apply Ha|]. rewrite res_bind_ok. eauto.
      - destruct (pretty_ok (Z.abs <$> ru_lits r) true unique) as (t1 & ->); [by apply Ha|]. rewrite res_bind_ok. eauto.
      - rewrite Hx0. cbn [of_option]. rewrite res_bind_ok.
        destruct (known_string (Z.abs x0)) as (t1 & ->); [by apply known_abs|]. rewrite res_bind_ok. eauto. }
    destruct Hd as (d & ->). rewrite res_bind_ok. eauto.
  Qed.
End print.

(** After a SatisfiabilityError of [solve]: the report can be built; every rule in it is explained by the
    request, its requirements are requirements of jobs, and it can be printed with the pool, however
    versions and requirements are printed. *)
Theorem C51_solve : ∀ e repos ds rq jobs fuel c k s ord, env_ok e → setting repos ds → asks ds rq jobs →
  solve e ds fuel rq = Ok (Unsat c k s) → set_order ord →
  ∃ rp rs qs text, reported ord c k s rp rs qs text ∧
    (∀ r, r ∈ rs → ru_reqs r ≠ [] ∧
       explained (ds_pool ds) (mjoin repos) (ds_installed ds) (rq_mods rq) jobs r) ∧
    (∀ q, q ∈ qs → ∃ j, j ∈ jobs ∧ j_req j = Some q) ∧
    (∀ vstr rstr, ∃ str, report_to_string vstr rstr (ds_pool ds) s rp = Ok str).
Proof.
  intros e repos ds rq jobs fuel c k s ord He Hset Hask Hsolve Hord.
  pose proof Hset as [[m0 Hpool] Hinst Hinj]. destruct (pool_of_rep _ _ _ Hpool) as [R0 _].
  destruct (solve_open e repos ds fuel rq jobs _ He Hset Hask Hsolve)
    as (po & jobs' & ids & rules & uenv & ust & iids & st & [R Hmods Hjobs PB Hout]).
  destruct (pol_good e He po _ R Hinj _ Hinst _ _ _ _ _ _ _ _ _ PB) as [Hwf Hpol].
  pose proof (ust_good e He po _ R Hinj _ Hinst _ _ _ _ _ _ _ _ _ PB) as Hust.
  destruct (C51_report _ _ _ _ _ fuel (ust, [], []) c k s ord Hwf Hpol Hust Hout Hord)
    as (rp & rs & qs & text & Hrep & H1 & H2 & _ & _ & _ & _).
  assert (Hexp : ∀ r, r ∈ g_rules st → explained (ds_pool ds) (mjoin repos) (ds_installed ds) (rq_mods rq) jobs r).
  { intros r Hr. eapply (explained_ext po); [| | |].
    - intros p i. by apply (rep_ids _ _ (mjoin repos)).
    - exact Hmods.
    - intros j. apply Hjobs.
    - refine (proj1 (iter_rules_explained po _ R Hinj _ Hinst iids (pb_iids _ _ _ _ _ _ _ _ _ _ _ _ _ PB) _ jobs' fuel st
              (pb_st _ _ _ _ _ _ _ _ _ _ _ _ _ PB) r Hr)). }
  assert (Hin : ∀ lits r, (lits, Some r) ∈ rule_clauses rules → r ∈ g_rules st ∧ lits = ru_lits r).
  { intros lits r (r' & [= -> ->] & Hr)%elem_of_list_fmap. rewrite (pb_rules _ _ _ _ _ _ _ _ _ _ _ _ _ PB) in Hr. done. }
  exists rp, rs, qs, text. split_and!; [done|..].
  - intros r (Hne & lits & Hr)%H1. split; [done|]. apply Hin in Hr as [Hr _]. auto.
  - intros q (r & Hr & Hq)%H2. apply H1 in Hr as (Hne & lits & Hr). apply Hin in Hr as [Hr _].
    destruct (explained_head po (mjoin repos) (ds_installed ds) jobs' r q) as (j & Hj & Hjr); [|done|].
    { refine (proj1 (iter_rules_explained po _ R Hinj _ Hinst iids (pb_iids _ _ _ _ _ _ _ _ _ _ _ _ _ PB) _ jobs' fuel st
              (pb_st _ _ _ _ _ _ _ _ _ _ _ _ _ PB) r Hr)). }
    exists j. split; [by apply Hjobs|done].
  - intros vstr rstr.
    pose proof (unsat_ok _ _ _ _ _ Hwf Hpol fuel (ust, [], []) Hust c k s Hout) as Hu.
    destruct (unsat_report_spec _ c k s Hu ord Hord) as (rp' & Hrp & Hg).
    rewrite (rd_report _ _ _ _ _ _ _ _ Hrep) in Hrp. injection Hrp as <-.
    unfold report_to_string.
    destruct (mapM_res_ok (path_string vstr rstr (ds_pool ds) s rp) (λ _ _, True) (rp_paths rp)) as (ys & -> & _); [|cbn; eauto].
    intros path Hpath. unfold path_string.
    rewrite (path_clauses_spec _ c k s Hu ord rp path Hg Hpath), res_bind_ok.
    match goal with |- context [mapM_res ?f ?cs] =>
      destruct (mapM_res_ok f (λ _ _, True) cs) as (zs & -> & _); [|cbn; eauto] end.
    intros x Hx%elem_of_fromkeys_by.
    destruct (part_spec _ c k s Hu ord rp path x Hg Hpath Hx) as (r & lits & Hr & Hin' & _ & _).
    rewrite Hr. cbn [of_option]. rewrite res_bind_ok. apply Hin in Hin' as [Hrst ->].
    assert (Hrl : ru_lits r ∈ rule_lits st) by (by apply elem_of_list_fmap_1).
    destruct (rule_string_ok (ds_pool ds) _ R0 Hinj vstr rstr r true) as (t & ->); [| |eauto].
    + intros E. rewrite E in Hrl. revert Hrl.
      apply (rules_nonempty po _ R Hinj _ Hinst iids (pb_iids _ _ _ _ _ _ _ _ _ _ _ _ _ PB) _ _ jobs' st
              (pb_st _ _ _ _ _ _ _ _ _ _ _ _ _ PB)).
    + intros y Hy.
      destruct (rules_lits po _ R Hinj _ Hinst iids (pb_iids _ _ _ _ _ _ _ _ _ _ _ _ _ PB) _ _ jobs' st
              (pb_st _ _ _ _ _ _ _ _ _ _ _ _ _ PB) (ru_lits r) y Hrl Hy) as (q & Hq & Hy').
      exists q. split; [done|]. apply (rep_ids po _ (mjoin repos)); [done|done|].
      pose proof (pid_pos po _ R q Hq). replace (Z.abs y) with (pid po q) by lia.
      by apply (has_pid po _ R).
Qed.

(** ** Examples and limits *)
Definition try_report (ds : dep_solver) (rq : request) : option (list rule * list requirement * list (list (list Z))) :=
  match solve env0 ds 60 rq with
  | Ok (Unsat c k s) =>
      match unsat_report elements s c k with
      | Ok rp => match report_rules s rp, report_requirements s rp, report_reason s rp with
                 | Ok rs, Ok qs, Ok text => Some (rs, qs, text)
                 | _, _, _ => None
                 end
      | Raise _ => None
      end
  | _ => None
  end.
Lemma try_report_spec ds rq rs qs text : try_report ds rq = Some (rs, qs, text) →
  ∃ c k s rp, solve env0 ds 60 rq = Ok (Unsat c k s) ∧ reported elements c k s rp rs qs text.
Proof.
  unfold try_report. destruct (solve _ _ _ _) as [[t|c k s]|] eqn:E; try done.
  destruct (unsat_report _ _ _ _) as [rp|] eqn:Er; [|done].
  destruct (report_rules s rp) as [rs'|] eqn:E1; [|done]. destruct (report_requirements s rp) as [qs'|] eqn:E2; [|done].
  destruct (report_reason s rp) as [t'|] eqn:E3; [|done]. intros [= -> -> ->]. exists c, k, s, rp. split; [done|]. by split.
Qed.
Lemma elements_order : set_order elements.
Proof. intros X. split; [apply NoDup_elements|apply elem_of_elements]. Qed.
Local Notation a_req n := (Req RInstall n [CAny]).
Local Notation dep_req n := (Req RInstall n []).
Local Notation rem_pkg n rq cf := (Pkg n (V 1 0) rq cf [] (Some "r")).

(** A complete report: A is wanted, B is wanted, A conflicts with B. *)
Definition c51_pkgs : list package := [rem_pkg "A" [] [("B", [])]; rem_pkg "B" [] []].
Definition c51_ds : dep_solver := ds0 [c51_pkgs] [c51_pkgs] [] true false.
Theorem ex_report : ∃ c k s rp rs qs text, solve env0 c51_ds 60 (ask [want "A"; want "B"]) = Ok (Unsat c k s) ∧
  reported elements c k s rp rs qs text ∧ setting [c51_pkgs] c51_ds ∧
  rs = [Rule [1] Package.job_install [a_req "A"];
        Rule [-2; -1] package_conflicts [a_req "A"; Req RConflict "B" []];
        Rule [2] Package.job_install [a_req "B"]] ∧
  qs = [a_req "A"; a_req "B"] ∧ text = [[[1]; [-2; -1]; [2]]].
Proof.
  edestruct (try_report_spec c51_ds (ask [want "A"; want "B"])) as (c & k & s & rp & H1 & H2); [vm_compute; reflexivity|].
  eexists c, k, s, rp, _, _, _. split; [exact H1|]. split; [exact H2|]. split; [apply setting_b_spec; vm_compute; reflexivity|].
  split; [reflexivity|]. split; reflexivity.
Qed.

(** The rules of the report need not be contradictory, nor contain a job: A is wanted, A requires B, B
    requires C, C requires D and conflicts with D.  Only "B requires C" is reported. *)
Definition c51_chain : list package :=
  [rem_pkg "A" [("B", [])] []; rem_pkg "B" [("C", [])] []; rem_pkg "C" [("D", [])] [("D", [])]; rem_pkg "D" [] []].
Definition c51_chain_ds : dep_solver := ds0 [c51_chain] [c51_chain] [] true false.
Theorem C51_core_refuted : ∃ c k s rp rs qs text, solve env0 c51_chain_ds 60 (ask [want "A"]) = Ok (Unsat c k s) ∧
  setting [c51_chain] c51_chain_ds ∧ reported elements c k s rp rs qs text ∧
  rs = [Rule [-2; 3] package_requires [a_req "A"; dep_req "B"; dep_req "C"]] ∧ satisfiable (ru_lits <$> rs).
Proof.
  edestruct (try_report_spec c51_chain_ds (ask [want "A"])) as (c & k & s & rp & H1 & H2); [vm_compute; reflexivity|].
  eexists c, k, s, rp, _, _, _. split; [exact H1|]. split; [apply setting_b_spec; vm_compute; reflexivity|].
  split; [exact H2|]. split; [reflexivity|]. exists (λ v, true). intros cl ->%elem_of_list_singleton. exists 3.
  split; [right; left|]. done.
Qed.

(** The report can be empty: A is installed and wanted again, its dependency B requires C and conflicts
    with C.  The rules about A come from what is installed and so carry no requirement. *)
Definition c51_inst : list package := [Pkg "A" (V 1 0) [("B", [])] [] [] (Some "i")].
Definition c51_rem : list package := [rem_pkg "B" [("C", [])] [("C", [])]; rem_pkg "C" [] []].
Definition c51_empty_ds : dep_solver := ds0 [c51_rem; c51_inst] [c51_rem] c51_inst true false.
Theorem C51_empty_refuted : ∃ c k s rp rs qs text, solve env0 c51_empty_ds 60 (ask [want "A"]) = Ok (Unsat c k s) ∧
  setting [c51_rem; c51_inst] c51_empty_ds ∧ reported elements c k s rp rs qs text ∧
  rs = [] ∧ qs = [] ∧ text = [[]].
Proof.
  edestruct (try_report_spec c51_empty_ds (ask [want "A"])) as (c & k & s & rp & H1 & H2); [vm_compute; reflexivity|].
  eexists c, k, s, rp, _, _, _. split; [exact H1|]. split; [apply setting_b_spec; vm_compute; reflexivity|].
  split; [exact H2|]. split; [reflexivity|]. split; reflexivity.
Qed.

(** The printed description of a conflict can name the wrong package as the one that conflicts: the
    literals are sorted, so it is always the one with the greater id. *)
Definition one (v : version) : string := "1".
Theorem C53_direction_refuted : ∃ po st ru, generates [c51_pkgs] None [] false 60 [want "A"; want "B"] po st ∧
  ru ∈ g_rules st ∧ ru_reason ru = package_conflicts ∧
  rule_desc one po ru true = Ok "B-1 conflicts with +A-1" ∧
  ∀ p, p ∈ c51_pkgs → p_name p = "B" → p_conflicts p = [].
Proof.
  destruct (pool_of [c51_pkgs] None) as [po|] eqn:Ep; [|vm_compute in Ep; done].
  destruct (iter_rules po [] false 60 [want "A"; want "B"]) as [st|] eqn:Es.
  - exists po, st, (Rule [-2; -1] package_conflicts [a_req "A"; Req RConflict "B" []]).
    vm_compute in Ep. injection Ep as <-. vm_compute in Es. injection Es as <-.
    split. { split; [by vm_compute|]. split; [by intros ? ?%elem_of_nil|]. exists []. split; by vm_compute. }
    split; [left|]. split; [done|]. split; [by vm_compute|].
    intros p [-> |[-> |?%elem_of_nil]%elem_of_cons]%elem_of_cons; done.
  - vm_compute in Ep. injection Ep as <-. vm_compute in Es. done.
Qed.

Print Assumptions C53_rules_explained.
Print Assumptions C51_report.
Print Assumptions C51_solve.
Print Assumptions C51_core_refuted.
Print Assumptions C51_empty_refuted.
Print Assumptions C53_direction_refuted.
