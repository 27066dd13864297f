(** * Property C78: packages_from_requirements selects, in the order of keys. *)
From Verif Require Import Selection SpecApi PropApi RepositoryProofs PoolProofs SortUniq PropPool SpecSolve SpecCheck.

(** The order of the tuples of metadata strings: some strict total order. *)
Definition total_order (dlt : list cdep → list cdep → bool) : Prop :=
  (∀ a, dlt a a = false) ∧ (∀ a b c, dlt a b = true → dlt b c = true → dlt a c = true) ∧ (∀ a b, dlt a b = true ∨ a = b ∨ dlt b a = true).

(** [p] is listed before [q]: by name, version, dependencies, conflicts. *)
Definition key_before (dlt : list cdep → list cdep → bool) (p q : package) : Prop :=
  str_ltb (p_name p) (p_name q) = true ∨
  (p_name p = p_name q ∧
   (vlt (p_version p) (p_version q) ∨
    (p_version p = p_version q ∧
     (dlt (p_requires p) (p_requires q) = true ∨
      (p_requires p = p_requires q ∧ dlt (p_conflicts p) (p_conflicts q) = true))))).
(** The two packages cannot be ordered: only one is of a repository, or they are copies from two repositories. *)
Definition unordered (p q : package) : Prop :=
  (is_Some (p_repo p) ∧ p_repo q = None) ∨
  (is_Some (p_repo p) ∧ is_Some (p_repo q) ∧ p_repo p ≠ p_repo q ∧
   p_name p = p_name q ∧ p_version p = p_version q ∧ p_requires p = p_requires q ∧ p_conflicts p = p_conflicts q).

Section order.
  Context (dlt : list cdep → list cdep → bool) (Hd : total_order dlt).
  Lemma ver_lt_iff a b : ver_ltb a b = true ↔ vlt a b.
  Proof. unfold ver_ltb, vlt. rewrite orb_true_iff, andb_true_iff, !Z.ltb_lt, Z.eqb_eq. done. Qed.
  Lemma ver_total a b : vlt a b ∨ a = b ∨ vlt b a.
  Proof.
    destruct a as [a1 a2], b as [b1 b2]. unfold vlt. cbn.
    destruct (Z.lt_total a1 b1) as [|[->|]]; [lia| |lia]. destruct (Z.lt_total a2 b2) as [|[->|]]; [lia|auto|lia].
  Qed.
  Lemma vlt_irrefl a : ¬ vlt a a.
  Proof. unfold vlt. lia. Qed.
  Lemma vlt_trans a b c : vlt a b → vlt b c → vlt a c.
  Proof. unfold vlt. lia. Qed.
  Lemma dlt_asym a b : dlt a b = true → dlt b a = true → False.
  Proof. destruct Hd as (Hi & Ht & _). intros H1 H2. specialize (Ht _ _ _ H1 H2). by rewrite Hi in Ht. Qed.
  Lemma key_lt_iff p q : key_lt dlt (plain_key p) (plain_key q) = true ↔ key_before dlt p q.
  Proof.
    destruct Hd as (Hi & _ & _). unfold key_lt, plain_key, key_before.
    destruct (decide (p_name p = p_name q)) as [En|En].
    2:{ split; [by left|]. intros [?|[? _]]; done. }
    rewrite En, str_ltb_irrefl. destruct (decide (p_version p = p_version q)) as [Ev|Ev].
    2:{ rewrite ver_lt_iff. split; [by right; split; [|left]|]. intros [?|[_ [?|[? _]]]]; done. }
    rewrite Ev. assert (Hv := vlt_irrefl (p_version q)).
    destruct (decide (p_requires p = p_requires q)) as [Er|Er]; [rewrite Er, Hi|].
    - naive_solver.
    - naive_solver.
  Qed.
  Lemma before_irrefl p q : plain_key p = plain_key q → ¬ key_before dlt p q.
  Proof.
    destruct Hd as (Hi & _ & _). unfold plain_key, key_before. intros [= -> -> -> ->].
    rewrite str_ltb_irrefl, !Hi. assert (Hv := vlt_irrefl (p_version q)). naive_solver.
  Qed.
  Lemma before_total p q : key_before dlt p q ∨ plain_key p = plain_key q ∨ key_before dlt q p.
  Proof.
    destruct Hd as (_ & _ & Ht). unfold key_before, plain_key.
    destruct (str_total (p_name p) (p_name q)) as [?|[En|?]]; [by left; left| |by right; right; left].
    destruct (ver_total (p_version p) (p_version q)) as [?|[Ev|?]]; [by left; right; split; [|left]| |by right; right; right; split; [|left]].
    destruct (Ht (p_requires p) (p_requires q)) as [?|[Er|?]];
      [left; right; split; [done|right; split; [done|by left]]| |right; right; right; split; [done|right; split; [done|by left]]].
    destruct (Ht (p_conflicts p) (p_conflicts q)) as [?|[Ec|?]];
      [left; right; split; [done|right; split; [done|right; done]]| |right; right; right; split; [done|right; split; [done|right; done]]].
    right. left. congruence.
  Qed.
  Lemma before_trans p q r : key_before dlt p q → key_before dlt q r → key_before dlt p r.
  Proof.
    destruct Hd as (_ & Ht & _). unfold key_before.
    intros [H1|(E1 & H1)] [H2|(E2 & H2)];
      [left; by eapply str_ltb_trans|left; by rewrite <- E2|left; by rewrite E1|]. right. split; [congruence|].
    destruct H1 as [H1|(F1 & H1)], H2 as [H2|(F2 & H2)];
      [left; by eapply vlt_trans|left; by rewrite <- F2|left; by rewrite F1|]. right. split; [congruence|].
    destruct H1 as [H1|(G1 & H1)], H2 as [H2|(G2 & H2)];
      [left; by eapply Ht|left; by rewrite <- G2|left; by rewrite G1|]. right. split; [congruence|]. by eapply Ht.
  Qed.
  Let lt p q := key_lt dlt (plain_key p) (plain_key q).
  Lemma lt_false p q : lt p q = false ↔ ¬ key_before dlt p q.
  Proof. rewrite <- key_lt_iff. unfold lt. destruct (key_lt _ _ _); naive_solver. Qed.
  Lemma before_key p p' q : plain_key p = plain_key p' → key_before dlt p q ↔ key_before dlt p' q.
  Proof. rewrite <- !key_lt_iff. by intros ->. Qed.
  Lemma lt_irr p : lt p p = false.
  Proof. apply lt_false. by apply before_irrefl. Qed.
  Lemma lt_as p q : lt p q = true → lt q p = false.
  Proof. intros H%key_lt_iff. apply lt_false. intros H2. by eapply (before_irrefl p p), before_trans. Qed.
  Lemma lt_co p q r : lt q p = false → lt r q = false → lt r p = false.
  Proof.
    rewrite !lt_false. intros H1 H2 H3. destruct (before_total p q) as [A|[A|A]]; [|rewrite <- !key_lt_iff in *|done].
    - apply H2. by eapply before_trans.
    - rewrite A in H3. by apply H2.
  Qed.
  Lemma keq_key p q : keq lt p q ↔ plain_key p = plain_key q.
  Proof.
    unfold keq. rewrite !lt_false. split; [intros [H1 H2]; destruct (before_total p q) as [?|[?|?]]; done|].
    intros E. split; by apply before_irrefl.
  Qed.
End order.

Lemma compare_iff p q : can_compare p q = true ↔ ¬ unordered p q ∧ ¬ unordered q p.
Proof.
  unfold can_compare, unordered, plain_key. destruct (p_repo p) as [i|], (p_repo q) as [j|]; cbn.
  - rewrite bool_decide_eq_true. split.
    + intros [H|H]; (split; [intros [[_ ?]|(_ & _ & G & ? & ? & ? & ?)]|intros [[_ ?]|(_ & _ & G & ? & ? & ? & ?)]]); try done; try congruence.
    + intros [H _]. destruct (decide (i = j)); [by right|left]. intros [= ? ? ? ?]. apply H. right. repeat split; eauto. congruence.
  - split; [done|]. intros [H _]. exfalso. apply H. eauto.
  - split; [done|]. intros [_ H]. exfalso. apply H. eauto.
  - split; [|done]. intros _. split; intros [[[? ?] ?]|[[? ?] ?]]; done.
Qed.
Lemma sorted_ok dlt l : is_ok (sorted_by_key dlt l) = true ↔ ∀ p q, p ∈ l → q ∈ l → ¬ unordered p q.
Proof.
  unfold sorted_by_key. destruct (forallb _ l) eqn:E.
  - split; [|done]. intros _ p q Hp Hq. rewrite forallb_forall in E. specialize (E p (proj1 (elem_of_list_In _ _) Hp)).
    rewrite forallb_forall in E. specialize (E q (proj1 (elem_of_list_In _ _) Hq)). by apply compare_iff in E as [? _].
  - split; [done|]. intros H. exfalso. apply not_true_iff_false in E. apply E. apply forallb_forall. intros p Hp%elem_of_list_In.
    apply forallb_forall. intros q Hq%elem_of_list_In. apply compare_iff. split; by apply H.
Qed.
(** In a set of packages that can be sorted, plain keys are keys. *)
Lemma plain_unique (l : list package) : (∀ p q, p ∈ l → q ∈ l → ¬ unordered p q) → (∀ p q, p ∈ l → q ∈ l → pkg_key p = pkg_key q → p = q) →
  ∀ p q, p ∈ l → q ∈ l → plain_key p = plain_key q → p = q.
Proof.
  intros Hu Hk p q Hp Hq E. apply Hk; [done|done|]. assert (Hpq := Hu p q Hp Hq). assert (Hqp := Hu q p Hq Hp).
  unfold plain_key in E. injection E as E1 E2 E3 E4. unfold pkg_key. rewrite E1, E2, E3, E4. f_equal.
  unfold unordered in *. destruct (p_repo p) as [i|], (p_repo q) as [j|]; try done.
  - destruct (decide (Some i = Some j)); [done|]. exfalso. apply Hpq. right. repeat split; eauto.
  - exfalso. apply Hpq. eauto.
  - exfalso. apply Hqp. eauto.
Qed.

Lemma fold_nodup (qs : list package) : ∀ acc, NoDup acc → NoDup (foldl (λ acc q, if pkg_in q acc then acc else acc ++ [q]) acc qs).
Proof.
  induction qs as [|q qs IH]; intros acc Hn; cbn; [done|]. destruct (pkg_in q acc) eqn:E; [auto|]. apply IH.
  apply NoDup_app. split; [done|]. split; [|apply NoDup_singleton]. intros x Hx ->%elem_of_list_singleton.
  assert (pkg_in q acc = true); [|congruence]. unfold pkg_in. apply existsb_exists. exists q. split; [by apply elem_of_list_In|].
  by apply bool_decide_eq_true.
Qed.
Lemma listed_nodup ps reqs m l : packages_from_requirements (λ l, l) ps reqs m = Ok l → NoDup l.
Proof.
  unfold packages_from_requirements. destruct (pool_of _ _) as [po|]; cbn [mbind res_bind]; [|done].
  intros H. assert (G : ∀ rs acc l, NoDup acc →
    foldM (λ acc r, qs ← what_provides po r true; Ok (foldl (λ acc q, if pkg_in q acc then acc else acc ++ [q]) acc qs)) rs acc = Ok l → NoDup l).
  { clear. induction rs as [|r rs IH]; intros acc l Hn; cbn [foldM]; [by intros [= <-]|].
    destruct (what_provides po r true) as [qs|]; cbn [mbind res_bind]; [|done]. apply IH. by apply fold_nodup. }
  destruct (foldM _ reqs []) as [l'|] eqn:E; cbn [mbind res_bind] in H; [|done]. injection H as <-.
  eapply G; [|exact E]. constructor.
Qed.

(** ** What is returned: exactly the packages some requirement selects, each once, in the order of their keys *)
Theorem C78_selected : ∀ dlt ps reqs m l, total_order dlt → well_formed ps → (∀ r, r ∈ reqs → r_class r = RInstall) →
  select_packages dlt ps reqs m = Ok l →
  (∀ p, p ∈ l ↔ asked_for ps (default no_mods m) reqs p) ∧ StronglySorted (key_before dlt) l.
Proof.
  intros dlt ps reqs m l Hd Hw Hc. unfold select_packages.
  destruct (packages_from_requirements _ ps reqs m) as [k|] eqn:E; cbn [mbind res_bind]; [|done].
  intros H. assert (Hu : ∀ p q, p ∈ k → q ∈ k → ¬ unordered p q) by (apply (sorted_ok dlt); by rewrite H).
  unfold sorted_by_key in H. destruct (forallb _ k); [|done].
  assert (l = sort_by (λ p q, key_lt dlt (plain_key p) (plain_key q)) k) as -> by (by inversion H). clear H.
  assert (Hel := selected_spec (λ l, l) _ _ _ _ (λ l, reflexivity l) Hw Hc E).
  split; [intros p; by rewrite elem_of_sort_by, Hel|].
  assert (Hs : sorted_by (λ p q, key_lt dlt (plain_key p) (plain_key q)) (sort_by (λ p q, key_lt dlt (plain_key p) (plain_key q)) k)).
  { apply sort_by_sorted; [apply (lt_as dlt Hd)|apply (lt_co dlt Hd)]. }
  assert (Hn : NoDup (sort_by (λ p q, key_lt dlt (plain_key p) (plain_key q)) k)) by (apply sort_by_nodup; by eapply listed_nodup).
  assert (Hpk := plain_unique k Hu).
  assert (Hin : ∀ p, p ∈ sort_by (λ p q, key_lt dlt (plain_key p) (plain_key q)) k → p ∈ k) by (intros p; by rewrite elem_of_sort_by).
  assert (Hk : ∀ p q, p ∈ k → q ∈ k → plain_key p = plain_key q → p = q).
  { apply Hpk. intros p q Hp%Hel Hq%Hel. apply (wf_keys _ Hw); [apply Hp|apply Hq]. }
  clear E Hel Hu Hpk. revert Hs Hn Hin. generalize (sort_by (λ p q, key_lt dlt (plain_key p) (plain_key q)) k). intros s Hs.
  unfold sorted_by in Hs. induction Hs as [|p s Hs IH Hall]; intros Hn Hin; [constructor|].
  apply NoDup_cons in Hn as [Hnp Hn]. constructor; [apply IH; [done|]; intros q Hq; apply Hin; by right|].
  rewrite Forall_forall in Hall |- *. intros q Hq. specialize (Hall q Hq).
  destruct (before_total dlt Hd p q) as [?|[Eq|Hb]]; [done| |].
  - exfalso. apply Hnp. rewrite (Hk p q); [done|apply Hin; left|apply Hin; by right|done].
  - apply (key_lt_iff dlt Hd) in Hb. rewrite Hb in Hall. done.
Qed.

(** ** When it fails *)
Theorem C78_fails : ∀ dlt ps reqs m, well_formed ps → (∀ r, r ∈ reqs → r_class r = RInstall) →
  (∀ p d, p ∈ ps → d ∈ p_provides p → unversioned d) →
  select_packages dlt ps reqs m = Raise TypeError ↔
  ∃ p q, asked_for ps (default no_mods m) reqs p ∧ asked_for ps (default no_mods m) reqs q ∧ unordered p q.
Proof.
  intros dlt ps reqs m Hw Hc Hv. unfold select_packages.
  assert (∃ k, packages_from_requirements (λ l, l) ps reqs m = Ok k) as [k E].
  { unfold packages_from_requirements.
    assert (Hok : is_ok (pool_of [repo_iter (repo_of ps)] m) = true).
    { apply C37_created_iff. intros p d Hp Hd. cbn in Hp. rewrite app_nil_r in Hp.
      apply (Hv p); [|done]. by rewrite repo_iter_perm in Hp. }
    destruct (pool_of _ _) as [po|] eqn:Hpo; [|done]. cbn [mbind res_bind].
    assert (G : ∀ rs acc, (∀ r, r ∈ rs → r_class r = RInstall) → ∃ l,
      foldM (λ acc r, qs ← what_provides po r true; Ok (foldl (λ acc q, if pkg_in q acc then acc else acc ++ [q]) acc qs)) rs acc = Ok l).
    { clear -Hpo. induction rs as [|r rs IH]; intros acc Hc; cbn [foldM]; [eauto|].
      destruct (C38_what_provides _ _ _ r true Hpo) as (qs & -> & _); [left; apply Hc; left|]. cbn [mbind res_bind].
      apply IH. intros; apply Hc; by right. }
    destruct (G reqs [] Hc) as [l ->]. cbn. eauto. }
  rewrite E. cbn [mbind res_bind]. assert (Hel := selected_spec (λ l, l) _ _ _ _ (λ l, reflexivity l) Hw Hc E).
  assert (Hs := sorted_ok dlt k). split.
  - intros H. rewrite H in Hs. cbn in Hs.
    destruct (decide (Exists (λ p, Exists (λ q, can_compare p q = false) k) k)) as [Hx|Hx].
    + apply Exists_exists in Hx as (p & Hp & Hx). apply Exists_exists in Hx as (q & Hq & Hx).
      destruct (decide (can_compare p q = true)) as [|Hne]; [congruence|]. rewrite compare_iff in Hne.
      assert (Hdec : ∀ p q, Decision (unordered p q)).
      { intros a b. unfold unordered. apply _. }
      destruct (decide (unordered p q)); [exists p, q; by rewrite <- !Hel|].
      destruct (decide (unordered q p)); [exists q, p; by rewrite <- !Hel|]. tauto.
    + exfalso. assert (false = true); [|done]. apply Hs. intros p q Hp Hq Hpq. apply Hx. apply Exists_exists. exists p. split; [done|].
      apply Exists_exists. exists q. split; [done|]. apply not_true_iff_false. intros [? _]%compare_iff. done.
  - intros (p & q & Hp%Hel & Hq%Hel & Hpq). unfold sorted_by_key in *. destruct (forallb _ k); [|done]. exfalso. cbn in Hs.
    by apply (proj1 Hs eq_refl p q).
Qed.

(** ** The order in which packages and requirements are given does not matter *)
Theorem C78_determined : ∀ dlt ps ps' reqs reqs' m l l', total_order dlt → well_formed ps → ps ≡ₚ ps' →
  (∀ r, r ∈ reqs ↔ r ∈ reqs') → (∀ r, r ∈ reqs → r_class r = RInstall) →
  select_packages dlt ps reqs m = Ok l → select_packages dlt ps' reqs' m = Ok l' → l = l'.
Proof.
  intros dlt ps ps' reqs reqs' m l l' Hd Hw Hp Hr Hc H H'.
  assert (Hw' : well_formed ps').
  { split; [intros p q; rewrite <- Hp; apply (wf_keys _ Hw)|intros p; rewrite <- Hp; apply (wf_names _ Hw)]. }
  apply C78_selected in H as [He Hs]; [|done..]. apply C78_selected in H' as [He' Hs']; [|done|done|intros r; rewrite <- Hr; auto].
  assert (Hee : ∀ p, p ∈ l ↔ p ∈ l').
  { intros p. rewrite He, He'. unfold asked_for. rewrite Hp. by setoid_rewrite Hr. }
  clear -Hd Hs Hs' Hee. revert l' Hs' Hee. induction Hs as [|p l Hs IH Hall]; intros l' Hs' Hee.
  - destruct l' as [|q l']; [done|]. assert (q ∈ @nil package) as Hq by (apply Hee; left). by apply elem_of_nil in Hq.
  - assert (Hirr : ∀ a b, key_before dlt a b → key_before dlt b a → False).
    { intros a b H1 H2. by eapply (before_irrefl dlt Hd a a), before_trans. }
    destruct Hs' as [|q l' Hs' Hall']. { assert (p ∈ @nil package) as Hq by (apply Hee; left). by apply elem_of_nil in Hq. }
    rewrite Forall_forall in Hall, Hall'.
    assert (p = q) as ->.
    { assert (Hq : q ∈ p :: l) by (apply Hee; left). assert (Hpp : p ∈ q :: l') by (apply Hee; left).
      apply elem_of_cons in Hq as [->|Hq]; [done|]. apply elem_of_cons in Hpp as [->|Hpp]; [done|]. exfalso. eauto. }
    f_equal. apply IH; [done|]. intros x. specialize (Hee x). rewrite !elem_of_cons in Hee. split; intros Hx.
    + destruct (proj1 Hee (or_intror Hx)) as [->|]; [|done]. exfalso. eapply Hirr; by apply Hall.
    + destruct (proj2 Hee (or_intror Hx)) as [->|]; [|done]. exfalso. eapply Hirr; by apply Hall'.
Qed.

(** ** Selecting what requirements_from_packages says gives the packages back *)
Theorem C78_roundtrip : ∀ dlt ps qs l, total_order dlt → well_formed ps → releases_differ ps →
  (∀ p q n, p ∈ ps → q ∈ ps → provides p n → provides q n → p_name p = p_name q) →
  (∀ q, q ∈ qs → q ∈ ps) → select_packages dlt ps (requirements_from_packages qs) None = Ok l →
  (∀ p, p ∈ l ↔ p ∈ qs) ∧ StronglySorted (key_before dlt) l.
Proof.
  intros dlt ps qs l Hd Hw Hr Hv Hq H. apply C78_selected in H as [He Hs]; [|done|done|].
  2:{ intros r (q & -> & _)%elem_of_list_fmap. done. }
  split; [|done]. intros p. rewrite He. unfold asked_for, requirements_from_packages. split.
  - intros (Hp & r & (q & -> & Hqq)%elem_of_list_fmap & Hpr & Hx). cbn in Hpr, Hx.
    assert (p_name p = p_name q) by (apply (Hv p q (p_name q)); auto; by left).
    assert (p_version p = p_version q).
    { specialize (Hx (CEqual (p_version q)) ltac:(left)). by apply relaxed_none in Hx. }
    by rewrite (Hr p q); auto.
  - intros Hp. split; [auto|]. exists (req_exact (p_name p) (p_version p)). split; [apply elem_of_list_fmap; eauto|]. cbn.
    split; [by left|]. intros c ->%elem_of_list_singleton. by apply relaxed_none.
Qed.

(** ** Non-vacuity: there are such orders, and a selection of three packages from four *)
Global Instance version_countable : Countable version.
Proof. apply (inj_countable' (λ v, (upstream v, build v)) (λ x, V x.1 x.2)). by intros []. Qed.
Definition con_code (c : constr) : Z * version :=
  match c with
  | CAny => (0, V 0 0) | CEqual v => (1, v) | CNot v => (2, v) | CGeq v => (3, v) | CGt v => (4, v) | CLeq v => (5, v) | CLt v => (6, v)
  | CUpstream v => (7, v)
  end.
Definition con_decode (x : Z * version) : constr :=
  let '(k, v) := x in
  if k =? 0 then CAny else if k =? 1 then CEqual v else if k =? 2 then CNot v else if k =? 3 then CGeq v else
  if k =? 4 then CGt v else if k =? 5 then CLeq v else if k =? 6 then CLt v else CUpstream v.
Global Instance constr_countable : Countable constr.
Proof. apply (inj_countable' con_code con_decode). by intros []. Qed.
Definition ex_dlt (a b : list cdep) : bool := (encode a <? encode b)%positive.
Lemma ex_dlt_ok : total_order ex_dlt.
Proof.
  unfold total_order, ex_dlt. split; [|split].
  - intros a. apply Pos.ltb_irrefl.
  - intros a b c. rewrite !Pos.ltb_lt. lia.
  - intros a b. rewrite !Pos.ltb_lt. destruct (Pos.lt_total (encode a) (encode b)) as [?|[E|?]]; [by left| |by right; right].
    right. left. by apply encode_inj in E.
Qed.
Definition ex_sel : list package :=
  [Pkg "numpy" (V 2 1) [] [] [] None; Pkg "numpy" (V 1 1) [] [] [] None; Pkg "MKL" (V 3 1) [] [] [] None; Pkg "nose" (V 1 1) [] [] [] None]%string.
Theorem C78_example :
  total_order ex_dlt ∧ well_formed ex_sel ∧
  select_packages ex_dlt ex_sel [req_of_name RInstall "numpy"; req_of_name RInstall "MKL"; req_exact "numpy" (V 1 1)] None =
    Ok [Pkg "MKL" (V 3 1) [] [] [] None; Pkg "numpy" (V 1 1) [] [] [] None; Pkg "numpy" (V 2 1) [] [] [] None]%string.
Proof.
  split; [apply ex_dlt_ok|]. split; [|vm_compute; reflexivity]. apply well_formed_check. vm_compute. auto.
Qed.
(** One would expect a selection always to be possible: not if one package comes from two repositories. *)
Theorem C78_sortable_refuted : ∀ dlt, ∃ ps, well_formed ps ∧
  select_packages dlt ps [req_of_name RInstall "numpy"] None = Raise TypeError.
Proof.
  intros dlt. exists [Pkg "numpy" (V 1 1) [] [] [] (Some "a"); Pkg "numpy" (V 1 1) [] [] [] (Some "b")]%string. split.
  - apply well_formed_check. vm_compute. auto.
  - vm_compute. reflexivity.
Qed.

Print Assumptions C78_selected. Print Assumptions C78_fails. Print Assumptions C78_determined. Print Assumptions C78_roundtrip.
Print Assumptions C78_example. Print Assumptions C78_sortable_refuted.
