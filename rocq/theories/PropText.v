(** * Property C68: the text of rules and of the report. *)
From Verif Require Import PoolProofs PropPool PropConstraints SpecSat ConstraintProofs PropSat PropRules SatLearn.
From Verif Require Export PropReport SpecText.
From Coq Require Import String.
Open Scope list_scope.

Lemma once_snoc (l : list string) x : once (l ++ [x]) = if decide (x ∈ l) then once l else once l ++ [x].
Proof.
  unfold once. rewrite rev_app_distr. cbn [rev app remove_dups]. destruct (decide (x ∈ l)) as [H|H].
  - destruct (decide_rel elem_of x (rev l)) as [H'|H']; [done|]. destruct H'. apply elem_of_list_In. rewrite <-in_rev. by apply elem_of_list_In.
  - destruct (decide_rel elem_of x (rev l)) as [H'|H']; [|done]. destruct H. apply elem_of_list_In. rewrite in_rev. by apply elem_of_list_In.
Qed.
Lemma fromkeys_snoc (l : list string) x : fromkeys (l ++ [x]) = if decide (x ∈ l) then fromkeys l else fromkeys l ++ [x].
Proof.
  induction l as [|y l IH]; cbn [app fromkeys]; [done|]. rewrite IH. destruct (decide (x ∈ l)) as [H|H].
  - rewrite decide_True; [done|]. by right.
  - rewrite filter_app. destruct (decide (x = y)) as [->|Hne].
    + rewrite decide_True by left. rewrite (filter_cons_False _ y []) by (intros H'; by apply H'). by rewrite filter_nil, app_nil_r.
    + rewrite decide_False; [|intros [?|?]%elem_of_cons; done]. by rewrite filter_cons_True, filter_nil.
Qed.
Lemma fromkeys_once (l : list string) : fromkeys l = once l.
Proof. induction l as [|x l IH] using rev_ind; [done|]. rewrite fromkeys_snoc, once_snoc, IH. done. Qed.

Section text.
  Context (po : pool) (l : list package) (R : pool_rep po l) (Hinj : well_formed l).
  Context (vstr : version → string) (rstr : requirement → string).
  Local Notation label := (label vstr).
  Local Notation has_id := (has_id po).

  Lemma id_pos p i : p ∈ l → has_id p i → 1 ≤ i.
  Proof. intros Hp Hi. rewrite (has_id_pid po l R p i Hp Hi). by apply (pid_pos po l R). Qed.
  Lemma id_label p i x : p ∈ l → has_id p i → Z.abs x = i →
    id_to_string vstr po x = Ok ((if (0 <? x)%Z then "+" else "-") +:+ label p)%string.
  Proof.
    intros Hp Hi Ex. unfold id_to_string. rewrite Ex, (has_id_pid po l R p i Hp Hi).
    pose proof (pid_package po l R Hinj p Hp) as H. unfold id_to_package in H.
    destruct (zdict_get _ _) as [q|]; [|done]. cbn in H. injection H as ->. done.
  Qed.
  Lemma id_plus p i : p ∈ l → has_id p i → id_to_string vstr po i = Ok ("+" +:+ label p)%string.
  Proof. intros Hp Hi. pose proof (id_pos p i Hp Hi). rewrite (id_label p i) by (done || lia). by replace (0 <? i) with true by lia. Qed.
  Lemma id_minus p i : p ∈ l → has_id p i → id_to_string vstr po (- i) = Ok ("-" +:+ label p)%string.
  Proof. intros Hp Hi. pose proof (id_pos p i Hp Hi). rewrite (id_label p i) by (done || lia). by replace (0 <? - i) with false by lia. Qed.
  Lemma id_same p q i : p ∈ l → q ∈ l → has_id p i → has_id q i → p = q.
  Proof. intros Hp Hq H1 H2. apply (pid_inj po l R Hinj); [done..|]. by rewrite <-(has_id_pid po l R p i Hp H1), <-(has_id_pid po l R q i Hq H2). Qed.

  Lemma id_list (ids : list Z) : (∀ x, x ∈ ids → ∃ q, q ∈ l ∧ has_id q x) →
    ∃ qs, Forall2 has_id qs ids ∧ (∀ q, q ∈ qs → q ∈ l) ∧ mapM_res (id_to_string vstr po) ids = Ok ((λ p, ("+" +:+ label p)%string) <$> qs).
  Proof.
    induction ids as [|x ids IH]; intros H.
    - exists []. split; [done|]. split; [by intros ? ?%elem_of_nil|done].
    - destruct (H x) as (q & Hq & Hx); [left|]. destruct IH as (qs & H1 & H2 & H3); [intros y Hy; apply H; by right|].
      exists (q :: qs). split; [by constructor|]. split; [intros p [->|Hp]%elem_of_cons; auto|].
      cbn [mapM_res fmap list_fmap]. rewrite (id_plus q x Hq Hx), res_bind_ok, H3. done.
  Qed.
  Lemma id_list_elem (Q : package → Prop) ids qs : Forall2 has_id qs ids → (∀ q, q ∈ qs → q ∈ l) →
    (∀ x, x ∈ ids ↔ ∃ q, q ∈ l ∧ Q q ∧ has_id q x) → ∀ q, q ∈ qs ↔ q ∈ l ∧ Q q.
  Proof.
    intros H2 Hl Hx q. split.
    - intros Hq. split; [auto|]. apply elem_of_list_lookup in Hq as (i & Hi). destruct (Forall2_lookup_l _ _ _ _ _ H2 Hi) as (x & Hxi & Hid).
      destruct (proj1 (Hx x)) as (q' & Hq' & HQ & Hid'); [by eapply elem_of_list_lookup_2|].
      by rewrite (id_same q q' x) by (done || (apply Hl; by eapply elem_of_list_lookup_2)).
    - intros [Hq HQ]. pose proof (has_pid po l R q Hq) as Hid. assert (pid po q ∈ ids) as Hin by (apply Hx; eauto).
      apply elem_of_list_lookup in Hin as (i & Hi). destruct (Forall2_lookup_r _ _ _ _ _ H2 Hi) as (q' & Hq' & Hid').
      assert (q' ∈ qs) as Hin' by (by eapply elem_of_list_lookup_2). by rewrite (id_same q q' (pid po q)) by auto.
  Qed.
  Lemma pretty_listing unique ids qs : mapM_res (id_to_string vstr po) ids = Ok ((λ p, ("+" +:+ label p)%string) <$> qs) →
    pretty_literals vstr po ids true unique = Ok (listing vstr unique qs).
  Proof.
    intros H. unfold pretty_literals. rewrite H, res_bind_ok. unfold listing, between, Report.join. destruct unique; [by rewrite fromkeys_once|done].
  Qed.
  Lemma pretty_one unique x t : id_to_string vstr po x = Ok t → pretty_literals vstr po [x] true unique = Ok t.
  Proof. intros H. unfold pretty_literals. cbn [mapM_res]. rewrite H, res_bind_ok. cbn [mbind res_bind]. by destruct unique. Qed.

  Lemma pretty_bare x t : id_to_string vstr po x = Ok t → pretty_literals vstr po [x] false false = Ok (tail_str t).
  Proof. intros H. unfold pretty_literals. cbn [mapM_res]. rewrite H, res_bind_ok. reflexivity. Qed.

  (** Sorted lists of negative and positive literals. *)
  Lemma head_negative lits i ls : StronglySorted Z.le lits → lits ≡ₚ - i :: ls → 1 ≤ i → (∀ x, x ∈ ls → 1 ≤ x) →
    ∃ rest, lits = - i :: rest ∧ rest ≡ₚ ls ∧ StronglySorted Z.le rest.
  Proof.
    intros Hs Hp Hi Hls. destruct lits as [|y rest]; [by apply Permutation_nil_cons in Hp|].
    assert (y = - i) as ->.
    { assert (y ∈ - i :: ls) as Hy by (rewrite <-Hp; left). apply elem_of_cons in Hy as [?|Hy]; [done|]. apply Hls in Hy.
      assert (- i ∈ y :: rest) as Hy' by (rewrite Hp; left). apply elem_of_cons in Hy' as [?|Hy']; [done|].
      apply StronglySorted_inv in Hs as [_ Hf]. rewrite Forall_forall in Hf. apply Hf in Hy'. lia. }
    exists rest. apply StronglySorted_inv in Hs as [Hs _]. split; [done|]. split; [by apply Permutation_cons_inv in Hp|done].
  Qed.
  Lemma sorted_pair lits i k : StronglySorted Z.le lits → lits ≡ₚ [- i; - k] → lits = [- Z.max i k; - Z.min i k].
  Proof.
    intros Hs Hp. apply (StronglySorted_unique Z.le); [done| |].
    - repeat constructor. lia.
    - rewrite Hp. destruct (Z.le_ge_cases i k).
      + rewrite Z.max_r, Z.min_l by lia. apply perm_swap.
      + by rewrite Z.max_l, Z.min_r by lia.
  Qed.
  Lemma ordered_pair p q i k : has_id p i → has_id q k → i ≤ k → ordered po [p; q].
  Proof. intros Hi Hk Hle. exists [i; k]. split; [by repeat constructor|]. repeat constructor. lia. Qed.
  (** Two packages, in the order of their ids. *)
  Lemma pair_cases p q i k : has_id p i → has_id q k → p ∈ l → q ∈ l →
    ∃ a b ia ib, (a = p ∧ b = q ∨ a = q ∧ b = p) ∧ a ∈ l ∧ b ∈ l ∧ has_id a ia ∧ has_id b ib ∧ ordered po [a; b] ∧ ib = Z.max i k ∧ ia = Z.min i k.
  Proof.
    intros Hi Hk Hp Hq. destruct (Z.le_ge_cases i k) as [Hle|Hle].
    - exists p, q, i, k. split; [by left|]. do 4 (split; [done|]). split; [by eapply ordered_pair|lia].
    - exists q, p, k, i. split; [by right|]. do 4 (split; [done|]). split; [by eapply ordered_pair|lia].
  Qed.

  Context (inst : list package) (m : modifiers) (jobs : list job).
  Lemma desc_spec ru unique : explained po l inst m jobs ru → StronglySorted Z.le (ru_lits ru) →
    ∃ d, rule_desc vstr po ru unique = Ok d ∧ described vstr po l inst m jobs unique ru d.
  Proof.
    intros He Hs. unfold explained in He. unfold rule_desc, described. destruct (ru_reason ru).
    - destruct He as (j & r & Hj & Hk & Hr & Hq & Hz). destruct (id_list (ru_lits ru)) as (qs & H1 & H2 & H3).
      { intros x Hx. apply Hz in Hx as (q & ? & _ & ?). eauto. }
      rewrite (pretty_listing unique _ _ H3), res_bind_ok. eexists. split; [done|]. exists j, r, qs.
      do 4 (split; [done|]). split; [by exists (ru_lits ru)|]. split; [|done].
      apply (id_list_elem (req_meets r) (ru_lits ru)); [done..|]. exact Hz.
    - destruct He as (j & r & p & i & Hj & Hk & Hr & Hq & Hp & Hm & Hi & ->).
      rewrite (pretty_one _ _ _ (id_minus p i Hp Hi)), res_bind_ok. eexists. split; [done|]. exists j, r, p. auto 10.
    - destruct He as (j & r & p & i & Hj & Hk & Hr & Hq & Hp & Hi & ->). assert (Hpl : p ∈ l). { destruct Hp as (l1 & l2 & -> & _). apply elem_of_app. right. left. }
      rewrite (pretty_one _ _ _ (id_plus p i Hpl Hi)), res_bind_ok. eexists. split; [done|]. exists j, r, p. auto 10.
    - destruct He as (p & i & d & r & Hp & Hi & Hd & Hr & Hb & _ & ls & Hpm & Hz). pose proof (id_pos p i Hp Hi) as Hi1.
      destruct (head_negative (ru_lits ru) i ls Hs Hpm Hi1) as (rest & -> & Hrest & Hsr).
      { intros x Hx. apply Hz in Hx as (q & Hq & _ & _ & Hx). by eapply id_pos. }
      destruct (id_list rest) as (qs & H1 & H2 & H3).
      { intros x Hx. rewrite Hrest in Hx. apply Hz in Hx as (q & ? & _ & _ & ?). eauto. }
      assert (∃ t, pretty_literals vstr po (- i :: rest) true unique = Ok t) as [t ->].
      { unfold pretty_literals. cbn [mapM_res]. rewrite (id_minus p i Hp Hi), res_bind_ok, H3. cbn [mbind res_bind]. eauto. }
      rewrite res_bind_ok. cbn [lookup list_lookup of_option drop]. rewrite res_bind_ok.
      rewrite (pretty_one unique (Z.abs (- i)) ("+" +:+ label p)); [|replace (Z.abs (- i)) with i by lia; by apply id_plus].
      rewrite res_bind_ok, drop_0, (pretty_listing unique _ _ H3), res_bind_ok. eexists. split; [done|]. exists p, d, r, qs.
      do 4 (split; [done|]). split; [by exists rest|]. split; [|done].
      apply (id_list_elem (λ q, q ≠ p ∧ dep_meets m d q) rest); [done..|]. intros x. rewrite Hrest, Hz. split; intros (q & H); exists q; tauto.
    - destruct He as (p & i & d & r & q & k & Hp & Hq & Hi & Hk & Hne & Hd & Hr & Hm & Hb & Hl). apply (sorted_pair _ _ _ Hs) in Hl.
      destruct (pair_cases p q i k Hi Hk Hp Hq) as (a & b & ia & ib & Hab & Ha & Hbl & Hia & Hib & Ho & Eb & Ea).
      rewrite Hl, <-Eb, <-Ea. assert (∃ t, pretty_literals vstr po [- ib; - ia] true unique = Ok t) as [t ->].
      { unfold pretty_literals. cbn [mapM_res]. rewrite (id_minus b ib), res_bind_ok, (id_minus a ia), res_bind_ok by done. cbn [mbind res_bind]. eauto. }
      rewrite res_bind_ok. cbn [take drop fmap list_fmap]. pose proof (id_pos a ia Ha Hia). replace (Z.abs (- ia)) with ia by lia.
      rewrite (pretty_bare (- ib) _ (id_minus b ib Hbl Hib)), res_bind_ok. cbn [tail_str String.append].
      rewrite (pretty_one false ia _ (id_plus a ia Ha Hia)), res_bind_ok. eexists. split; [reflexivity|].
      exists a, b, p, q, d, r. do 3 (split; [done|]). split; [destruct Hab as [[-> ->]|[-> ->]]; auto|].
      split; [destruct Hab as [[-> ->]|[-> ->]]; auto|]. do 4 (split; [done|]). done.
    - destruct He as (p & i & q & k & Hp & Hq & Hi & Hk & Hne & Hn & Hb & Hl). apply (sorted_pair _ _ _ Hs) in Hl.
      destruct (pair_cases p q i k Hi Hk Hp Hq) as (a & b & ia & ib & Hab & Ha & Hbl & Hia & Hib & Ho & Eb & Ea).
      rewrite Hl, <-Eb, <-Ea. assert (∃ t, pretty_literals vstr po [- ib; - ia] true unique = Ok t) as [t ->].
      { unfold pretty_literals. cbn [mapM_res]. rewrite (id_minus b ib), res_bind_ok, (id_minus a ia), res_bind_ok by done. cbn [mbind res_bind]. eauto. }
      rewrite res_bind_ok. cbn [fmap list_fmap]. pose proof (id_pos a ia Ha Hia). pose proof (id_pos b ib Hbl Hib).
      replace (Z.abs (- ia)) with ia by lia. replace (Z.abs (- ib)) with ib by lia.
      rewrite (pretty_listing unique [ib; ia] [b; a]); [|cbn [mapM_res]; rewrite (id_plus b ib), res_bind_ok, (id_plus a ia), res_bind_ok by done; done].
      rewrite res_bind_ok. eexists. split; [reflexivity|]. exists a, b, p. do 3 (split; [done|]).
      split; [destruct Hab as [[-> ->]|[-> ->]]; auto|]. split; [destruct Hab as [[-> ->]|[-> ->]]; auto|].
      split; [destruct Hab as [[-> ->]|[-> ->]]; auto|]. split; [|done]. destruct Hab as [[-> ->]|[-> ->]]; [done|]. by rewrite <-Hn.
    - destruct He as (p & i & d & r & Hp & Hi & Hd & Hr & Hb & Hn & ->). pose proof (id_pos p i Hp Hi).
      rewrite (pretty_one _ _ _ (id_minus p i Hp Hi)), res_bind_ok. cbn [lookup list_lookup of_option]. rewrite res_bind_ok.
      replace (Z.abs (- i)) with i by lia. rewrite (id_plus p i Hp Hi), res_bind_ok. eexists. split; [reflexivity|]. exists p, d, r. auto 10.
  Qed.
  Lemma line_spec ru unique : explained po l inst m jobs ru → StronglySorted Z.le (ru_lits ru) →
    ∃ t, rule_to_string vstr rstr po ru unique = Ok t ∧ rule_line vstr rstr po l inst m jobs unique ru t.
  Proof.
    intros He Hs. destruct (desc_spec ru unique He Hs) as (d & Hd & H). unfold rule_to_string. rewrite Hd, res_bind_ok.
    destruct (ru_reqs ru) as [|r rs] eqn:E.
    - exists d. split; [done|]. exists d. split; [done|]. by left.
    - eexists. split; [reflexivity|]. exists d. split; [done|]. right. rewrite E. split; [done|reflexivity].
  Qed.
End text.

(** The text of every generated rule is the one that describes what the rule says. *)
Theorem C68_rule_text : ∀ repos m inst strict fuel jobs po st vstr rstr,
  generates repos m inst strict fuel jobs po st → well_formed (mjoin repos) →
  ∀ ru unique, ru ∈ g_rules st →
    ∃ t, rule_to_string vstr rstr po ru unique = Ok t ∧
      rule_line vstr rstr po (mjoin repos) inst (default no_mods m) jobs unique ru t.
Proof.
  intros repos m inst strict fuel jobs po st vstr rstr H Hinj ru unique Hru.
  destruct (C53_rules_explained _ _ _ _ _ _ _ _ H Hinj ru Hru) as (He & Hs & _).
  destruct (gen_open _ _ _ _ _ _ _ _ H Hinj) as (iids & R & _). by apply (line_spec po _ R Hinj).
Qed.

(** The text of the report: for each part of the clauses of [reason], the rules these clauses stem from. *)
Lemma mapM_res_forall2 {A B} (f : A → res B) (S : A → B → Prop) l : (∀ x, x ∈ l → ∃ y, f x = Ok y ∧ S x y) →
  ∃ ys, mapM_res f l = Ok ys ∧ Forall2 S l ys.
Proof.
  induction l as [|x l IH]; intros H; [exists []; by split|]. destruct (H x) as (y & Hy & HS); [left|].
  destruct IH as (ys & Hys & HF); [intros z Hz; apply H; by right|]. exists (y :: ys). cbn [mapM_res]. rewrite Hy, res_bind_ok, Hys.
  split; [done|by constructor].
Qed.
Theorem C68_report_text : ∀ e repos ds rq jobs fuel c k s ord vstr rstr, env_ok e → setting repos ds → asks ds rq jobs →
  solve e ds fuel rq = Ok (Unsat c k s) → set_order ord →
  ∃ rp rs qs parts text, reported ord c k s rp rs qs parts ∧ report_to_string vstr rstr (ds_pool ds) s rp = Ok text ∧
    report_text vstr rstr (ds_pool ds) (mjoin repos) (ds_installed ds) (rq_mods rq) jobs parts text.
Proof.
  intros e repos ds rq jobs fuel c k s ord vstr rstr He Hset Hask Hsolve Hord.
  pose proof Hset as [[m0 Hpool] Hinst Hinj]. destruct (pool_of_rep _ _ _ Hpool) as [R0 _].
  destruct (solve_open e repos ds fuel rq jobs _ He Hset Hask Hsolve)
    as (po & jobs' & ids & rules & uenv & ust & iids & st & [R Hmods Hjobs PB Hout]).
  destruct (pol_good e He po _ R Hinj _ Hinst _ _ _ _ _ _ _ _ _ PB) as [Hwf Hpol].
  pose proof (ust_good e He po _ R Hinj _ Hinst _ _ _ _ _ _ _ _ _ PB) as Hust.
  destruct (C51_report _ _ _ _ _ fuel (ust, [], []) c k s ord Hwf Hpol Hust Hout Hord)
    as (rp & rs & qs & parts & Hrep & _).
  assert (Hexp : ∀ r, r ∈ g_rules st → explained (ds_pool ds) (mjoin repos) (ds_installed ds) (rq_mods rq) jobs r ∧ StronglySorted Z.le (ru_lits r)).
  { intros r Hr. destruct (iter_rules_explained po _ R Hinj _ Hinst iids (pb_iids _ _ _ _ _ _ _ _ _ _ _ _ _ PB) _ jobs' fuel st
              (pb_st _ _ _ _ _ _ _ _ _ _ _ _ _ PB) r Hr) as [Hx Hs]. split; [|done].
    eapply (explained_ext po); [| | |exact Hx].
    - intros p i. by apply (rep_ids _ _ (mjoin repos)).
    - exact Hmods.
    - intros j. apply Hjobs. }
  assert (Hin : ∀ lits r, (lits, Some r) ∈ rule_clauses rules → r ∈ g_rules st ∧ lits = ru_lits r).
  { intros lits r (r' & [= -> ->] & Hr)%elem_of_list_fmap. rewrite (pb_rules _ _ _ _ _ _ _ _ _ _ _ _ _ PB) in Hr. done. }
  pose proof (unsat_ok _ _ _ _ _ Hwf Hpol fuel (ust, [], []) Hust c k s Hout) as Hu.
  destruct (unsat_report_spec _ c k s Hu ord Hord) as (rp' & Hrp & Hg).
  rewrite (rd_report _ _ _ _ _ _ _ _ Hrep) in Hrp. injection Hrp as <-.
  assert (parts = map (λ path, map (lits_of s)
      (fromkeys_by (λ a b, bool_decide (clause_key s a = clause_key s b)) path)) (rp_paths rp)) as ->.
  { pose proof (text_spec _ c k s Hu ord rp Hg) as H. rewrite (rd_text _ _ _ _ _ _ _ _ Hrep) in H. by injection H. }
  destruct (mapM_res_forall2 (path_string vstr rstr (ds_pool ds) s rp)
    (λ path t, part_text vstr rstr (ds_pool ds) (mjoin repos) (ds_installed ds) (rq_mods rq) jobs
       (map (lits_of s) (fromkeys_by (λ a b, bool_decide (clause_key s a = clause_key s b)) path)) t) (rp_paths rp)) as (texts & Ht & HF).
  - intros path Hpath. unfold path_string. rewrite (path_clauses_spec _ c k s Hu ord rp path Hg Hpath), res_bind_ok.
    destruct (mapM_res_forall2 (λ c, r ← of_option AttributeError (rule_of s c); rule_to_string vstr rstr (ds_pool ds) r true)
      (λ x line, ∃ ru, (∀ l, l ∈ lits_of s x ↔ l ∈ ru_lits ru) ∧ ru_reqs ru ≠ [] ∧
         rule_line vstr rstr (ds_pool ds) (mjoin repos) (ds_installed ds) (rq_mods rq) jobs true ru line)
      (fromkeys_by (λ a b, bool_decide (clause_key s a = clause_key s b)) path)) as (lines & Hl & HFl).
    + intros x Hx%elem_of_fromkeys_by.
      destruct (part_spec _ c k s Hu ord rp path x Hg Hpath Hx) as (r & lits & Hr & Hin' & Hne & Hsame).
      rewrite Hr. cbn [of_option]. rewrite res_bind_ok. apply Hin in Hin' as [Hrst ->]. destruct (Hexp r Hrst) as [Hx1 Hx2].
      destruct (line_spec (ds_pool ds) _ R0 Hinj vstr rstr (ds_installed ds) (rq_mods rq) jobs r true Hx1 Hx2) as (t & Ht & Hline). eauto 10.
    + rewrite Hl, res_bind_ok. eexists. split; [reflexivity|]. exists lines. split; [|reflexivity].
      apply Forall2_fmap_l. exact HFl.
  - eexists rp, rs, qs, _, (between newline texts). split; [exact Hrep|]. split.
    + unfold report_to_string. rewrite Ht, res_bind_ok. reflexivity.
    + exists texts. split; [|done]. apply Forall2_fmap_l. exact HF.
Qed.

(** ** Example: A and B are wanted, A conflicts with B (ex_report). *)
Definition try_text (ds : dep_solver) (rq : request) (vstr : version → string) (rstr : requirement → string) : option string :=
  match solve env0 ds 60 rq with
  | Ok (Unsat c k s) =>
      match unsat_report elements s c k with
      | Ok rp => match report_to_string vstr rstr (ds_pool ds) s rp with Ok t => Some t | Raise _ => None end
      | Raise _ => None
      end
  | _ => None
  end.
Lemma try_text_spec ds rq vstr rstr t : try_text ds rq vstr rstr = Some t →
  ∃ c k s rp, solve env0 ds 60 rq = Ok (Unsat c k s) ∧ unsat_report elements s c k = Ok rp ∧ report_to_string vstr rstr (ds_pool ds) s rp = Ok t.
Proof.
  unfold try_text. destruct (solve _ _ _ _) as [[?|c k s]|] eqn:E; try done. destruct (unsat_report _ _ _ _) as [rp|] eqn:Er; [|done].
  destruct (report_to_string _ _ _ _ _) as [t'|] eqn:Et; [|done]. intros [= <-]. eauto 10.
Qed.
Theorem C68_example : env_ok env0 ∧ setting [c51_pkgs] c51_ds ∧ asks c51_ds (ask [want "A"; want "B"]) [want "A"; want "B"] ∧ set_order elements ∧
  ∃ c k s rp, solve env0 c51_ds 60 (ask [want "A"; want "B"]) = Ok (Unsat c k s) ∧ unsat_report elements s c k = Ok rp ∧
    report_to_string one r_name (ds_pool c51_ds) s rp = Ok (between newline
      ["Conflicting requirements:"; "Requirements: 'A'"; "    Install command rule (+A-1)";
       "Requirements: 'A' <- 'B'"; "    B-1 conflicts with +A-1"; "Requirements: 'B'"; "    Install command rule (+B-1)"; ""])%string.
Proof.
  split; [apply env0_ok|]. split; [run|]. split; [run|]. split; [apply elements_order|]. apply try_text_spec. vm_compute. reflexivity.
Qed.
Print Assumptions C68_rule_text.
Print Assumptions C68_report_text.
Print Assumptions C68_example.
