(** * The rules that are generated: an exact description of the result of iter_rules. *)
From Verif Require Import PoolProofs PropPool PropConstraints SpecSat.
From Verif Require Export SpecInstall Rules.
From Verif Require ReqProofs.

Lemma insert_Z_perm x l : insert_Z x l ≡ₚ x :: l.
Proof. induction l as [|y l IH]; cbn; [done|]. destruct (x <? y); [done|]. rewrite IH. constructor. Qed.
Lemma sort_Z_perm l : sort_Z l ≡ₚ l.
Proof. induction l as [|x l IH]; cbn; [done|]. by rewrite insert_Z_perm, IH. Qed.
Lemma elem_of_sort_Z x l : x ∈ sort_Z l ↔ x ∈ l.
Proof. by rewrite sort_Z_perm. Qed.

Lemma foldM_cons {A B} (f : B → A → res B) x l b : foldM f (x :: l) b = (b' ← f b x; foldM f l b').
Proof. done. Qed.
Lemma mbind_ok {A B} (m : res A) (f : A → res B) b : (m ≫= f) = Ok b → ∃ a, m = Ok a ∧ f a = Ok b.
Proof. destruct m; cbn; [eauto|done]. Qed.

Lemma relaxed_none n c v : relaxed no_mods n c v ↔ constr_sem c v.
Proof. unfold relaxed. destruct c; cbn; rewrite ?decide_False by set_solver; done. Qed.

Section rules.
  Context (po : pool) (l : list package) (R : pool_rep po l) (Hinj : well_formed l).

  Definition pid (p : package) : Z := match package_id po p with Ok i => i | Raise _ => 0 end.
  Lemma pid_ok p : p ∈ l → package_id po p = Ok (pid p).
  Proof. intros Hp. unfold pid. by destruct (rep_package_id_total _ _ R p Hp) as (i & -> & _). Qed.
  Lemma pid_pos p : p ∈ l → 1 ≤ pid p.
  Proof. intros Hp. unfold pid. by destruct (rep_package_id_total _ _ R p Hp) as (i & -> & ? & _). Qed.
  Lemma pid_package p : p ∈ l → id_to_package po (pid p) = Ok p.
  Proof.
    intros Hp. unfold pid. destruct (rep_package_id_total _ _ R p Hp) as (i & -> & ? & q & Hq & Hl & Hk).
    by rewrite (wf_keys _ Hinj p q).
  Qed.
  Lemma pid_inj p q : p ∈ l → q ∈ l → pid p = pid q → p = q.
  Proof. intros Hp Hq He. assert (H := pid_package p Hp). rewrite He, pid_package in H by done. by injection H. Qed.
  Lemma pkg_eq_eq p q : p ∈ l → q ∈ l → pkg_eq p q = true ↔ p = q.
  Proof. intros Hp Hq. rewrite pkg_eq_true. split; [by apply (wf_keys _ Hinj)|by intros ->]. Qed.
  Lemma pkg_eq_ne p q : p ∈ l → q ∈ l → pkg_eq p q = false ↔ p ≠ q.
  Proof. intros Hp Hq. rewrite pkg_eq_false. split; [congruence|]. intros Hne ?. by apply Hne, (wf_keys _ Hinj). Qed.
  Lemma pids_ok ps : (∀ p, p ∈ ps → p ∈ l) → mapM_res (package_id po) ps = Ok (pid <$> ps).
  Proof. intros H. apply mapM_res_ok. intros p Hp. by apply pid_ok, H. Qed.

  (** ** Candidates *)
  Definition wp (r : requirement) (b : bool) : list package :=
    match what_provides po r b with Ok ps => ps | Raise _ => [] end.
  Definition dcand (d : cdep) : list package :=
    match from_constraints RInstall d with Ok r => wp r true | Raise _ => [] end.
  Definition ccand (d : cdep) : list package :=
    match from_constraints RConflict d with Ok r => wp r true | Raise _ => [] end.
  Definition sem_mods : modifiers := default no_mods (po_mods po).

  Lemma wp_sub r b p : p ∈ wp r b → p ∈ l.
  Proof.
    unfold wp. destruct (what_provides po r b) as [ps|] eqn:E; [|by intros ?%elem_of_nil].
    by rewrite (rep_what_provides_elem _ _ R _ _ _ _ E); intros [? _].
  Qed.
  Lemma dcand_sub d p : p ∈ dcand d → p ∈ l.
  Proof. unfold dcand. destruct (from_constraints _ _); [apply wp_sub|by intros ?%elem_of_nil]. Qed.
  Lemma ccand_sub d p : p ∈ ccand d → p ∈ l.
  Proof. unfold ccand. destruct (from_constraints _ _); [apply wp_sub|by intros ?%elem_of_nil]. Qed.

  Lemma from_constraints_spec cls d r : from_constraints cls d = Ok r →
    plain_cdep d ∧ r_class r = cls ∧ r_name r = d.1.
  Proof.
    destruct d as [n dd]. unfold from_constraints, plain_cdep. cbn [fst snd].
    destruct (Nat.ltb_spec 1 (length dd)); [done|]. intros [= <-]. cbn [r_class r_name]. split; [lia|done].
  Qed.
  Lemma from_constraints_total cls d : plain_cdep d → ∃ r, from_constraints cls d = Ok r.
  Proof.
    destruct d as [n dd]. unfold from_constraints, plain_cdep. cbn [fst snd]. intros H.
    destruct (Nat.ltb_spec 1 (length dd)); [lia|]. eauto.
  Qed.
  Lemma from_constraints_cons cls d r (Q : constr → Prop) : from_constraints cls d = Ok r → Q CAny →
    (∀ c, c ∈ r_cons r → Q c) ↔ (d.2 = [] ∨ ∃ conj, conj ∈ d.2 ∧ ∀ cs c, cs ∈ conj → c ∈ cs → Q c).
  Proof.
    destruct d as [n dd]. unfold from_constraints. cbn [snd].
    destruct dd as [|conj [|c2 dd]]; [| |done].
    - intros [= <-] HQ. cbn. split; [by left|]. intros _ c Hc. by apply elem_of_nil in Hc.
    - change (1 <? length [conj])%nat with false. cbv iota. intros [= <-] HQ.
      assert (E : mjoin (mjoin (insert_star <$> [conj])) = match conj with [] => [CAny] | _ => mjoin conj end).
      { cbn. rewrite app_nil_r. by destruct conj. }
      change (r_cons _) with (mjoin (mjoin (insert_star <$> [conj]))). rewrite E. clear E. split.
      + intros H. right. exists conj. split; [by left|]. intros cs c Hcs Hc. apply H.
        destruct conj; [by apply elem_of_nil in Hcs|]. apply elem_of_list_join. eauto.
      + intros [?|(conj' & ->%elem_of_list_singleton & H)]; [done|]. intros c Hc. destruct conj as [|x conj].
        * apply elem_of_list_singleton in Hc as ->. done.
        * apply elem_of_list_join in Hc as (cs & Hc & Hcs). eauto.
  Qed.


  (** The candidates of a dependency are the packages that meet it. *)
  Lemma dcand_spec d p : plain_cdep d → p ∈ dcand d ↔ p ∈ l ∧ dep_meets sem_mods d p.
  Proof.
    intros Hd. destruct (from_constraints_total RInstall d Hd) as [r Hr]. unfold dcand. rewrite Hr.
    destruct (from_constraints_spec _ _ _ Hr) as (_ & Hc & Hn).
    assert (Ht : ∃ r', pool_modify po r = Ok r').
    { unfold pool_modify. destruct (po_mods po); [by apply modify_total|eauto]. }
    destruct Ht as [r' Hr']. unfold wp.
    destruct (what_provides po r true) as [ps|] eqn:E.
    2:{ rewrite (rep_what_provides _ _ R), Hr' in E. by destruct (by_name _ _). }
    rewrite (rep_what_provides_elem _ _ R _ _ _ _ E). unfold dep_meets. rewrite Hn.
    enough (req_matches r' (p_version p) = true ↔
      (d.2 = [] ∨ ∃ conj, conj ∈ d.2 ∧ ∀ cs c, cs ∈ conj → c ∈ cs → relaxed sem_mods d.1 c (p_version p))) as Hq.
    { rewrite <-Hq. rewrite Hr'. split; [intros (? & ? & r2 & [= <-] & ?)|intros (? & ? & ?)]; eauto. }
    rewrite (accepts_spec po r true r' _ (or_introl Hc) Hr').
    unfold accepts, sem_mods. destruct (po_mods po) as [m|]; cbn [default].
    - rewrite Hn. apply (from_constraints_cons _ _ _ (λ c, relaxed m d.1 c (p_version p)) Hr).
      unfold relaxed. cbn. by repeat case_decide.
    - rewrite (from_constraints_cons _ _ _ (λ c, constr_sem c (p_version p)) Hr) by done.
      by setoid_rewrite relaxed_none.
  Qed.
  Lemma conflict_modify r r' : r_class r = RConflict → pool_modify po r = Ok r' → r' = r.
  Proof.
    intros Hc. unfold pool_modify, modify_requirement. destruct (po_mods po); [|by intros [= <-]].
    rewrite Hc. destruct (has_any_version_constraint r); [|by intros [= <-]].
    destruct (snd _); [done|by intros [= <-]].
  Qed.
  (** Looking up the packages a declared conflict names does not raise. *)
  Definition conf_ok (d : cdep) : Prop :=
    ∃ r ps, from_constraints RConflict d = Ok r ∧ what_provides po r true = Ok ps.
  Lemma ccand_spec d p : conf_ok d → p ∈ ccand d ↔ p ∈ l ∧ conflict_meets d p.
  Proof.
    intros (r & ps & Hr & E). unfold ccand, wp. rewrite Hr, E.
    destruct (from_constraints_spec _ _ _ Hr) as (_ & Hc & Hn).
    rewrite (rep_what_provides_elem _ _ R _ _ _ _ E). unfold conflict_meets. rewrite Hn.
    rewrite <-(from_constraints_cons _ _ _ (λ c, constr_sem c (p_version p)) Hr) by done.
    rewrite <-C39_requirement_matches. split.
    - intros (? & ? & r' & Hr' & Hm). by rewrite <-(conflict_modify r r' Hc Hr').
    - intros (Hl & Hp & Hm). split; [done|]. split; [done|]. exists r. split; [|done].
      revert E. rewrite (rep_what_provides _ _ R). destruct (by_name l (r_name r)) as [|x bl] eqn:Eb.
      { exfalso. assert (Hx : p ∈ by_name l (r_name r)) by (apply elem_of_by_name; by rewrite Hn).
        rewrite Eb in Hx. by apply elem_of_nil in Hx. }
      destruct (pool_modify po r) as [r'|] eqn:Er; [|done]. intros _. by rewrite (conflict_modify r r' Hc Er).
  Qed.
  (** The candidates of a job. *)
  Lemma jcand_ok r : what_provides po r false = Ok (wp r false).
  Proof.
    unfold wp. destruct (what_provides po r false) eqn:E; [done|].
    rewrite (rep_what_provides _ _ R) in E. by destruct (by_name _ _).
  Qed.
  Lemma jcand_spec r p : p ∈ wp r false ↔ p ∈ l ∧ req_meets r p.
  Proof.
    rewrite (rep_what_provides_elem _ _ R _ _ _ _ (jcand_ok r)). unfold req_meets.
    rewrite <-C39_requirement_matches. split; [intros (? & ? & r' & [= <-] & ?)|intros (? & ? & ?)]; eauto.
  Qed.
  Lemma name_packages_spec n p : p ∈ name_to_packages po n ↔ p ∈ l ∧ provides p n.
  Proof.
    unfold name_to_packages. rewrite (pr_byname _ _ R), <-elem_of_by_name.
    destruct (by_name l n) as [|x bl]; cbn; done.
  Qed.

  (** ** The clauses of a package *)
  Definition dep_clause (p : package) (d : cdep) : list Z :=
    sort_Z (- pid p :: (pid <$> filter (λ q, pkg_eq q p = false) (dcand d))).
  Definition broken_clause (p : package) : list Z := sort_Z [- pid p].
  Definition pair_clause (p q : package) : list Z := sort_Z [- pid p; - pid q].
  Fixpoint req_clause (p : package) (ds : list cdep) (c : list Z) : Prop :=
    match ds with
    | [] => False
    | d :: rest =>
        match dcand d with
        | [] => c = broken_clause p
        | _ => c = dep_clause p d ∨ req_clause p rest c
        end
    end.
  Fixpoint all_met (ds : list cdep) : bool :=
    match ds with [] => true | d :: rest => match dcand d with [] => false | _ => all_met rest end end.
  (** The packages put into the work queue when [p] is processed. *)
  Definition next (p : package) : list package :=
    if all_met (p_requires p) then mjoin (dcand <$> p_requires p) else [].
  Definition conf_clause (p : package) (c : list Z) : Prop :=
    ∃ q, q ≠ p ∧ c = pair_clause p q ∧
      ((q ∈ l ∧ p_name q = p_name p) ∨ ∃ d, d ∈ p_conflicts p ∧ q ∈ ccand d).
  Definition pkg_clause (p : package) (c : list Z) : Prop := req_clause p (p_requires p) c ∨ conf_clause p c.
  (** The metadata that is looked at can be interpreted. *)
  Fixpoint req_fine (ds : list cdep) : Prop :=
    match ds with [] => True | d :: rest => plain_cdep d ∧ (dcand d ≠ [] → req_fine rest) end.
  Definition conf_fine (p : package) : Prop := ∀ d, d ∈ p_conflicts p → conf_ok d.
  Definition pkg_fine (p : package) : Prop := req_fine (p_requires p) ∧ conf_fine p.

  Definition lits (st : gst) (c : list Z) : Prop := ∃ r, r ∈ g_rules st ∧ ru_lits r = c.
  Lemma lits_add st r c : lits (add_rule st r) c ↔ lits st c ∨ c = ru_lits r.
  Proof.
    unfold add_rule, lits. destruct (existsb _ _) eqn:E.
    - apply existsb_exists in E as (s & Hs & He). unfold rule_eq in He. apply bool_decide_eq_true in He.
      apply elem_of_list_In in Hs. naive_solver.
    - cbn. setoid_rewrite elem_of_app. setoid_rewrite elem_of_list_singleton. naive_solver.
  Qed.
  Lemma added_add st r : g_added (add_rule st r) = g_added st.
  Proof. unfold add_rule. by destruct (existsb _ _). Qed.

  Context (installed : list (Z * package)) (strict : bool).

  Lemma requires_rules_spec p reqs : p ∈ l → ∀ ds acc st st' more,
    requires_rules po strict p reqs ds acc st = Ok (st', more) →
    g_added st' = g_added st ∧ (∀ c, lits st' c ↔ lits st c ∨ req_clause p ds c) ∧ req_fine ds ∧
    more.*1 = if all_met ds then acc.*1 ++ mjoin (dcand <$> ds) else [].
  Proof.
    intros Hp. induction ds as [|d ds IH]; intros acc st st' more; cbn [requires_rules].
    - intros [= <- <-]. cbn. rewrite app_nil_r. split; [done|]. split; [|done]. intros c. cbn. naive_solver.
    - intros (r & Hr & H)%mbind_ok. apply mbind_ok in H as (cs & Hcs & H).
      assert (Hd : dcand d = cs). { unfold dcand, wp. by rewrite Hr, Hcs. }
      destruct (from_constraints_spec _ _ _ Hr) as (Hpl & _).
      cbn [req_clause all_met req_fine]. rewrite Hd.
      destruct cs as [|q cs].
      + apply mbind_ok in H as (_ & _ & H). apply mbind_ok in H as (ru & Hru & H). injection H as <- <-.
        unfold remove_rule in Hru. rewrite (pid_ok p Hp) in Hru. injection Hru as <-.
        rewrite added_add. split; [done|]. split; [intros c; by rewrite lits_add|]. split; [|done].
        split; [done|congruence].
      + apply mbind_ok in H as (ru & Hru & H).
        unfold dependency_rule in Hru. rewrite (pid_ok p Hp) in Hru. cbn [mbind res_bind] in Hru.
        rewrite pids_ok in Hru.
        2:{ intros x [_ Hx]%elem_of_list_filter. rewrite <-Hd in Hx. by eapply dcand_sub. }
        injection Hru as <-. apply IH in H as (H1 & H2 & H3 & H4).
        rewrite added_add in H1. split; [done|]. split.
        { intros c. rewrite H2, lits_add. cbn [mk_rule ru_lits]. unfold dep_clause. rewrite Hd. tauto. }
        split; [done|]. rewrite H4. destruct (all_met ds); [|done].
        rewrite (fmap_cons dcand d ds), mjoin_cons, fmap_app, <-app_assoc, Hd.
        f_equal. f_equal. rewrite <-list_fmap_compose. unfold compose. cbn [fst]. by rewrite list_fmap_id.
  Qed.
  (** Without strict mode nothing is raised for interpretable metadata. *)
  Lemma requires_rules_total p reqs : p ∈ l → strict = false → ∀ ds acc st, req_fine ds →
    ∃ r, requires_rules po strict p reqs ds acc st = Ok r.
  Proof.
    intros Hp Hs. induction ds as [|d ds IH]; intros acc st; cbn [requires_rules req_fine]; [eauto|].
    intros [Hd Hf]. destruct (from_constraints_total RInstall d Hd) as [r Hr]. rewrite Hr. cbn [mbind res_bind].
    destruct (from_constraints_spec _ _ _ Hr) as (_ & Hc & Hn).
    assert (Ht : what_provides po r true = Ok (wp r true)).
    { unfold wp. destruct (what_provides po r true) as [|] eqn:E; [done|]. rewrite (rep_what_provides _ _ R) in E.
      destruct (by_name _ _); [done|]. unfold pool_modify in E. destruct (po_mods po) as [m|]; [|done].
      by destruct (modify_total r m Hc) as [r' Hr']; rewrite Hr' in E. }
    rewrite Ht. cbn [mbind res_bind]. assert (Hdc : dcand d = wp r true) by (unfold dcand; by rewrite Hr).
    rewrite <-Hdc. destruct (dcand d) as [|q cs] eqn:E.
    - unfold strict_check. rewrite Hs. cbn. unfold remove_rule. rewrite pid_ok by done. cbn. eauto.
    - unfold dependency_rule. rewrite pid_ok by done. cbn [mbind res_bind]. rewrite pids_ok.
      2:{ intros x [_ Hx]%elem_of_list_filter. rewrite <-E in Hx. by eapply dcand_sub. }
      cbn [mbind res_bind]. apply IH. by apply Hf.
  Qed.

  Lemma add_conflicts_spec p t comb : p ∈ l → ∀ qs st, (∀ q, q ∈ qs → q ∈ l) →
    ∃ st', add_conflicts po p t comb qs st = Ok st' ∧ g_added st' = g_added st ∧
      ∀ c, lits st' c ↔ lits st c ∨ ∃ q, q ∈ qs ∧ q ≠ p ∧ c = pair_clause p q.
  Proof.
    intros Hp. unfold add_conflicts. induction qs as [|q qs IH]; intros st Hq; cbn [foldM].
    - exists st. split; [done|]. split; [done|]. intros c. split; [by left|]. intros [?|(q & ?%elem_of_nil & _)]; done.
    - assert (Hql : q ∈ l) by (apply Hq; left). 
      assert (Ec : conflicts_rule po p q t comb =
        if pkg_eq p q then Ok None else Ok (Some (mk_rule [- pid p; - pid q] t comb))).
      { unfold conflicts_rule. by rewrite (pid_ok p Hp), (pid_ok q Hql). }
      rewrite Ec. clear Ec. destruct (pkg_eq p q) eqn:E; cbn [mbind res_bind].
      + apply pkg_eq_eq in E as <-; [|done..].
        destruct (IH st) as (st' & E' & H1 & H2); [intros; apply Hq; by right|]. exists st'.
        split; [done|]. split; [done|]. intros c. rewrite H2. setoid_rewrite elem_of_cons. naive_solver.
      + apply pkg_eq_ne in E; [|done..].
        edestruct IH as (st' & E' & H1 & H2); [intros; apply Hq; by right|]. exists st'.
        split; [exact E'|]. rewrite added_add in H1. split; [done|]. intros c. rewrite H2, lits_add.
        setoid_rewrite elem_of_cons. change (ru_lits (mk_rule _ t comb)) with (pair_clause p q). split.
        * intros [[?| ->]|?]; [by left|right; exists q; split; [by left|done]|naive_solver].
        * intros [?|(q' & [-> |?] & ? & ?)]; [auto|auto|right; eauto].
  Qed.

  Lemma name_req cls p : p ∈ l → name_requirement cls (p_name p) = Ok (req_of_name cls (p_name p)).
  Proof. intros Hp. apply ReqProofs.name_requirement_ok, (wf_names _ Hinj), Hp. Qed.
  Lemma same_name_cand p : p ∈ l →
    ∃ ps, what_provides po (req_of_name RConflict (p_name p)) true = Ok ps ∧
      ∀ q, q ∈ ps ↔ q ∈ l ∧ provides q (p_name p).
  Proof.
    intros Hp. assert (Hm : pool_modify po (req_of_name RConflict (p_name p)) = Ok (req_of_name RConflict (p_name p))).
    { unfold pool_modify. by destruct (po_mods po). }
    assert (Hw : ∃ ps, what_provides po (req_of_name RConflict (p_name p)) true = Ok ps).
    { rewrite (rep_what_provides _ _ R), Hm. destruct (by_name _ _); cbn; eauto. }
    destruct Hw as [ps Hw]. exists ps. split; [done|]. intros q.
    rewrite (rep_what_provides_elem _ _ R _ _ _ _ Hw). cbn [r_name req_of_name].
    split; [intros (? & ? & _)|intros (? & ?)]; [done|].
    split; [done|]. split; [done|]. rewrite Hm. eexists. split; [reflexivity|]. done.
  Qed.

  Lemma conflicts_rules_spec p reqs st st' : p ∈ l → conflicts_rules po strict p reqs st = Ok st' →
    g_added st' = g_added st ∧ (∀ c, lits st' c ↔ lits st c ∨ conf_clause p c) ∧ conf_fine p.
  Proof.
    intros Hp. unfold conflicts_rules, same_name_rules. intros (st1 & H1 & H2)%mbind_ok.
    destruct (same_name_cand p Hp) as (ps & Hps & Hsp). rewrite (name_req _ p Hp) in H1. cbn [mbind res_bind] in H1.
    rewrite Hps in H1. cbn [mbind res_bind] in H1.
    edestruct (add_conflicts_spec p package_same_name) as (st1' & E1 & A1 & L1); [done| |].
    2:{ rewrite E1 in H1. injection H1 as ->.
      assert (G : ∀ ds st1 st2, foldM (λ st c,
        preq ← from_constraints RConflict c; providers ← what_provides po preq true;
        _ ← match providers with [] => strict_check strict MissingConflicts reqs | _ => Ok () end;
        add_conflicts po p package_conflicts (combine reqs preq) providers st) ds st1 = Ok st2 →
        g_added st2 = g_added st1 ∧ (∀ d, d ∈ ds → conf_ok d) ∧
        ∀ c, lits st2 c ↔ lits st1 c ∨ ∃ d q, d ∈ ds ∧ q ∈ ccand d ∧ q ≠ p ∧ c = pair_clause p q).
      { clear -Hp R Hinj. induction ds as [|d ds IH]; intros st1 st2.
        - intros [= <-]. split; [done|]. split; [by intros ? ?%elem_of_nil|]. intros c. split; [by left|].
          intros [?|(d & q & ?%elem_of_nil & _)]; done.
        - rewrite foldM_cons. intros (st1' & H1 & H2)%mbind_ok.
          apply mbind_ok in H1 as (r & Hr & H1). apply mbind_ok in H1 as (cs & Hcs & H1).
          apply mbind_ok in H1 as (_ & _ & H1).
          assert (Hd : ccand d = cs). { unfold ccand, wp. by rewrite Hr, Hcs. }
          edestruct (add_conflicts_spec p package_conflicts) as (st1'' & E1 & A1 & L1); [done| |rewrite E1 in H1].
          { intros q Hq. rewrite <-Hd in Hq. by eapply ccand_sub. }
          injection H1 as ->. apply IH in H2 as (A2 & F2 & L2). split; [congruence|]. split.
          { intros d' [->|?]%elem_of_cons; [|auto]. exists r, cs. done. }
          intros c. rewrite L2, L1. setoid_rewrite (elem_of_cons ds). rewrite <-Hd. split.
          + intros [[?|(q & ? & ? & ?)]|(d' & q & ? & ? & ? & ?)]; [by left|right..]; eauto 8.
          + intros [?|(d' & q & [-> |?] & ? & ? & ?)]; [eauto|eauto 8|]. right. eauto 8. }
      apply G in H2 as (A2 & F2 & L2). split; [congruence|]. split; [|done].
      intros c. rewrite L2, L1. unfold conf_clause. setoid_rewrite elem_of_list_filter. setoid_rewrite Hsp. split.
      - intros [[?|(q & [[He Hn] [Hq Hpr]] & ? & ?)]|(d & q & ? & ? & ? & ?)]; [by left|right..]; exists q; eauto 8.
      - intros [?|(q & Hne & -> & [[Hq Hn]|(d & ? & ?)])]; [by left; left|..].
        + left; right. exists q. split_and!; [by apply pkg_eq_ne|done|done| |done|done]. left. done.
        + right. exists d, q. done. }
    { intros q [_ Hq]%elem_of_list_filter. by apply Hsp. }
  Qed.
  Lemma conflicts_rules_total p reqs st : p ∈ l → strict = false → conf_fine p →
    ∃ st', conflicts_rules po strict p reqs st = Ok st'.
  Proof.
    intros Hp Hs Hf. unfold conflicts_rules, same_name_rules.
    destruct (same_name_cand p Hp) as (ps & Hps & Hsp). rewrite (name_req _ p Hp). cbn [mbind res_bind].
    rewrite Hps. cbn [mbind res_bind].
    edestruct (add_conflicts_spec p package_same_name) as (st1 & E1 & _); [done| |rewrite E1].
    { intros q [_ Hq]%elem_of_list_filter. by apply Hsp. }
    cbn [mbind res_bind]. clear E1. unfold declared_conflicts. unfold conf_fine in Hf.
    revert st1 Hf. induction (p_conflicts p) as [|d ds IH]; intros st1 Hf; [cbn; eauto|]. cbn [foldM].
    destruct (Hf d) as (r & cs & Hr & Hcs); [left|]. rewrite Hr. cbn [mbind res_bind]. rewrite Hcs. cbn [mbind res_bind].
    assert (Hd : ccand d = cs). { unfold ccand, wp. by rewrite Hr, Hcs. }
    assert (Hsc : match cs with [] => strict_check strict MissingConflicts reqs | _ => Ok () end = Ok ()).
    { unfold strict_check. rewrite Hs. by destruct cs. }
    rewrite Hsc. clear Hsc.
    edestruct (add_conflicts_spec p package_conflicts) as (st2 & E1 & _);
      [done| |cbn [mbind res_bind]; rewrite E1; cbn [mbind res_bind]; apply IH; intros; apply Hf; by right].
    intros q Hq. rewrite <-Hd in Hq. by eapply ccand_sub.
  Qed.
End rules.
