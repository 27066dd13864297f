(** * Pretty operations: what merging the operations of a transaction gives. *)
From Verif Require Import PoolProofs PropPool PropConstraints ConstraintProofs SatLearn.
From Verif Require Export TransProofs.

Lemma mapM_res_elem {A B} (f : A → res B) l r y : mapM_res f l = Ok r → y ∈ r ↔ ∃ x, x ∈ l ∧ f x = Ok y.
Proof.
  revert r. induction l as [|x l IH]; intros r H.
  - injection H as <-. split; [intros []%elem_of_nil|intros (? & []%elem_of_nil & _)].
  - rewrite mapM_res_cons in H. apply mbind_ok in H as (z & Hz & H). apply mbind_ok in H as (zs & Hzs & [= <-]).
    rewrite elem_of_cons, (IH _ Hzs). split.
    + intros [->|(w & Hw & Ew)]; [exists x; split; [left|done]|exists w; split; [by right|done]].
    + intros (w & [->|Hw]%elem_of_cons & Ew); [left; congruence|right; eauto].
Qed.
Lemma mapM_res_map {A B C} (f : A → res B) (g : A → C) (h : B → C) l r : mapM_res f l = Ok r →
  (∀ x y, x ∈ l → f x = Ok y → h y = g x) → h <$> r = g <$> l.
Proof.
  revert r. induction l as [|x l IH]; intros r H Hh.
  - by injection H as <-.
  - rewrite mapM_res_cons in H. apply mbind_ok in H as (z & Hz & H). apply mbind_ok in H as (zs & Hzs & [= <-]).
    rewrite !fmap_cons. f_equal; [apply Hh; [left|done]|apply IH; [done|]]. intros. apply Hh; [by right|done].
Qed.
Lemma mapM_res_total {A B} (f : A → res B) l : (∀ x, x ∈ l → ∃ y, f x = Ok y) → ∃ r, mapM_res f l = Ok r.
Proof.
  induction l as [|x l IH]; intros H; [by exists []|]. rewrite mapM_res_cons.
  destruct (H x) as [y ->]; [left|]. destruct IH as [r ->]; [intros; apply H; by right|]. cbn. eauto.
Qed.

Section pretty.
  Context (po : pool) (l : list package) (R : pool_rep po l) (Hinj : well_formed l).
  Lemma eq_l p q : p ∈ l → q ∈ l → pkg_eq p q = true ↔ p = q.
  Proof. intros Hp Hq. rewrite pkg_eq_true. split; [by apply (wf_keys _ Hinj)|by intros ->]. Qed.
  Lemma eq_l_false p q : p ∈ l → q ∈ l → pkg_eq p q = false ↔ p ≠ q.
  Proof. intros Hp Hq. rewrite <-(eq_l p q), <-not_true_iff_false by done. done. Qed.
  (** A dictionary of operations keyed by packages of the pool. *)
  Definition od_ok (d : odict) : Prop := NoDup d.*1 ∧ ∀ p, p ∈ d.*1 → p ∈ l.
  Lemma od_ok_cons p o d : od_ok ((p, o) :: d) ↔ p ∈ l ∧ p ∉ d.*1 ∧ od_ok d.
  Proof.
    unfold od_ok. rewrite fmap_cons, NoDup_cons. cbn [fst]. split.
    - intros [[? ?] HH]. split; [apply HH; left|]. split; [done|]. split; [done|]. intros q Hq. apply HH. by right.
    - intros (? & ? & ? & HH). split; [done|]. intros q [->|Hq]%elem_of_cons; [done|by apply HH].
  Qed.
  Lemma od_get_none d p : p ∈ l → od_ok d → od_get d p = None ↔ p ∉ d.*1.
  Proof.
    intros Hp. induction d as [|[q o] d IH]; intros Hd; [split; [intros _ []%elem_of_nil|done]|].
    apply od_ok_cons in Hd as (Hq & _ & Hd). cbn [od_get]. rewrite fmap_cons, elem_of_cons. cbn [fst].
    destruct (pkg_eq q p) eqn:E.
    - apply eq_l in E as ->; [|done..]. split; [done|]. intros H. destruct H. by left.
    - apply eq_l_false in E; [|done..]. rewrite IH by done. split; [by intros H [->|?]|]. intros H H'. apply H. by right.
  Qed.
  Lemma od_get_elem d p o : od_ok d → p ∈ l → od_get d p = Some o ↔ (p, o) ∈ d.
  Proof.
    intros Hd Hp. induction d as [|[q o'] d IH]; [split; [done|intros []%elem_of_nil]|].
    apply od_ok_cons in Hd as (Hq & Hn & Hd). cbn [od_get]. rewrite elem_of_cons.
    destruct (pkg_eq q p) eqn:E.
    - apply eq_l in E as ->; [|done..]. split; [intros [= ->]; by left|]. intros [[= ->]|H]; [done|].
      destruct Hn. apply elem_of_list_fmap. by exists (p, o).
    - apply eq_l_false in E; [|done..]. rewrite IH by done. split; [by right|]. by intros [[= -> _]|].
  Qed.
  Lemma od_set_spec d p o : od_ok d → p ∈ l → od_ok (od_set d p o) ∧
    (∀ q, q ∈ (od_set d p o).*1 ↔ q = p ∨ q ∈ d.*1) ∧
    ∀ q, q ∈ l → od_get (od_set d p o) q = if decide (p = q) then Some o else od_get d q.
  Proof.
    intros Hd Hp. induction d as [|[r o'] d IH].
    - cbn. split; [apply od_ok_cons; split; [done|]; split; [apply not_elem_of_nil|]; split; [constructor|intros ? []%elem_of_nil]|].
      split; [intros q; rewrite elem_of_list_singleton; split; [by left|by intros [?|[]%elem_of_nil]]|].
      intros q Hq. destruct (decide (p = q)) as [->|Hne].
      + by rewrite (proj2 (eq_l q q Hq Hq)).
      + by rewrite (proj2 (eq_l_false p q Hp Hq)).
    - apply od_ok_cons in Hd as (Hr & Hn & Hd). destruct (IH Hd) as (IH1 & IH2 & IH3). cbn [od_set].
      destruct (pkg_eq r p) eqn:E.
      + apply eq_l in E as ->; [|done..]. split; [by apply od_ok_cons|]. split.
        * intros q. rewrite !fmap_cons, !elem_of_cons. cbn [fst]. tauto.
        * intros q Hq. cbn [od_get]. destruct (decide (p = q)) as [->|Hne].
          -- by rewrite (proj2 (eq_l q q Hq Hq)).
          -- by rewrite (proj2 (eq_l_false p q Hp Hq)).
      + apply eq_l_false in E; [|done..]. split; [apply od_ok_cons; split; [done|]; split; [|done]; rewrite IH2; by intros [->|?]|].
        split.
        * intros q. rewrite !fmap_cons, !elem_of_cons. cbn [fst]. rewrite IH2. tauto.
        * intros q Hq. cbn [od_get]. destruct (pkg_eq r q) eqn:E'; [|by apply IH3].
          apply eq_l in E' as <-; [|done..]. by rewrite decide_False by done.
  Qed.
  Lemma od_del_spec d p : od_ok d → p ∈ l → od_ok (od_del d p) ∧
    (∀ q, q ∈ (od_del d p).*1 ↔ q ≠ p ∧ q ∈ d.*1) ∧
    ∀ q, q ∈ l → od_get (od_del d p) q = if decide (p = q) then None else od_get d q.
  Proof.
    intros Hd Hp. induction d as [|[r o'] d IH].
    - cbn. split; [done|]. split; [intros q; split; [intros []%elem_of_nil|by intros [_ ?]]|]. intros q _. by destruct (decide _).
    - pose proof Hd as Hd'. apply od_ok_cons in Hd as (Hr & Hn & Hd). destruct (IH Hd) as (IH1 & IH2 & IH3). cbn [od_del].
      destruct (pkg_eq r p) eqn:E.
      + apply eq_l in E as ->; [|done..]. split; [done|]. split.
        * intros q. rewrite !fmap_cons, !elem_of_cons. cbn [fst]. split; [intros Hq; split; [by intros ->|by right]|]. intros [? [?|?]]; done.
        * intros q Hq. cbn [od_get]. destruct (decide (p = q)) as [<-|Hne].
          -- by apply od_get_none.
          -- by rewrite (proj2 (eq_l_false p q Hp Hq)).
      + apply eq_l_false in E; [|done..]. split; [apply od_ok_cons; split; [done|]; split; [|done]; rewrite IH2; by intros [_ ?]|].
        split.
        * intros q. rewrite !fmap_cons, !elem_of_cons. cbn [fst]. rewrite IH2. split; [|tauto]. intros [->|?]; tauto.
        * intros q Hq. cbn [od_get]. destruct (pkg_eq r q) eqn:E'; [|by apply IH3].
          apply eq_l in E' as <-; [|done..]. by rewrite decide_False by done.
  Qed.
  (** Merging the operations of others into those of [p]. *)
  Definition absorb (p : package) (d : odict) (q : package) : res odict :=
    mine ← of_option KeyError (od_get d p);
    let extra := default [] (od_get d q) in
    Ok (od_set (od_del d q) p (mine ++ extra)).
  Lemma absorb_spec p d q mine : od_ok d → p ∈ l → q ∈ l → q ≠ p → od_get d p = Some mine →
    ∃ d', absorb p d q = Ok d' ∧ od_ok d' ∧
      ∀ x, x ∈ l → od_get d' x = if decide (p = x) then Some (mine ++ default [] (od_get d q))
                                 else if decide (q = x) then None else od_get d x.
  Proof.
    intros Hd Hp Hq Hne Hm. unfold absorb. rewrite Hm. cbn [of_option mbind res_bind].
    eexists. split; [done|]. destruct (od_del_spec d q Hd Hq) as (H1 & _ & H3).
    destruct (od_set_spec _ p (mine ++ default [] (od_get d q)) H1 Hp) as (H4 & _ & H6).
    split; [done|]. intros x Hx. rewrite H6 by done. destruct (decide (p = x)); [done|]. by apply H3.
  Qed.
  Lemma absorb_none p : p ∈ l → ∀ qs d mine, (∀ q, q ∈ qs → q ∈ l ∧ q ≠ p) → od_ok d → od_get d p = Some mine →
    (∀ q, q ∈ qs → od_get d q = None) →
    ∃ d', foldM (absorb p) qs d = Ok d' ∧ od_ok d' ∧ ∀ x, x ∈ l → od_get d' x = od_get d x.
  Proof.
    intros Hp. induction qs as [|q qs IH]; intros d mine Hqs Hd Hm Hn; [by exists d|].
    destruct (Hqs q) as [Hq Hne]; [left|]. destruct (absorb_spec p d q mine Hd Hp Hq Hne Hm) as (d1 & E1 & Hd1 & Hg1).
    assert (Hq0 : od_get d q = None) by (apply Hn; left).
    assert (Hg : ∀ x, x ∈ l → od_get d1 x = od_get d x).
    { intros x Hx. rewrite Hg1 by done. rewrite Hq0. cbn [default]. rewrite app_nil_r.
      destruct (decide (p = x)) as [<-|]; [done|]. destruct (decide (q = x)) as [<-|]; done. }
    destruct (IH d1 mine) as (d2 & E2 & Hd2 & Hg2); [intros; apply Hqs; by right|done|by rewrite Hg|..].
    { intros x Hx. rewrite Hg by (apply Hqs; by right). apply Hn. by right. }
    exists d2. cbn [foldM]. rewrite E1. cbn [mbind res_bind]. split; [done|]. split; [done|]. intros x Hx. rewrite Hg2, Hg; done.
  Qed.
  Lemma absorb_one p q0 os : p ∈ l → ∀ qs d mine, (∀ q, q ∈ qs → q ∈ l ∧ q ≠ p) → od_ok d → od_get d p = Some mine →
    q0 ∈ qs → od_get d q0 = Some os → (∀ q, q ∈ qs → q ≠ q0 → od_get d q = None) →
    ∃ d', foldM (absorb p) qs d = Ok d' ∧ od_ok d' ∧ ∀ x, x ∈ l → od_get d' x =
      if decide (p = x) then Some (mine ++ os) else if decide (q0 = x) then None else od_get d x.
  Proof.
    intros Hp. induction qs as [|q qs IH]; intros d mine Hqs Hd Hm H0 Hos Hn; [by apply elem_of_nil in H0|].
    destruct (Hqs q) as [Hq Hne]; [left|]. destruct (absorb_spec p d q mine Hd Hp Hq Hne Hm) as (d1 & E1 & Hd1 & Hg1).
    cbn [foldM]. rewrite E1. cbn [mbind res_bind]. destruct (decide (q = q0)) as [->|Hqq].
    - destruct (absorb_none p Hp qs d1 (mine ++ os)) as (d2 & E2 & Hd2 & Hg2);
        [intros; apply Hqs; by right|done|by rewrite Hg1, decide_True, Hos|..].
      { intros x Hx. destruct (Hqs x) as [Hxl Hxp]; [by right|]. rewrite Hg1 by done. rewrite decide_False by done.
        destruct (decide (q0 = x)); [done|]. apply Hn; [by right|done]. }
      exists d2. split; [done|]. split; [done|]. intros x Hx. rewrite Hg2, Hg1 by done. by rewrite Hos.
    - assert (Hq0 : od_get d q = None) by (apply Hn; [left|done]).
      assert (Hg : ∀ x, x ∈ l → od_get d1 x = od_get d x).
      { intros x Hx. rewrite Hg1 by done. rewrite Hq0. cbn [default]. rewrite app_nil_r.
        destruct (decide (p = x)) as [<-|]; [done|]. destruct (decide (q = x)) as [<-|]; done. }
      apply elem_of_cons in H0 as [->|H0]; [done|].
      destruct (IH d1 mine) as (d2 & E2 & Hd2 & Hg2); [intros; apply Hqs; by right|done|by rewrite Hg|done|..].
      { rewrite Hg; [done|]. apply Hqs. by right. }
      { intros x Hx Hne'. rewrite Hg by (apply Hqs; by right). apply Hn; [by right|done]. }
      exists d2. split; [done|]. split; [done|]. intros x Hx. rewrite Hg2 by done. by rewrite Hg.
  Qed.

  (** Only packages of the same name provide a package's name. *)
  Context (Hprov : ∀ p q, p ∈ l → q ∈ l → provides q (p_name p) → p_name q = p_name p).
  Lemma others_spec p : p ∈ l → ∃ qs, find_other_providers po p = Ok qs ∧
    ∀ q, q ∈ qs ↔ q ∈ l ∧ p_name q = p_name p ∧ q ≠ p.
  Proof.
    intros Hp. unfold find_other_providers. rewrite (name_req _ Hinj _ p Hp). cbn [mbind res_bind].
    destruct (dcand_ok po l R (p_name p, [[]])) as (r & E & Hr); [unfold plain_cdep; cbn; lia|].
    cbn in E. injection E as <-.
    unfold req_of_name. rewrite Hr. cbn [mbind res_bind]. eexists. split; [done|]. intros q. rewrite elem_of_list_filter, (dcand_spec po l R).
    2:{ unfold plain_cdep. cbn. lia. }
    unfold dep_meets. cbn [fst snd]. split.
    - intros (Hne & Hq & Hpr & _). apply eq_l_false in Hne; [|done..]. split; [done|]. split; [by apply Hprov|done].
    - intros (Hq & Hn & Hne). split; [by apply eq_l_false|]. split; [done|]. split; [left; done|]. right. exists []. split; [left|]. intros cs c []%elem_of_nil.
  Qed.

  Context (rem ins : list package) (Hsub : ∀ p, p ∈ rem ++ ins → p ∈ l) (Hnd : NoDup (rem ++ ins)).
  Context (Hur : ∀ p q, p ∈ rem → q ∈ rem → p_name p = p_name q → p = q).
  Context (Hui : ∀ p q, p ∈ ins → q ∈ ins → p_name p = p_name q → p = q).
  Let ops := (RemoveOp <$> rem) ++ (InstallOp <$> ins).
  Let d0 : odict := foldl (λ d o, od_set d (op_package o) [o]) [] ops.
  Lemma ops_pkgs : op_package <$> ops = rem ++ ins.
  Proof.
    unfold ops. rewrite fmap_app, <-!list_fmap_compose. f_equal; [clear|clear].
    - induction rem; [done|]. cbn. by f_equal.
    - induction ins; [done|]. cbn. by f_equal.
  Qed.
  Lemma od_set_new d p o : p ∈ l → od_ok d → p ∉ d.*1 → od_set d p o = d ++ [(p, o)].
  Proof.
    intros Hp. induction d as [|[q o'] d IH]; intros Hd Hn; [done|]. apply od_ok_cons in Hd as (Hq & _ & Hd).
    rewrite fmap_cons, elem_of_cons in Hn. cbn [fst] in Hn. cbn [od_set].
    rewrite (proj2 (eq_l_false q p Hq Hp)) by (intros ->; tauto). rewrite IH by (done || tauto). done.
  Qed.
  Lemma d0_gen (xs : list operation) : ∀ d, od_ok (d ++ ((λ o, (op_package o, [o])) <$> xs)) →
    foldl (λ d o, od_set d (op_package o) [o]) d xs = d ++ ((λ o, (op_package o, [o])) <$> xs).
  Proof.
    induction xs as [|o xs IH]; intros d Hd; [by rewrite app_nil_r|]. rewrite fmap_cons. cbn [foldl].
    rewrite fmap_cons in Hd. rewrite cons_middle, app_assoc in Hd. rewrite od_set_new, IH; [by rewrite <-app_assoc|done|..].
    - destruct Hd as [_ Hd]. apply Hd. rewrite fmap_app, fmap_app, !elem_of_app. left. right. left.
    - destruct Hd as [H1 H2]. rewrite fmap_app, fmap_app in H1. rewrite <-app_assoc in H1. apply NoDup_app in H1 as (H1 & _ & _).
      split; [done|]. intros p Hp. apply H2. rewrite fmap_app, fmap_app, !elem_of_app. by left; left.
    - destruct Hd as [H1 _]. rewrite fmap_app, fmap_app in H1. rewrite <-app_assoc in H1. apply NoDup_app in H1 as (_ & H1 & _).
      intros Hin. apply (H1 _ Hin). left.
  Qed.
  Lemma d0_eq : d0 = (λ o, (op_package o, [o])) <$> ops.
  Proof.
    unfold d0. rewrite d0_gen; [done|]. split; cbn [app]; rewrite <-list_fmap_compose; unfold compose; cbn [fst].
    - change (NoDup (op_package <$> ops)). by rewrite ops_pkgs.
    - intros p. change (p ∈ op_package <$> ops → p ∈ l). rewrite ops_pkgs. apply Hsub.
  Qed.
  Lemma in_rem p : p ∈ rem → p ∈ l ∧ p ∉ ins.
  Proof. intros Hp. apply NoDup_app in Hnd as (_ & H & _). split; [apply Hsub, elem_of_app; by left|by apply H]. Qed.
  Lemma in_ins p : p ∈ ins → p ∈ l ∧ p ∉ rem.
  Proof. intros Hp. split; [apply Hsub, elem_of_app; by right|]. intros Hr. by destruct (in_rem p Hr). Qed.
  (** What the dictionary holds for a package when the installs in [done] were handled. *)
  Definition partner (p : package) : list package := filter (λ r, p_name r = p_name p) rem.
  Definition held (done : list package) (p : package) : option (list operation) :=
    if decide (p ∈ ins) then Some (InstallOp p :: if decide (p ∈ done) then RemoveOp <$> partner p else [])
    else if decide (p ∈ rem) then
      if decide (Exists (λ q, p_name q = p_name p) done) then None else Some [RemoveOp p]
    else None.
  Definition inv (done : list package) (d : odict) : Prop := od_ok d ∧ ∀ p, p ∈ l → od_get d p = held done p.
  Lemma inv_0 : inv [] d0.
  Proof.
    assert (Hok : od_ok d0).
    { rewrite d0_eq. split; rewrite <-list_fmap_compose; unfold compose; cbn [fst].
      - change (NoDup (op_package <$> ops)). by rewrite ops_pkgs.
      - intros p. change (p ∈ op_package <$> ops → p ∈ l). rewrite ops_pkgs. apply Hsub. }
    split; [done|]. intros p Hp. unfold held.
    assert (Hin : ∀ o, o ∈ ops → od_get d0 (op_package o) = Some [o]).
    { intros o Ho. apply od_get_elem; [done| |].
      - apply Hsub. rewrite <-ops_pkgs. by apply elem_of_list_fmap_1.
      - rewrite d0_eq. apply elem_of_list_fmap. by exists o. }
    destruct (decide (p ∈ ins)) as [Hi|Hi].
    - rewrite decide_False by apply not_elem_of_nil. apply (Hin (InstallOp p)). unfold ops. apply elem_of_app. right.
      apply elem_of_list_fmap. by exists p.
    - destruct (decide (p ∈ rem)) as [Hr|Hr].
      + rewrite decide_False by (by intros ?%Exists_nil). apply (Hin (RemoveOp p)). unfold ops. apply elem_of_app. left.
        apply elem_of_list_fmap. by exists p.
      + apply od_get_none; [done|done|]. rewrite d0_eq, <-list_fmap_compose. unfold compose. cbn [fst].
        change (p ∉ op_package <$> ops). rewrite ops_pkgs, elem_of_app. tauto.
  Qed.
  Definition pstep (d : odict) (pkg : package) : res odict :=
    match od_get d pkg with
    | None => Ok d
    | Some _ => others ← find_other_providers po pkg; foldM (absorb pkg) others d
    end.
  Lemma step_ins done p d : (∀ q, q ∈ done → q ∈ ins) → p ∈ ins → p ∉ done → inv done d →
    ∃ d', pstep d p = Ok d' ∧ inv (done ++ [p]) d'.
  Proof.
    intros Hdone Hp Hpd [Hd Hg]. destruct (in_ins p Hp) as [Hpl Hpr]. unfold pstep.
    assert (Hm : od_get d p = Some [InstallOp p]) by (rewrite Hg by done; unfold held; by rewrite decide_True, decide_False).
    rewrite Hm. destruct (others_spec p Hpl) as (qs & Eqs & Hqs). rewrite Eqs. cbn [mbind res_bind].
    assert (Hqs' : ∀ q, q ∈ qs → q ∈ l ∧ q ≠ p) by (intros q Hq%Hqs; tauto).
    assert (Hni : ∀ q, q ∈ qs → q ∉ ins) by (intros q (? & ? & Hne)%Hqs Hq; by apply Hne, Hui).
    assert (Hnex : ∀ q, q ∈ rem → p_name q = p_name p → ¬ Exists (λ q', p_name q' = p_name q) done).
    { intros q Hq Hqn (q' & Hq' & E)%Exists_exists. apply Hpd. replace p with q'; [done|]. apply Hui; [by apply Hdone|done|congruence]. }
    assert (Hheld : ∀ x mine, x ∈ l → (x = p → mine = [InstallOp p] ++ (RemoveOp <$> partner p)) →
      (if decide (p = x) then Some mine else if decide (x ∈ rem ∧ p_name x = p_name p) then None else held done x) = held (done ++ [p]) x).
    { intros x mine Hx Hmine. unfold held. destruct (decide (p = x)) as [<-|Hne].
      - rewrite decide_True by done. rewrite decide_True by (apply elem_of_app; right; left). by rewrite Hmine.
      - destruct (decide (x ∈ ins)) as [Hxi|Hxi].
        + rewrite decide_False by (intros [Hxr _]; by destruct (in_rem x Hxr)).
          destruct (decide (x ∈ done)) as [Hxd|Hxd].
          * by rewrite decide_True by (apply elem_of_app; by left).
          * rewrite decide_False; [done|]. intros [?| ->%elem_of_list_singleton]%elem_of_app; done.
        + destruct (decide (x ∈ rem)) as [Hxr|Hxr]; [|by rewrite decide_False by tauto].
          destruct (decide (p_name x = p_name p)) as [Hxn|Hxn].
          * rewrite decide_True by done. rewrite decide_True; [done|]. apply Exists_app. right. constructor. done.
          * rewrite decide_False by tauto. destruct (decide (Exists _ done)) as [Hex|Hex].
            -- rewrite decide_True; [done|]. apply Exists_app. by left.
            -- rewrite decide_False; [done|]. intros [?|H]%Exists_app; [done|]. inversion H as [? ? Hq|? ? Hq]; [congruence|by inversion Hq]. }
    destruct (decide (Exists (λ r, p_name r = p_name p) rem)) as [(q0 & Hq0 & Hn0)%Exists_exists|Hno].
    - destruct (in_rem q0 Hq0) as [Hq0l Hq0i].
      assert (Hpart : partner p = [q0]).
      { unfold partner. destruct (elem_of_list_split _ _ Hq0) as (k1 & k2 & E).
        assert (Hf : ∀ k, (∀ x, x ∈ k → x ∈ rem ∧ x ≠ q0) → filter (λ r, p_name r = p_name p) k = []).
        { induction k as [|x k IH]; intros Hk; [done|]. rewrite filter_cons, decide_False, IH; [done| |].
          - intros y Hy. apply Hk. by right.
          - intros Hxn. destruct (Hk x) as [Hx Hne]; [left|]. apply Hne, Hur; [done|rewrite E; apply elem_of_app; right; left|congruence]. }
        assert (Hndr : NoDup rem) by (by apply NoDup_app in Hnd as (? & _)). rewrite E in Hndr.
        rewrite E, filter_app, filter_cons, decide_True by done.
        apply NoDup_app in Hndr as (_ & Hd1 & [Hd2 _]%NoDup_cons).
        rewrite !Hf; [done| |].
        - intros x Hx. split; [rewrite E; apply elem_of_app; right; by right|by intros ->].
        - intros x Hx. split; [rewrite E; apply elem_of_app; by left|]. intros ->. apply (Hd1 _ Hx). left. }
      destruct (absorb_one p q0 [RemoveOp q0] Hpl qs d [InstallOp p]) as (d' & E' & Hd' & Hg'); [done..| | | |].
      + apply Hqs. split; [done|]. split; [done|]. by intros ->.
      + rewrite Hg by done. unfold held. rewrite decide_False, decide_True by done. rewrite decide_False; [done|]. by apply Hnex.
      + intros q Hq Hne. rewrite Hg by (by apply Hqs'). unfold held. rewrite decide_False by (by apply Hni).
        rewrite decide_False; [done|]. intros Hqr. apply Hqs in Hq as (? & ? & ?). apply Hne, Hur; [done|done|congruence].
      + exists d'. split; [done|]. split; [done|]. intros x Hx. rewrite Hg' by done.
        rewrite <-(Hheld x ([InstallOp p] ++ (RemoveOp <$> partner p)) Hx) by done. rewrite Hpart.
        destruct (decide (p = x)); [done|]. destruct (decide (q0 = x)) as [<-|Hne]; [by rewrite decide_True|].
        rewrite decide_False; [by apply Hg|]. intros [Hxr Hxn]. apply Hne, Hur; [done|done|congruence].
    - destruct (absorb_none p Hpl qs d [InstallOp p]) as (d' & E' & Hd' & Hg'); [done..| |].
      + intros q Hq. rewrite Hg by (by apply Hqs'). unfold held. rewrite decide_False by (by apply Hni).
        rewrite decide_False; [done|]. intros Hqr. apply Hno, Exists_exists. exists q. split; [done|]. by apply Hqs in Hq as (? & ? & ?).
      + exists d'. split; [done|]. split; [done|]. intros x Hx. rewrite Hg', Hg by done.
        assert (Hpart : partner p = []).
        { unfold partner. destruct (filter _ rem) as [|y k] eqn:E; [done|].
          assert (Hy : y ∈ filter (λ r, p_name r = p_name p) rem) by (rewrite E; left).
          apply elem_of_list_filter in Hy as [? ?]. destruct Hno. apply Exists_exists. eauto. }
        rewrite <-(Hheld x [InstallOp p] Hx) by (by rewrite Hpart). destruct (decide (p = x)) as [<-|Hne]; [rewrite <-Hg; done|].
        rewrite decide_False; [done|]. intros [Hxr Hxn]. apply Hno, Exists_exists. eauto.
  Qed.
  Lemma steps_ins ps : ∀ done d, NoDup (done ++ ps) → (∀ q, q ∈ done ++ ps → q ∈ ins) → inv done d →
    ∃ d', foldM pstep ps d = Ok d' ∧ inv (done ++ ps) d'.
  Proof.
    induction ps as [|p ps IH]; intros done d Hnd' Hin Hi; [exists d; by rewrite app_nil_r|].
    destruct (step_ins done p d) as (d1 & E1 & Hi1); [| | |done|].
    - intros q Hq. apply Hin, elem_of_app. by left.
    - apply Hin, elem_of_app. right. left.
    - apply NoDup_app in Hnd' as (_ & H & _). intros Hp. apply (H p Hp). left.
    - rewrite cons_middle, app_assoc in Hnd'. rewrite cons_middle, app_assoc in Hin.
      destruct (IH _ d1 Hnd' Hin Hi1) as (d2 & E2 & Hi2). exists d2. cbn [foldM]. rewrite E1. cbn [mbind res_bind].
      split; [done|]. by rewrite <-app_assoc in Hi2.
  Qed.
  Lemma steps_rem ps : ∀ done d, (∀ q, q ∈ ps → q ∈ rem) → (∀ q, q ∈ ins → q ∈ done) → (∀ q, q ∈ done → q ∈ ins) → inv done d →
    ∃ d', foldM pstep ps d = Ok d' ∧ inv done d'.
  Proof.
    induction ps as [|p ps IH]; intros done d Hps Hi1 Hi2 [Hd Hg]; [by exists d|].
    assert (Hp : p ∈ rem) by (apply Hps; left). destruct (in_rem p Hp) as [Hpl Hpi].
    assert (Hs : ∃ d1, pstep d p = Ok d1 ∧ inv done d1).
    { unfold pstep. destruct (od_get d p) as [mine|] eqn:Hm; [|by exists d].
      destruct (others_spec p Hpl) as (qs & -> & Hqs). cbn [mbind res_bind].
      rewrite Hg in Hm by done. unfold held in Hm. rewrite decide_False, decide_True in Hm by done.
      destruct (decide _) as [|Hno] in Hm; [done|].
      destruct (absorb_none p Hpl qs d mine) as (d1 & E1 & Hd1 & Hg1); [intros q Hq%Hqs; tauto|done| | |].
      - rewrite Hg by done. unfold held. by rewrite decide_False, decide_True, decide_False.
      - intros q (Hq & Hqn & Hne)%Hqs. rewrite Hg by done. unfold held. rewrite decide_False.
        2:{ intros Hqi. apply Hno, Exists_exists. exists q. split; [by apply Hi1|done]. }
        rewrite decide_False; [done|]. intros Hqr. by apply Hne, Hur.
      - exists d1. split; [done|]. split; [done|]. intros x Hx. by rewrite Hg1, Hg. }
    destruct Hs as (d1 & E1 & Hv). destruct (IH done d1) as (d2 & E2 & ?); [intros; apply Hps; by right|done..|].
    exists d2. cbn [foldM]. rewrite E1. done.
  Qed.
  Lemma pretty_unfold : pretty_operations po ops = (d ← foldM pstep (reverse d0.*1) d0; mapM_res (λ e, merge_operations e.2) d).
  Proof. done. Qed.
  Theorem pretty_spec : ∃ pretty, pretty_operations po ops = Ok pretty ∧ NoDup (op_package <$> pretty) ∧
    (∀ p, InstallOp p ∈ pretty ↔ p ∈ ins ∧ ∀ q, q ∈ rem → p_name q ≠ p_name p) ∧
    (∀ p, RemoveOp p ∈ pretty ↔ p ∈ rem ∧ ∀ q, q ∈ ins → p_name q ≠ p_name p) ∧
    (∀ p q, UpdateOp p q ∈ pretty ↔ p ∈ ins ∧ q ∈ rem ∧ p_name q = p_name p).
  Proof.
    rewrite pretty_unfold. assert (Ek : reverse d0.*1 = reverse ins ++ reverse rem).
    { rewrite <-reverse_app. f_equal. rewrite d0_eq, <-list_fmap_compose. unfold compose. cbn [fst]. apply ops_pkgs. }
    rewrite Ek, foldM_app. destruct (steps_ins (reverse ins) [] d0) as (d1 & E1 & Hi1).
    { cbn [app]. rewrite reverse_Permutation. by apply NoDup_app in Hnd as (_ & _ & ?). }
    { intros q. cbn [app]. by rewrite elem_of_reverse. }
    { apply inv_0. }
    rewrite E1. cbn [mbind res_bind]. cbn [app] in Hi1.
    destruct (steps_rem (reverse rem) (reverse ins) d1) as (d2 & E2 & [Hd Hg]); [intros q; by rewrite elem_of_reverse..|done|].
    rewrite E2. cbn [mbind res_bind].
    assert (Hpart : ∀ p, p ∈ ins → (partner p = [] ∧ (∀ q, q ∈ rem → p_name q ≠ p_name p)) ∨
              ∃ q, partner p = [q] ∧ q ∈ rem ∧ p_name q = p_name p ∧ ∀ q', q' ∈ rem → p_name q' = p_name p → q' = q).
    { intros p Hp. assert (Hel : ∀ x, x ∈ partner p ↔ p_name x = p_name p ∧ x ∈ rem) by (intros x; unfold partner; rewrite elem_of_list_filter; done).
      assert (Hndp : NoDup (partner p)) by (apply NoDup_filter; by apply NoDup_app in Hnd as (? & _)).
      destruct (partner p) as [|q [|q' k]] eqn:E.
      - left. split; [done|]. intros q Hq Hn. destruct (not_elem_of_nil q). by apply Hel.
      - right. exists q. destruct (proj1 (Hel q)) as [? ?]; [left|]. split; [done|]. split; [done|]. split; [done|].
        intros q' ? ?. by apply elem_of_list_singleton, Hel.
      - exfalso. destruct (proj1 (Hel q)) as [? ?]; [left|]. destruct (proj1 (Hel q')) as [? ?]; [right; left|].
        apply NoDup_cons in Hndp as [Hndp _]. apply Hndp. rewrite (Hur q q') by (done || congruence). left. }
    assert (Hent : ∀ p os, (p, os) ∈ d2 ↔ p ∈ l ∧ held (reverse ins) p = Some os).
    { intros p os. split.
      - intros H. assert (Hp : p ∈ l) by (destruct Hd as [_ Hd]; apply Hd, elem_of_list_fmap; by exists (p, os)).
        split; [done|]. rewrite <-Hg by done. by apply od_get_elem.
      - intros [Hp H]. apply od_get_elem; [done|done|]. by rewrite Hg. }
    (* the merged operation of each entry *)
    assert (Hmerge : ∀ p os, (p, os) ∈ d2 → 
      (p ∈ ins ∧ (∀ q, q ∈ rem → p_name q ≠ p_name p) ∧ merge_operations os = Ok (InstallOp p)) ∨
      (p ∈ rem ∧ (∀ q, q ∈ ins → p_name q ≠ p_name p) ∧ merge_operations os = Ok (RemoveOp p)) ∨
      (∃ q, p ∈ ins ∧ q ∈ rem ∧ p_name q = p_name p ∧ merge_operations os = Ok (UpdateOp p q))).
    { intros p os [Hp Hh]%Hent. unfold held in Hh. destruct (decide (p ∈ ins)) as [Hpi|Hpi].
      - rewrite decide_True in Hh by (by rewrite elem_of_reverse).
        destruct (Hpart p Hpi) as [[E Hno]|(q & E & Hq & Hqn & _)]; rewrite E in Hh; injection Hh as <-.
        + by left.
        + right. right. exists q. done.
      - destruct (decide (p ∈ rem)) as [Hpr|]; [|done]. destruct (decide _) as [|Hno] in Hh; [done|]. injection Hh as <-.
        right. left. split; [done|]. split; [|done]. intros q Hq Hn. apply Hno, Exists_exists. exists q. by rewrite elem_of_reverse. }
    destruct (mapM_res_total (λ e : package * list operation, merge_operations e.2) d2) as [pretty Ep].
    { intros [p os] H. cbn [snd]. destruct (Hmerge p os H) as [(_ & _ & ->)|[(_ & _ & ->)|(q & _ & _ & _ & ->)]]; eauto. }
    exists pretty. split; [done|]. assert (Hel := λ y, mapM_res_elem _ _ _ y Ep). split.
    { rewrite (mapM_res_map _ fst op_package _ _ Ep); [by destruct Hd|]. intros [p os] y Hin Hy. cbn [snd] in Hy.
      destruct (Hmerge p os Hin) as [(_ & _ & E)|[(_ & _ & E)|(q & _ & _ & _ & E)]]; rewrite E in Hy; by simplify_eq. }
    assert (Hwi : ∀ p, p ∈ ins → (p, InstallOp p :: (RemoveOp <$> partner p)) ∈ d2).
    { intros p Hp. apply Hent. split; [by apply in_ins|]. unfold held. rewrite decide_True by done.
      by rewrite decide_True by (by rewrite elem_of_reverse). }
    split; [|split].
    - intros p. rewrite Hel. split.
      + intros ([p' os] & Hin & Hy). cbn [snd] in Hy. destruct (Hmerge p' os Hin) as [(? & ? & E)|[(? & ? & E)|(? & ? & ? & ? & E)]];
          rewrite E in Hy; by simplify_eq.
      + intros [Hp Hno]. eexists. split; [by apply Hwi|]. cbn [snd]. 
        destruct (Hpart p Hp) as [[-> _]|(q & _ & Hq & Hqn & _)]; [done|by destruct (Hno q Hq)].
    - intros p. rewrite Hel. split.
      + intros ([p' os] & Hin & Hy). cbn [snd] in Hy. destruct (Hmerge p' os Hin) as [(? & ? & E)|[(? & ? & E)|(? & ? & ? & ? & E)]];
          rewrite E in Hy; by simplify_eq.
      + intros [Hp Hno]. destruct (in_rem p Hp) as [Hpl Hpi]. exists (p, [RemoveOp p]). split; [|done]. apply Hent. split; [done|].
        unfold held. rewrite decide_False, decide_True by done. rewrite decide_False; [done|].
        intros (q & Hq & Hn)%Exists_exists. rewrite elem_of_reverse in Hq. by apply (Hno q Hq).
    - intros p q. rewrite Hel. split.
      + intros ([p' os] & Hin & Hy). cbn [snd] in Hy. destruct (Hmerge p' os Hin) as [(? & ? & E)|[(? & ? & E)|(? & ? & ? & ? & E)]];
          rewrite E in Hy; by simplify_eq.
      + intros (Hp & Hq & Hn). eexists. split; [by apply Hwi|]. cbn [snd].
        destruct (Hpart p Hp) as [[_ Hno]|(q' & -> & Hq' & Hqn' & Hu)]; [by destruct (Hno q Hq)|]. by rewrite (Hu q Hq Hn).
  Qed.
End pretty.
