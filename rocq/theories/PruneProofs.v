(** * Pruning: what _connected_packages keeps. *)
From Verif Require Import PoolProofs PropPool PropConstraints ConstraintProofs ReachProofs SatLearn.
From Verif Require Export RulesMain DepSolver.

Lemma foldM_total_inv {A B} (I : B → Prop) (f : B → A → res B) xs : ∀ b, I b →
  (∀ b x, I b → x ∈ xs → ∃ b', f b x = Ok b' ∧ I b') → ∃ b', foldM f xs b = Ok b' ∧ I b'.
Proof.
  induction xs as [|x xs IH]; intros b Hb Hf; [by exists b|]. destruct (Hf b x Hb) as (b1 & E & Hb1); [left|].
  destruct (IH b1 Hb1) as (b2 & E2 & ?); [intros; apply Hf; [done|by right]|]. exists b2. cbn [foldM]. by rewrite E.
Qed.
Lemma mapM_res_in {A B} (f : A → res B) l r : mapM_res f l = Ok r →
  (∀ y, y ∈ r ↔ ∃ x, x ∈ l ∧ f x = Ok y) ∧ ∀ x, x ∈ l → ∃ y, f x = Ok y.
Proof.
  revert r. induction l as [|x l IH]; intros r H.
  - injection H as <-. split; [intros y; split; [intros []%elem_of_nil|intros (? & []%elem_of_nil & _)]|intros x []%elem_of_nil].
  - cbn [mapM_res] in H. apply mbind_ok in H as (z & Hz & H). apply mbind_ok in H as (zs & Hzs & [= <-]).
    destruct (IH _ Hzs) as [IH1 IH2]. split.
    + intros y. rewrite elem_of_cons, IH1. split.
      * intros [->|(w & Hw & Ew)]; [exists x; split; [left|done]|exists w; split; [by right|done]].
      * intros (w & [->|Hw]%elem_of_cons & Ew); [left; congruence|right; eauto].
    + intros w [->|Hw]%elem_of_cons; [eauto|by apply IH2].
Qed.

Section prune.
  Context (e : env) (He : env_ok e).
  Context (po : pool) (l : list package) (R : pool_rep po l) (Hinj : well_formed l).
  Local Notation pid := (pid po).
  (** The solution: literals of packages of the pool. *)
  Context (sol : list Z) (Hsol : ∀ i, i ∈ sol → ∃ p, p ∈ l ∧ (i = pid p ∨ i = - pid p)).

  Lemma get_names_ok i p : p ∈ l → i = pid p ∨ i = - pid p → get_names po i = Ok (pkg_provides p).*1.
  Proof.
    intros Hp Hi. unfold get_names. pose proof (pid_pos po l R p Hp).
    replace (Z.abs i) with (pid p) by lia. by rewrite (pid_package po l R Hinj p Hp).
  Qed.
  Lemma root_names_spec (roots : list Z) : (∀ i, i ∈ roots → ∃ p, p ∈ l ∧ i = pid p) →
    ∃ N, root_names po roots = Ok N ∧ ∀ n, n ∈ N ↔ ∃ p, p ∈ l ∧ pid p ∈ roots ∧ provides p n.
  Proof.
    intros Hr. unfold root_names.
    assert (G : ∀ acc : gset string, ∃ N, foldM (λ (acc : gset string) i, ns ← get_names po i; Ok (acc ∪ list_to_set ns)) roots acc = Ok N ∧
      ∀ n, n ∈ N ↔ n ∈ acc ∨ ∃ p, p ∈ l ∧ pid p ∈ roots ∧ provides p n).
    { induction roots as [|i roots IH]; intros acc.
      - exists acc. split; [done|]. intros n. split; [by left|]. intros [?|(p & _ & []%elem_of_nil & _)]. done.
      - destruct (Hr i) as (p & Hp & Ei); [left|]. cbn [foldM]. rewrite (get_names_ok i p Hp) by (by left). cbn [mbind res_bind].
        destruct IH with (acc := acc ∪ (list_to_set (pkg_provides p).*1 : gset string)) as (N & E & HN); [intros; apply Hr; by right|].
        exists N. split; [done|]. intros n. rewrite HN, elem_of_union, elem_of_list_to_set, provides_names. split.
        + intros [[?|?]|(q & Hq & Hin & ?)]; [by left|right|right].
          * exists p. split; [done|]. split; [subst i; left|done].
          * exists q. split; [done|]. split; [by right|done].
        + intros [?|(q & Hq & [Hqi|Hin]%elem_of_cons & Hpr)]; [by left; left| |right; eauto].
          left. right. subst i. by apply (pid_inj po l R Hinj) in Hqi as ->. }
    destruct (G ∅) as (N & E & HN). exists N. split; [done|]. intros n. rewrite HN. split; [|by right].
    by intros [?%elem_of_empty|].
  Qed.
  Lemma insert_names (ns : list string) (i : Z) (m : gmap string Z) n :
    foldl (λ m n, <[n := i]> m) m ns !! n = if decide (n ∈ ns) then Some i else m !! n.
  Proof.
    revert m. induction ns as [|n' ns IH]; intros m; cbn [foldl]; [by rewrite decide_False by apply not_elem_of_nil|].
    rewrite IH. destruct (decide (n ∈ ns)) as [H|H].
    - by rewrite decide_True by (by right).
    - destruct (decide (n = n')) as [->|Hne].
      + rewrite lookup_insert, decide_True by left. done.
      + rewrite lookup_insert_ne, decide_False; [done| |done]. intros [?|?]%elem_of_cons; done.
  Qed.
  Lemma name_to_id_spec : ∃ n2i, name_to_id po sol = Ok n2i ∧
    (∀ n i, n2i !! n = Some i → ∃ p, p ∈ l ∧ i = pid p ∧ i ∈ sol ∧ provides p n) ∧
    (∀ n p, p ∈ l → pid p ∈ sol → provides p n → is_Some (n2i !! n)).
  Proof.
    unfold name_to_id.
    assert (G : ∀ xs, (∀ i, i ∈ xs → i ∈ sol) → ∀ (m0 : gmap string Z), (∀ n i, m0 !! n = Some i → ∃ p, p ∈ l ∧ i = pid p ∧ i ∈ sol ∧ provides p n) →
      ∃ n2i : gmap string Z, foldM (λ (m : gmap string Z) i, ns ← get_names po i;
             Ok (if decide (0 < i) then foldl (λ m n, <[n := i]> m) m ns else m)) xs m0 = Ok n2i ∧
       (∀ n i, n2i !! n = Some i → ∃ p, p ∈ l ∧ i = pid p ∧ i ∈ sol ∧ provides p n) ∧
       (∀ n, is_Some (m0 !! n) → is_Some (n2i !! n)) ∧
       (∀ n p, p ∈ l → pid p ∈ xs → provides p n → is_Some (n2i !! n))).
    { induction xs as [|i xs IH]; intros Hxs m0 Hm0.
      - exists m0. split; [done|]. split; [done|]. split; [done|]. intros n p _ []%elem_of_nil.
      - destruct (Hsol i) as (p & Hp & Ei); [apply Hxs; left|]. cbn [foldM]. rewrite (get_names_ok i p Hp Ei). cbn [mbind res_bind].
        pose proof (pid_pos po l R p Hp) as Hpos.
        match goal with |- ∃ _, foldM _ _ ?m1 = _ ∧ _ => assert (Hm1 : (∀ n i, m1 !! n = Some i → ∃ p, p ∈ l ∧ i = pid p ∧ i ∈ sol ∧ provides p n) ∧
            (∀ n, is_Some (m0 !! n) → is_Some (m1 !! n)) ∧ (i = pid p → ∀ n, provides p n → is_Some (m1 !! n))) end.
        { destruct (decide (0 < i)) as [Hi|Hi].
          - assert (i = pid p) as -> by lia. split; [|split].
            + intros n i'. rewrite insert_names. destruct (decide _) as [Hn|]; [|apply Hm0]. intros [= <-]. exists p.
              apply provides_names in Hn. split; [done|]. split; [done|]. split; [apply Hxs; left|done].
            + intros n Hn. rewrite insert_names. destruct (decide _); [eauto|done].
            + intros _ n Hn. rewrite insert_names. apply provides_names in Hn. rewrite decide_True by done. eauto.
          - split; [done|]. split; [done|]. intros ->. lia. }
        destruct Hm1 as (Hm1 & Hm2 & Hm3). destruct (IH (λ i' Hi', Hxs i' (elem_of_list_further _ _ _ Hi')) _ Hm1) as (n2i & E & H1 & H2 & H3).
        exists n2i. split; [done|]. split; [done|]. split; [intros n Hn; by apply H2, Hm2|].
        intros n q Hq [Hqi|Hin]%elem_of_cons Hpr; [|by eapply H3]. apply H2. subst i. destruct Ei as [Ei|Ei].
        + apply (pid_inj po l R Hinj) in Ei as ->; [|done..]. by apply Hm3.
        + pose proof (pid_pos po l R q Hq). lia. }
    destruct (G sol (λ _ H, H) ∅) as (n2i & E & H1 & _ & H3); [intros n i; by rewrite lookup_empty|].
    exists n2i. done.
  Qed.
  Lemma neighborfunc_inv n2i p ns : p ∈ l → neighborfunc po n2i (pid p) = Ok ns →
    (∀ i, i ∈ ns ↔ ∃ d, d ∈ p_requires p ∧ n2i !! d.1 = Some i) ∧ ∀ d, d ∈ p_requires p → is_Some (n2i !! d.1).
  Proof.
    intros Hp H. unfold neighborfunc in H. rewrite (pid_package po l R Hinj p Hp) in H. cbn [mbind res_bind] in H.
    apply mbind_ok in H as (ids & Hids & [= <-]). apply mapM_res_in in Hids as [H1 H2]. split.
    - intros i. rewrite elem_of_list_to_set, H1. split; intros (d & Hd & E); exists d; (split; [done|]).
      + by destruct (n2i !! d.1); [injection E as ->|].
      + by rewrite E.
    - intros d Hd. destruct (H2 d Hd) as [y Hy]. destruct (n2i !! d.1); [eauto|done].
  Qed.
  Lemma neighborfunc_ok n2i p : p ∈ l → (∀ d, d ∈ p_requires p → is_Some (n2i !! d.1)) → ∃ ns, neighborfunc po n2i (pid p) = Ok ns.
  Proof.
    intros Hp H. unfold neighborfunc. rewrite (pid_package po l R Hinj p Hp). cbn [mbind res_bind].
    rewrite (mapM_res_ok _ (λ d, default 0 (n2i !! d.1))); [cbn; eauto|].
    intros d Hd. destruct (H d Hd) as [i ->]. done.
  Qed.

  (** What is reached from the names [N]. *)
  Inductive pulled (n2i : gmap string Z) (N : gset string) : Z → Prop :=
    | pulled_root n i : n ∈ N → n2i !! n = Some i → pulled n2i N i
    | pulled_dep p d i : p ∈ l → pulled n2i N (pid p) → d ∈ p_requires p → n2i !! d.1 = Some i → pulled n2i N i.
  Lemma sroots_elem (n2i : gmap string Z) (N : gset string) i :
    i ∈ (list_to_set (filter (λ ni : string * Z, ni.1 ∈ N) (map_to_list n2i)).*2 : gset Z) ↔ ∃ n, n ∈ N ∧ n2i !! n = Some i.
  Proof.
    rewrite elem_of_list_to_set, elem_of_list_fmap. split.
    - intros ([n i'] & -> & [Hn Hin]%elem_of_list_filter). exists n. by apply elem_of_map_to_list in Hin.
    - intros (n & Hn & Hi). exists (n, i). split; [done|]. apply elem_of_list_filter. split; [done|]. by apply elem_of_map_to_list.
  Qed.
  Section fold.
    Context (nb : Z → res (gset Z)) (fuel : nat).
    Local Notation fold := (foldM (λ incl i, connected_nodes (e_ord e) nb fuel i incl)).
    Definition closed (X : gset Z) : Prop := ∀ x, x ∈ X → ∃ ns, nb x = Ok ns ∧ ns ⊆ X.
    Lemma conn_fold_inv (P : Z → Prop) roots : (∀ x ns y, P x → nb x = Ok ns → y ∈ ns → P y) → (∀ x, x ∈ roots → P x) →
      ∀ V X, fold roots V = Ok X → closed V → (∀ x, x ∈ V → P x) →
      closed X ∧ V ⊆ X ∧ (∀ x, x ∈ roots → x ∈ X) ∧ ∀ x, x ∈ X → P x.
    Proof.
      intros HP. induction roots as [|r roots IH]; intros Hr V X H HV HVP.
      - injection H as <-. split; [done|]. split; [done|]. split; [intros x []%elem_of_nil|done].
      - cbn [foldM] in H. apply mbind_ok in H as (Y & HY & H).
        apply (connected_nodes_inv _ (proj1 He)) in HY as [Y1 Y2].
        destruct (IH (λ x Hx, Hr x (elem_of_list_further _ _ _ Hx)) Y X H) as (I1 & I2 & I3 & I4).
        + intros x [Hx|Hx]%Y1.
          * destruct (HV x Hx) as (ns & E & Hs). exists ns. split; [done|]. intros y Hy. apply Y1. left. by apply Hs.
          * destruct (Y2 x Hx) as (ns & E). exists ns. split; [done|]. intros y Hy. apply Y1. destruct (decide (y ∈ V)); [by left|].
            right. by eapply flood_step.
        + intros x [Hx|Hx]%Y1; [by apply HVP|]. induction Hx as [|x y ns Hx IHx En Hy HyV]; [apply Hr; left|by eapply HP].
        + split; [done|]. split; [intros x Hx; apply I2, Y1; by left|]. split; [|done].
          intros x [->|Hx]%elem_of_cons; [apply I2, Y1; right; constructor|by apply I3].
    Qed.
    Lemma conn_fold_total (F : gset Z) roots : (size F < fuel)%nat → (∀ x, x ∈ roots → x ∈ F) →
      (∀ x, x ∈ F → ∃ ns, nb x = Ok ns ∧ ns ⊆ F) → ∀ V, ∃ X, fold roots V = Ok X.
    Proof.
      intros Hf Hr HF. induction roots as [|r roots IH]; intros V; [by exists V|]. cbn [foldM].
      assert (Hfl : ∀ x, flood nb V r x → x ∈ F).
      { intros x. induction 1 as [|x y ns Hx IHx En Hy HyV]; [apply Hr; left|]. destruct (HF x IHx) as (ns' & En' & Hs).
        rewrite En in En'. injection En' as <-. by apply Hs. }
      assert (Hok : is_ok (connected_nodes (e_ord e) nb fuel r V) = true).
      { eapply (connected_nodes_total _ (proj1 He) _ F); [done|done|]. intros x Hx%Hfl. destruct (HF x Hx) as (ns & ? & _). eauto. }
      destruct (connected_nodes (e_ord e) nb fuel r V) as [Y|]; [|done]. apply IH. intros; apply Hr; by right.
    Qed.
  End fold.
  Lemma e_ord_elem n (X : gset Z) x : x ∈ e_ord e n X ↔ x ∈ X.
  Proof. by rewrite (proj1 He n X), elem_of_elements. Qed.

  Context (roots : gset Z) (Hroots : ∀ i, i ∈ roots → ∃ p, p ∈ l ∧ i = pid p).
  (** Pruned decisions: what is reached from the names of the roots, and the literals of roots. *)
  Lemma connected_spec fuel X : connected_packages e po fuel sol roots = Ok X →
    ∃ (n2i : gmap string Z) (N : gset string),
      name_to_id po sol = Ok n2i ∧
      (∀ n, n ∈ N ↔ ∃ p, p ∈ l ∧ pid p ∈ roots ∧ provides p n) ∧
      (∀ n i, n2i !! n = Some i → ∃ p, p ∈ l ∧ i = pid p ∧ i ∈ sol ∧ provides p n) ∧
      (∀ n p, p ∈ l → pid p ∈ sol → provides p n → is_Some (n2i !! n)) ∧
      (∀ p d, p ∈ l → pulled n2i N (pid p) → d ∈ p_requires p → is_Some (n2i !! d.1)) ∧
      ∀ i, i ∈ X ↔ pulled n2i N i ∨ (i ∈ sol ∧ Z.abs i ∈ roots).
  Proof.
    intros H. unfold connected_packages in H.
    destruct (root_names_spec (e_ord e 0 roots)) as (N & EN & HN).
    { intros i Hi%e_ord_elem. by apply Hroots. }
    rewrite EN in H. cbn [mbind res_bind] in H. destruct name_to_id_spec as (n2i & En & H1 & H2). rewrite En in H. cbn [mbind res_bind] in H.
    apply mbind_ok in H as (incl & Hincl & H). apply mbind_ok in H as (_ & _ & [= <-]).
    assert (Hpp : ∀ i, pulled n2i N i → ∃ p, p ∈ l ∧ i = pid p).
    { intros i [n i' Hn Hi|p d i' _ _ _ Hi]; destruct (H1 _ _ Hi) as (q & ? & ? & _); eauto. }
    apply (conn_fold_inv _ _ (pulled n2i N)) in Hincl as (C1 & _ & C3 & C4).
    2:{ intros x ns y Hx E Hy. destruct (Hpp x Hx) as (p & Hp & ->). apply neighborfunc_inv in E as [E _]; [|done].
        apply E in Hy as (d & Hd & Hi). by eapply pulled_dep. }
    2:{ intros x Hx%e_ord_elem. apply sroots_elem in Hx as (n & Hn & Hi). by eapply pulled_root. }
    2:{ intros x []%elem_of_empty. }
    2:{ intros x []%elem_of_empty. }
    assert (Hin : ∀ i, pulled n2i N i → i ∈ incl).
    { intros i Hi. induction Hi as [n i Hn Hi|p d i Hp Hpl IH Hd Hi].
      - apply C3, e_ord_elem, sroots_elem. eauto.
      - destruct (C1 _ IH) as (ns & E & Hs). apply Hs. apply neighborfunc_inv in E as [E _]; [|done]. apply E. eauto. }
    exists n2i, N. split; [done|]. split; [intros n; rewrite HN; by setoid_rewrite e_ord_elem|]. split; [done|]. split; [done|]. split.
    - intros p d Hp Hpl Hd. destruct (C1 _ (Hin _ Hpl)) as (ns & E & _). apply neighborfunc_inv in E as [_ E]; [|done]. by apply E.
    - intros i. rewrite elem_of_union, elem_of_list_to_set, elem_of_list_filter. split.
      + intros [Hi|[? ?]]; [left; by apply C4|by right].
      + intros [Hi|[? ?]]; [left; by apply Hin|by right].
  Qed.
  Lemma connected_total fuel n2i N (F : gset Z) : name_to_id po sol = Ok n2i →
    (∀ n, n ∈ N ↔ ∃ p, p ∈ l ∧ pid p ∈ roots ∧ provides p n) →
    (size F < fuel)%nat → (∀ i, pulled n2i N i → i ∈ F) →
    (∀ p d, p ∈ l → pulled n2i N (pid p) → d ∈ p_requires p → is_Some (n2i !! d.1)) →
    ∃ X, connected_packages e po fuel sol roots = Ok X.
  Proof.
    intros En HN Hf HF Hd. unfold connected_packages.
    destruct (root_names_spec (e_ord e 0 roots)) as (N' & EN & HN').
    { intros i Hi%e_ord_elem. by apply Hroots. }
    rewrite EN. cbn [mbind res_bind]. rewrite En. cbn [mbind res_bind].
    assert (N' = N) as ->.
    { apply set_eq. intros n. rewrite HN, HN'. by setoid_rewrite e_ord_elem. }
    destruct name_to_id_spec as (n2i' & En' & H1 & H2). rewrite En in En'. injection En' as <-.
    assert (Hpp : ∀ i, pulled n2i N i → ∃ p, p ∈ l ∧ i = pid p).
    { intros i [n i' Hn Hi|p d i' _ _ _ Hi]; destruct (H1 _ _ Hi) as (q & ? & ? & _); eauto. }
    set (G := λ i, pulled n2i N i).
    assert (Hsr : ∀ x, x ∈ e_ord e 1 (list_to_set (filter (λ ni : string * Z, ni.1 ∈ N) (map_to_list n2i)).*2 : gset Z) → pulled n2i N x).
    { intros x Hx%e_ord_elem. apply sroots_elem in Hx as (n & Hn & Hi). by eapply pulled_root. }
    assert (Hex : ∃ X, foldM (λ incl i, connected_nodes (e_ord e) (neighborfunc po n2i) fuel i incl)
       (e_ord e 1 (list_to_set (filter (λ ni : string * Z, ni.1 ∈ N) (map_to_list n2i)).*2 : gset Z)) ∅ = Ok X ∧ ∀ x, x ∈ X → pulled n2i N x).
    { apply foldM_total_inv; [intros x []%elem_of_empty|]. intros V r HV Hr%Hsr.
      assert (Hfl : ∀ x, flood (neighborfunc po n2i) V r x → pulled n2i N x).
      { intros x. induction 1 as [|x y ns Hx IHx E Hy HyV]; [done|]. destruct (Hpp x IHx) as (p & Hp & ->).
        apply neighborfunc_inv in E as [E _]; [|done]. apply E in Hy as (d & Hdd & Hi). by eapply pulled_dep. }
      assert (Hok : is_ok (connected_nodes (e_ord e) (neighborfunc po n2i) fuel r V) = true).
      { eapply (connected_nodes_total _ (proj1 He) _ F); [done|intros; by apply HF, Hfl|]. intros x Hx%Hfl.
        destruct (Hpp x Hx) as (p & Hp & ->). apply neighborfunc_ok; [done|]. intros d. by apply Hd. }
      destruct (connected_nodes (e_ord e) (neighborfunc po n2i) fuel r V) as [Y|] eqn:EY; [|done]. exists Y. split; [done|].
      apply (connected_nodes_inv _ (proj1 He)) in EY as [Y1 _]. intros x [Hx|Hx]%Y1; [by apply HV|by apply Hfl]. }
    destruct Hex as (X & EX & _). rewrite EX. cbn [mbind res_bind].
    apply (conn_fold_inv _ _ (λ _, True)) in EX as (_ & _ & C3 & _); [|done|done|intros x []%elem_of_empty|done].
    rewrite decide_True; [cbn; eauto|]. intros x Hx. apply C3. by apply e_ord_elem.
  Qed.
End prune.
