(** * Transactions: the operations and their order. *)
From Verif Require Import PoolProofs PropPool PropConstraints ConstraintProofs TopoProofs ReachProofs SatLearn.
From Verif Require Export RulesMain Transaction.

(** [x] occurs before [y]. *)
Definition bef {A} (l : list A) (x y : A) : Prop := ∃ l1 l2 l3, l = l1 ++ x :: l2 ++ y :: l3.
Lemma bef_app_l {A} (l k : list A) x y : bef l x y → bef (l ++ k) x y.
Proof. intros (l1 & l2 & l3 & ->). exists l1, l2, (l3 ++ k). by repeat (rewrite <-app_assoc; cbn [app]). Qed.
Lemma bef_app_r {A} (l k : list A) x y : bef k x y → bef (l ++ k) x y.
Proof. intros (l1 & l2 & l3 & ->). exists (l ++ l1), l2, l3. by rewrite <-app_assoc. Qed.
Lemma bef_app {A} (l k : list A) x y : x ∈ l → y ∈ k → bef (l ++ k) x y.
Proof.
  intros (l1 & l2 & ->)%elem_of_list_split (k1 & k2 & ->)%elem_of_list_split.
  exists l1, (l2 ++ k1), k2. by repeat (rewrite <-app_assoc; cbn [app]).
Qed.
Lemma bef_filter {A} (P : A → Prop) `{∀ x, Decision (P x)} l x y : bef l x y → P x → P y → bef (filter P l) x y.
Proof.
  intros (l1 & l2 & l3 & ->) Hx Hy. exists (filter P l1), (filter P l2), (filter P l3).
  by rewrite filter_app, filter_cons_True, filter_app, filter_cons_True.
Qed.
Lemma bef_fmap {A B} (f : A → B) l x y : bef l x y → bef (f <$> l) (f x) (f y).
Proof. intros (l1 & l2 & l3 & ->). exists (f <$> l1), (f <$> l2), (f <$> l3). by rewrite fmap_app, fmap_cons, fmap_app, fmap_cons. Qed.
Lemma bef_reverse {A} (l : list A) x y : bef l x y → bef (reverse l) y x.
Proof.
  intros (l1 & l2 & l3 & ->). exists (reverse l3), (reverse l2), (reverse l1).
  rewrite reverse_app, reverse_cons, reverse_app, reverse_cons. by rewrite <-!app_assoc.
Qed.
Lemma bef_elem {A} (l : list A) x y : bef l x y → x ∈ l ∧ y ∈ l.
Proof. intros (l1 & l2 & l3 & ->). set_solver. Qed.

Lemma bef_cons {A} (l : list A) z x y : bef (z :: l) x y ↔ (x = z ∧ y ∈ l) ∨ bef l x y.
Proof.
  split.
  - intros ([|w l1] & l2 & l3 & E); injection E as -> ->.
    + left. split; [done|]. set_solver.
    + right. by exists l1, l2, l3.
  - intros [[-> (l2 & l3 & ->)%elem_of_list_split]|(l1 & l2 & l3 & ->)]; [by exists [], l2, l3|by exists (z :: l1), l2, l3].
Qed.

(** [ys] lists the elements of [xs] that satisfy [P], in the same order. *)
Record thin {A} (P : A → Prop) (xs ys : list A) : Prop := {
  th_elem : ∀ x, x ∈ ys ↔ x ∈ xs ∧ P x;
  th_nodup : NoDup xs → NoDup ys;
  th_bef : ∀ x y, bef xs x y → P x → P y → bef ys x y }.
Lemma thin_nil {A} (P : A → Prop) : thin P [] [].
Proof. split; [|done|]. { intros x. rewrite elem_of_nil. tauto. } by intros x y ([] & l2 & l3 & [=]). Qed.
Lemma thin_cons {A} (P : A → Prop) z xs ys : P z → thin P xs ys → thin P (z :: xs) (z :: ys).
Proof.
  intros Hz [T1 T2 T3]. split.
  - intros x. rewrite !elem_of_cons, T1. naive_solver.
  - intros [Hx Hn]%NoDup_cons. apply NoDup_cons. rewrite T1. naive_solver.
  - intros x y. rewrite !bef_cons, T1. naive_solver.
Qed.
Lemma thin_skip {A} (P : A → Prop) z xs ys : ¬ P z → thin P xs ys → thin P (z :: xs) ys.
Proof.
  intros Hz [T1 T2 T3]. split.
  - intros x. rewrite !elem_of_cons, T1. naive_solver.
  - intros [Hx Hn]%NoDup_cons. auto.
  - intros x y. rewrite !bef_cons. naive_solver.
Qed.
Lemma thin_all {A} (P : A → Prop) xs : (∀ x, x ∈ xs → P x) → thin P xs xs.
Proof.
  induction xs as [|x xs IH]; intros H; [apply thin_nil|]. apply thin_cons; [apply H; left|].
  apply IH. intros; apply H; by right.
Qed.
Lemma thin_filter {A} (P : A → Prop) `{∀ x, Decision (P x)} xs : thin P xs (filter P xs).
Proof.
  induction xs as [|x xs IH]; [apply thin_nil|]. destruct (decide (P x)).
  - rewrite filter_cons_True by done. by apply thin_cons.
  - rewrite filter_cons_False by done. by apply thin_skip.
Qed.
Lemma thin_ext {A} (P Q : A → Prop) xs ys : (∀ x, x ∈ xs → P x ↔ Q x) → thin P xs ys → thin Q xs ys.
Proof.
  intros H [T1 T2 T3]. split; [|done|].
  - intros x. rewrite T1. split; intros [Hx ?]; (split; [done|]); by apply (H x Hx).
  - intros x y Hb Hx Hy. destruct (bef_elem _ _ _ Hb) as [Hx' Hy']. apply T3; [done|by apply (H x Hx')|by apply (H y Hy')].
Qed.
Lemma thin_trans {A} (P Q : A → Prop) xs ys zs : thin P xs ys → thin Q ys zs → thin (λ x, P x ∧ Q x) xs zs.
Proof.
  intros [T1 T2 T3] [U1 U2 U3]. split.
  - intros x. rewrite U1, T1. tauto.
  - auto.
  - intros x y Hb [? ?] [? ?]. auto.
Qed.
Lemma thin_fmap {A B} (f : A → B) (P : A → Prop) (Q : B → Prop) xs ys :
  (∀ x, x ∈ xs → P x ↔ Q (f x)) → (∀ x y, x ∈ xs → y ∈ xs → f x = f y → x = y) →
  thin P xs ys → thin Q (f <$> xs) (f <$> ys).
Proof.
  intros HPQ Hf [T1 T2 T3]. split.
  - intros y. rewrite !elem_of_list_fmap. setoid_rewrite T1. split.
    + intros (x & -> & Hx & HP). split; [eauto|by apply HPQ].
    + intros [(x & -> & Hx) HQ]. exists x. split; [done|]. split; [done|by apply HPQ].
  - intros Hn. apply NoDup_fmap_1 in Hn. specialize (T2 Hn).
    assert (Hs : ∀ x, x ∈ ys → x ∈ xs) by (intros x [? _]%T1; done). clear -T2 Hs Hf. induction T2 as [|y ys Hy T2 IH]; [constructor|].
    rewrite fmap_cons. apply NoDup_cons. split.
    + intros (z & E & Hz)%elem_of_list_fmap. apply Hf in E as ->; [done|apply Hs; left|apply Hs; by right].
    + apply IH. intros; apply Hs; by right.
  - intros x y (l1 & l2 & l3 & E) HQx HQy.
    apply fmap_app_inv in E as (a1 & a2 & -> & E & ->). symmetry in E. apply fmap_cons_inv in E as (x' & a3 & -> & E & ->).
    symmetry in E. apply fmap_app_inv in E as (a4 & a5 & -> & E & ->). symmetry in E. apply fmap_cons_inv in E as (y' & a6 & -> & -> & ->).
    apply bef_fmap, T3; [by exists a1, a4, a6|apply HPQ; [set_solver|done]|apply HPQ; [set_solver|done]].
Qed.

Lemma mapM_res_cons {A B} (f : A → res B) x xs : mapM_res f (x :: xs) = (y ← f x; ys ← mapM_res f xs; Ok (y :: ys)).
Proof. done. Qed.

(** Groups to list. *)
Lemma ordered_elem gs x : x ∈ ordered_lits gs ↔ ∃ k G, gs !! k = Some G ∧ x ∈ G.
Proof.
  unfold ordered_lits. rewrite elem_of_list_join. split.
  - intros (g & Hx & (G & -> & [k Hk]%elem_of_list_lookup)%elem_of_list_fmap).
    rewrite elem_of_sort_by, elem_of_elements in Hx. eauto.
  - intros (k & G & Hk & Hx). exists (sort_by abs_lt (elements G)). split.
    + by rewrite elem_of_sort_by, elem_of_elements.
    + apply elem_of_list_fmap. exists G. split; [done|]. by eapply elem_of_list_lookup_2.
Qed.
Lemma ordered_cons G gs : ordered_lits (G :: gs) = sort_by abs_lt (elements G) ++ ordered_lits gs.
Proof. done. Qed.
Lemma ordered_nodup gs :
  (∀ a k k' G G', gs !! k = Some G → gs !! k' = Some G' → a ∈ G → a ∈ G' → k = k') → NoDup (ordered_lits gs).
Proof.
  induction gs as [|G gs IH]; intros H; [constructor|]. rewrite ordered_cons. apply NoDup_app. split; [|split].
  - apply sort_by_nodup, NoDup_elements.
  - intros x Hx (k & G' & Hk & Hx')%ordered_elem. rewrite elem_of_sort_by, elem_of_elements in Hx.
    by pose proof (H x 0%nat (S k) G G' eq_refl Hk Hx Hx').
  - apply IH. intros a k k' G1 G2 H1 H2 Ha Ha'. by pose proof (H a (S k) (S k') G1 G2 H1 H2 Ha Ha') as [= ->].
Qed.
Lemma ordered_before gs : ∀ x y k k' G G', gs !! k = Some G → gs !! k' = Some G' → (k < k')%nat → x ∈ G → y ∈ G' →
  bef (ordered_lits gs) x y.
Proof.
  induction gs as [|G0 gs IH]; intros x y k k' G G' Hk Hk' Hlt Hx Hy; [done|]. rewrite ordered_cons.
  destruct k' as [|k']; [lia|]. destruct k as [|k].
  - injection Hk as ->. apply bef_app; [by rewrite elem_of_sort_by, elem_of_elements|]. apply ordered_elem. eauto.
  - apply bef_app_r. eapply (IH x y k k'); eauto. lia.
Qed.

Lemma tc_mono {A} (R1 R2 : A → A → Prop) x y : (∀ a b, R1 a b → R2 a b) → tc R1 x y → tc R2 x y.
Proof. intros Hm. induction 1; [by apply tc_once, Hm|]. eapply tc_l; [by apply Hm|done]. Qed.
Section trans.
  Context (po : pool) (l : list package) (R : pool_rep po l) (Hinj : well_formed l).
  Local Notation pid := (pid po).
  Local Notation m := (sem_mods po).

  Lemma dcand_ok d : plain_cdep d → ∃ r, from_constraints RInstall d = Ok r ∧ what_provides po r true = Ok (dcand po d).
  Proof.
    intros Hd. destruct (from_constraints_total RInstall d Hd) as [r Hr]. exists r. split; [done|].
    unfold dcand. rewrite Hr. unfold wp. destruct (what_provides po r true) eqn:E; [done|].
    destruct (from_constraints_spec _ _ _ Hr) as (_ & Hc & Hn).
    assert (Ht : ∃ r', pool_modify po r = Ok r').
    { unfold pool_modify. destruct (po_mods po); [by apply modify_total|eauto]. }
    destruct Ht as [r' Hr']. rewrite (rep_what_provides _ _ R), Hr' in E. by destruct (by_name _ _).
  Qed.

  (** ** The graph *)
  Lemma idmap_spec (dec : list Z) : (∀ x, x ∈ dec → - x ∉ dec ∨ x = 0) → ∀ i x,
    foldl (λ m p, <[Z.abs p := p]> m) (∅ : gmap Z Z) dec !! i = Some x ↔ x ∈ dec ∧ i = Z.abs x.
  Proof.
    intros Hc. set (f := λ (m : gmap Z Z) p, <[Z.abs p := p]> m).
    assert (G1 : ∀ ds (m : gmap Z Z) i x, foldl f m ds !! i = Some x → m !! i = Some x ∨ x ∈ ds ∧ i = Z.abs x).
    { induction ds as [|d ds IH]; intros m0 i x H; cbn [foldl] in H; [by left|].
      apply IH in H as [H|[H ->]]; [|right; split; [by right|done]]. unfold f in H.
      apply lookup_insert_Some in H as [[<- <-]|[_ H]]; [right; split; [left|done]|by left]. }
    assert (G2 : ∀ ds (m : gmap Z Z) i, is_Some (m !! i) ∨ (∃ x, x ∈ ds ∧ i = Z.abs x) → is_Some (foldl f m ds !! i)).
    { induction ds as [|d ds IH]; intros m0 i H; cbn [foldl].
      - destruct H as [H|(x & ?%elem_of_nil & _)]; done.
      - apply IH. unfold f. destruct (decide (i = Z.abs d)) as [->|Hne]; [left; by rewrite lookup_insert|].
        rewrite lookup_insert_ne by done. destruct H as [H|(x & [-> |Hx]%elem_of_cons & ->)]; [by left|done|right; eauto]. }
    intros i x. split.
    - intros [H|H]%G1; [by rewrite lookup_empty in H|done].
    - intros [Hx ->]. destruct (G2 dec ∅ (Z.abs x)) as [y Hy]; [right; eauto|].
      rewrite Hy. destruct (G1 _ _ _ _ Hy) as [H|[Hy' E]]; [by rewrite lookup_empty in H|].
      destruct (Z.abs_eq_or_opp x), (Z.abs_eq_or_opp y); f_equal; try lia;
        (assert (y = - x) as -> by lia; destruct (Hc x Hx) as [?| ->]; [done|done]).
  Qed.

  Context (dec : list Z).
  (** The decisions are literals of packages of the pool, and consistent. *)
  Context (Hdec : ∀ x, x ∈ dec → ∃ p, p ∈ l ∧ (x = pid p ∨ x = - pid p)) (Hcons : ∀ x, x ∈ dec → - x ∉ dec).
  Let idmap := foldl (λ m p, <[Z.abs p := p]> m) (∅ : gmap Z Z) dec.
  Lemma idmap_dec i x : idmap !! i = Some x ↔ x ∈ dec ∧ i = Z.abs x.
  Proof. apply idmap_spec. auto. Qed.

  Definition plain_deps (p : package) : Prop := ∀ d, d ∈ p_requires p → plain_cdep d.
  Lemma lit_edges_fold ds : (∀ d, d ∈ ds → plain_cdep d) → ∀ acc : gset Z, ∃ es : gset Z,
    foldM (λ (acc : gset Z) c,
      r ← from_constraints RInstall c;
      deps ← what_provides po r true;
      ids ← mapM_res (package_id po) deps;
      let ids := filter (λ i, true = false ∨ is_Some (idmap !! i)) ids in
      Ok (acc ∪ list_to_set ((λ i, default i (idmap !! i)) <$> ids))) ds acc = Ok es ∧
    ∀ x, x ∈ es ↔ x ∈ acc ∨ (x ∈ dec ∧ ∃ d q, d ∈ ds ∧ q ∈ dcand po d ∧ Z.abs x = pid q).
  Proof.
    induction ds as [|d ds IH]; intros Hd acc.
    - exists acc. split; [done|]. intros x. split; [by left|]. by intros [?|(_ & d & q & ?%elem_of_nil & _)].
    - rewrite foldM_cons. destruct (dcand_ok d) as (r & -> & Hw); [apply Hd; left|]. cbn [mbind res_bind]. rewrite Hw.
      cbn [mbind res_bind]. rewrite (pids_ok po l R); [|intros q Hq; by eapply dcand_sub]. cbn [mbind res_bind]. cbv zeta.
      match goal with |- context [foldM _ ds ?A] => destruct (IH (λ d' H, Hd d' (elem_of_list_further _ _ _ H)) A) as (es & He & Hs) end.
      exists es. split; [exact He|]. intros x. rewrite Hs, elem_of_union, elem_of_list_to_set, elem_of_list_fmap.
      split.
      + intros [[H|(i & -> & [[H|[y Hy]] Hi]%elem_of_list_filter)]|(? & d' & q & ? & ? & ?)]; [by left|done| |].
        * right. rewrite Hy. cbn. apply idmap_dec in Hy as [Hy ->]. split; [done|].
          apply elem_of_list_fmap in Hi as (q & E & Hq). exists d, q. split; [left|]. done.
        * right. split; [done|]. exists d', q. split; [by right|done].
      + intros [H|(Hx & d' & q & [-> |Hd']%elem_of_cons & Hq & E)]; [by left; left| |].
        * left. right. exists (pid q). assert (Hy : idmap !! pid q = Some x) by (apply idmap_dec; done).
          rewrite Hy. split; [done|]. apply elem_of_list_filter. split; [by right|]. by apply elem_of_list_fmap_1.
        * right. split; [done|]. eauto.
  Qed.
  Lemma lit_edges_spec p : plain_deps p → ∃ es, lit_edges po true idmap p = Ok es ∧
    ∀ x, x ∈ es ↔ x ∈ dec ∧ ∃ d q, d ∈ p_requires p ∧ q ∈ dcand po d ∧ Z.abs x = pid q.
  Proof.
    intros Hp. destruct (lit_edges_fold (p_requires p) Hp ∅) as (es & He & Hs). exists es. split; [exact He|].
    intros x. rewrite Hs. set_solver.
  Qed.
  Lemma lit_edges_plain p es : lit_edges po true idmap p = Ok es → plain_deps p.
  Proof.
    unfold lit_edges, plain_deps. generalize (∅ : gset Z). induction (p_requires p) as [|d ds IH]; intros acc; [by intros _ d ?%elem_of_nil|].
    rewrite foldM_cons. intros (a & Ha & H)%mbind_ok. apply mbind_ok in Ha as (r & Hr & _).
    intros d' [-> |Hd']%elem_of_cons; [by apply from_constraints_spec in Hr as [? _]|]. by eapply IH.
  Qed.

  Definition lit_pkg (x : Z) (p : package) : Prop := p ∈ l ∧ Z.abs x = pid p.
  Lemma dec_pkg x : x ∈ dec → ∃ p, lit_pkg x p ∧ id_to_package po (Z.abs x) = Ok p.
  Proof.
    intros (p & Hp & Hx)%Hdec. pose proof (pid_pos po l R p Hp). assert (E : Z.abs x = pid p) by lia.
    exists p. split; [done|]. rewrite E. by apply (pid_package po l R Hinj).
  Qed.
  Lemma lit_pkg_fun x p q : lit_pkg x p → lit_pkg x q → p = q.
  Proof. intros [Hp E] [Hq E']. apply (pid_inj po l R Hinj p q Hp Hq). congruence. Qed.

  Definition dec_edge (a b : Z) : Prop :=
    a ∈ dec ∧ b ∈ dec ∧ ∃ p q d, lit_pkg a p ∧ lit_pkg b q ∧ d ∈ p_requires p ∧ q ∈ dcand po d.
  Record graph_ok (g : graph) : Prop := {
    gk_nodes : ∀ a, is_Some (g !! a) ↔ a ∈ dec;
    gk_edges : ∀ a s b, g !! a = Some s → b ∈ s ↔ dec_edge a b }.
  Lemma pkgs_spec xs : (∀ x, x ∈ xs → x ∈ dec) → ∃ ps, 
    mapM_res (λ l, p ← id_to_package po (Z.abs l); Ok (l, p)) xs = Ok ps ∧
    (∀ x p, (x, p) ∈ ps ↔ x ∈ xs ∧ lit_pkg x p).
  Proof.
    induction xs as [|x xs IH]; intros Hx; cbn [mapM_res].
    - exists []. split; [done|]. intros x p. rewrite !elem_of_nil. naive_solver.
    - destruct IH as (ps & Hps & Hs); [intros; apply Hx; by right|].
      destruct (dec_pkg x) as (p & Hp & E); [apply Hx; left|]. rewrite E. cbn [mbind res_bind]. rewrite Hps.
      exists ((x, p) :: ps). split; [done|]. intros y q. rewrite elem_of_cons, Hs, elem_of_cons. split.
      + intros [[= -> ->]|[? ?]]; [split; [by left|done]|split; [by right|done]].
      + intros [[-> |Hy] Hq]; [left; f_equal; by eapply lit_pkg_fun|by right].
  Qed.
  Lemma graph_fold ps : (∀ x p, (x, p) ∈ ps → x ∈ dec ∧ lit_pkg x p) → 
    (∀ x p, (x, p) ∈ ps → plain_deps p) → ∀ g0 : graph, ∃ g : graph,
    foldM (λ (g : graph) lp, e ← lit_edges po true idmap lp.2; Ok (<[lp.1 := e]> g)) ps g0 = Ok g ∧
    (∀ a, is_Some (g !! a) ↔ is_Some (g0 !! a) ∨ ∃ p, (a, p) ∈ ps) ∧
    (∀ a s b, (∀ s, g0 !! a = Some s → b ∈ s ↔ dec_edge a b) → g !! a = Some s → b ∈ s ↔ dec_edge a b).
  Proof.
    induction ps as [|[x p] ps IH]; intros Hps Hpl g0.
    - exists g0. split; [done|]. split; [|naive_solver]. intros a. split; [by left|]. intros [?|(p & ?%elem_of_nil)]; done.
    - rewrite foldM_cons. destruct (lit_edges_spec p) as (es & Hes & Hsp); [eapply Hpl; left|].
      cbn [snd fst]. rewrite Hes. cbn [mbind res_bind].
      destruct (IH (λ y q H, Hps y q (elem_of_list_further _ _ _ H)) (λ y q H, Hpl y q (elem_of_list_further _ _ _ H)) (<[x:=es]> g0))
        as (g & Hg & G1 & G2).
      exists g. split; [exact Hg|]. split.
      + intros a. rewrite G1. setoid_rewrite elem_of_cons. rewrite lookup_insert_is_Some'. split.
        * intros [[-> |?]|(q & ?)]; [right; exists p; by left|by left|right; exists q; by right].
        * intros [?|(q & [[= -> ->]|?])]; [left; by right|left; by left|right; eauto].
      + intros a s b H0. apply G2. intros s' Hs'. apply lookup_insert_Some in Hs' as [[<- <-]|[_ Hs']]; [|by apply H0].
        destruct (Hps x p) as [Hx Hxp]; [left|]. rewrite Hsp. unfold dec_edge. split.
        * intros (Hb & d & q & Hd & Hq & E). split; [done|]. split; [done|]. exists p, q, d. split; [done|].
          split; [split; [by eapply dcand_sub|done]|]. done.
        * intros (_ & Hb & p' & q & d & Hp' & [Hq E] & Hd & Hq'). split; [done|].
          rewrite (lit_pkg_fun x p p' Hxp Hp'). eauto.
  Qed.
  Lemma lit_graph_spec : (∀ x p, x ∈ dec → lit_pkg x p → plain_deps p) →
    ∃ g, lit_graph po dec true = Ok g ∧ graph_ok g.
  Proof.
    intros Hpl. unfold lit_graph. fold idmap.
    destruct (pkgs_spec (fromkeys dec)) as (ps & -> & Hps).
    { intros x Hx. by rewrite elem_of_fromkeys in Hx. }
    cbn [mbind res_bind]. setoid_rewrite elem_of_fromkeys in Hps.
    destruct (graph_fold ps) with (g0 := ∅ : graph) as (g & Hg & G1 & G2).
    - intros x p. by rewrite Hps.
    - intros x p [? ?]%Hps. by eapply Hpl.
    - exists g. split; [exact Hg|]. split.
      + intros a. rewrite G1, lookup_empty. split.
        * intros [[? ?]|(p & [? _]%Hps)]; done.
        * intros Ha. right. destruct (dec_pkg a Ha) as (p & Hp & _). exists p. by apply Hps.
      + intros a s b. apply G2. intros s'. by rewrite lookup_empty.
  Qed.
  Lemma lit_graph_plain g : lit_graph po dec true = Ok g → ∀ x p, x ∈ dec → lit_pkg x p → plain_deps p.
  Proof.
    unfold lit_graph. fold idmap. destruct (pkgs_spec (fromkeys dec)) as (ps & -> & Hps).
    { intros x Hx. by rewrite elem_of_fromkeys in Hx. }
    cbn [mbind res_bind]. setoid_rewrite elem_of_fromkeys in Hps. intros Hf x p Hx Hp.
    assert (Hin : (x, p) ∈ ps) by (by apply Hps). revert Hf Hin. generalize (∅ : graph). clear Hps.
    induction ps as [|[y q] ps IH]; intros g0; [by intros _ ?%elem_of_nil|]. rewrite foldM_cons. cbn [fst snd].
    intros (g1 & (es & Hes & [= <-])%mbind_ok & Hf)%mbind_ok [[= <- <-]|Hin]%elem_of_cons; [by eapply lit_edges_plain|].
    by eapply IH.
  Qed.
  Lemma lit_graph_inv g : lit_graph po dec true = Ok g → (∀ x p, x ∈ dec → lit_pkg x p → plain_deps p) ∧ graph_ok g.
  Proof.
    intros H. assert (Hpl := lit_graph_plain g H). split; [done|].
    destruct (lit_graph_spec Hpl) as (g' & E & Hg). rewrite E in H. by injection H as ->.
  Qed.

  (** Sorting it. *)
  Lemma graph_node g a : graph_ok g → node g a ↔ a ∈ dec.
  Proof.
    intros [G1 G2]. unfold node. rewrite G1. split; [|by left]. intros [?|(b & s & Hs & Ha & _)]; [done|].
    apply (G2 _ _ _ Hs) in Ha. apply Ha.
  Qed.
  Lemma graph_edge g a b : graph_ok g → edge g a b ↔ dec_edge a b ∧ a ≠ b.
  Proof.
    intros [G1 G2]. unfold edge. split.
    - intros (s & Hs & Hb & Hne). split; [by apply (G2 _ _ _ Hs)|done].
    - intros [He Hne]. destruct (proj2 (G1 a)) as [s Hs]; [apply He|]. exists s. split; [done|]. split; [by apply (G2 _ _ _ Hs)|done].
  Qed.
  Lemma topo_spec g gs : graph_ok g → toposort g = Ok gs →
    NoDup (ordered_lits gs) ∧ (∀ x, x ∈ ordered_lits gs ↔ x ∈ dec) ∧
    ∀ a b, dec_edge a b → a ≠ b → bef (ordered_lits gs) b a.
  Proof.
    intros Hg E. destruct (toposort_spec g) as [(gs' & E' & Hl & _)|[E' _]]; rewrite E in E'; [|done]. injection E' as <-.
    destruct (toposort_init_spec g) as [T1 T2]. destruct Hl as [L1 L2 L3 L4 L5].
    split; [by apply ordered_nodup|]. split.
    - intros x. rewrite ordered_elem, <-L2, T1. by apply graph_node.
    - intros a b Hab Hne. assert (He : edge g a b) by (by apply graph_edge).
      assert (Ha : node g a) by (apply (graph_node g a Hg), Hab).
      destruct (proj2 (T1 a) Ha) as [s Hs]. destruct (proj1 (L2 a)) as (k & G & Hk & HG); [by exists s|].
      destruct (L4 a s b k G Hs) as (k' & G' & Hlt & Hk' & Hb); [by apply (T2 _ _ Hs)|done|done|].
      by apply (ordered_before gs b a k' k G' G).
  Qed.

  (** ** The operations *)
  Context (inst : list Z) (Hinst : ∀ i, i ∈ inst → ∃ p, p ∈ l ∧ i = pid p).
  Definition twin (p q : package) : Prop := p_name p = p_name q ∧ p_version p = p_version q.
  (** The installed package that stands for [q]: the last one with its name and version. *)
  Definition stands_for (p q : package) : Prop :=
    twin p q ∧ ∃ i1 i2, inst = i1 ++ pid p :: i2 ∧ ∀ p', p' ∈ l → pid p' ∈ i2 → ¬ twin p' q.

  Definition key_of (p : package) : string * version := (p_name p, p_version p).
  Lemma key_twin p q : key_of p = key_of q ↔ twin p q.
  Proof. unfold key_of, twin. split; [by intros [= -> ->]|by intros [-> ->]]. Qed.
  Lemma package_key_pid p : p ∈ l → package_key po (pid p) = Ok (key_of p).
  Proof. intros Hp. unfold package_key. rewrite (pid_package po l R Hinj p Hp). done. Qed.
  Lemma local_spec : ∃ loc, local_packages po inst = Ok loc ∧ ∀ q,
    match local_get loc (key_of q) with
    | Some i => ∃ p, p ∈ l ∧ i = pid p ∧ stands_for p q
    | None => ∀ p, p ∈ l → pid p ∈ inst → ¬ twin p q
    end.
  Proof.
    unfold local_packages, stands_for. revert Hinst. induction inst as [|i is IH]; intros Hi.
    - exists []. split; [done|]. intros q p _ ?%elem_of_nil. done.
    - destruct IH as (loc & E & Hs); [intros; apply Hi; by right|]. destruct (Hi i) as (p & Hp & ->); [left|].
      exists ((key_of p, pid p) :: loc). cbn [mapM_res]. rewrite (package_key_pid p Hp). cbn [mbind res_bind].
      split; [by rewrite E|]. intros q. specialize (Hs q). cbn [local_get].
      destruct (local_get loc (key_of q)) as [j|].
      + destruct Hs as (p' & Hp' & -> & Ht & i1 & i2 & -> & Hl). exists p'. split; [done|]. split; [done|]. split; [done|].
        exists (pid p :: i1), i2. done.
      + case_decide as Hk.
        * apply key_twin in Hk. exists p. split; [done|]. split; [done|]. split; [done|]. exists [], is. split; [done|]. auto.
        * intros p' Hp' [E'|Hin]%elem_of_cons; [|auto]. apply (pid_inj po l R Hinj) in E' as ->; [|done..].
          by rewrite <-key_twin.
  Qed.

  Lemma remove_first_thin x xs : NoDup xs → thin (λ y, y ≠ x) xs (remove_first x xs).
  Proof.
    induction 1 as [|y xs Hy Hnd IH]; [apply thin_nil|]. cbn [remove_first]. case_decide as E.
    - subst. apply thin_skip; [naive_solver|]. apply thin_all. set_solver.
    - by apply thin_cons.
  Qed.
  (** Packages to be installed which no installed package stands for. *)
  Definition fresh (q : package) : Prop := ∀ p, p ∈ l → pid p ∈ inst → ¬ twin p q.
  Lemma install_loop_spec loc : local_packages po inst = Ok loc → ∀ installs removals ops,
    NoDup removals → (∀ p, p ∈ installs → p ∈ l ∧ pid p ∉ inst) →
    ∃ rem ins, install_loop po loc (pid <$> installs) removals ops = Ok (rem, ops ++ (InstallOp <$> ins)) ∧
      thin fresh installs ins ∧
      thin (λ r, ¬ ∃ p q, p ∈ l ∧ q ∈ installs ∧ r = pid p ∧ stands_for p q) removals rem.
  Proof.
    intros Hloc. destruct local_spec as (loc' & E & Hs). rewrite Hloc in E. injection E as <-.
    induction installs as [|q qs IH]; intros removals ops Hnr Hin.
    - exists removals, []. cbn. rewrite app_nil_r. split; [done|]. split; [apply thin_nil|].
      apply thin_all. intros r _ (p & q & _ & ?%elem_of_nil & _). done.
    - destruct (Hin q) as [Hq Hqi]; [left|].
      assert (Hin' : ∀ p, p ∈ qs → p ∈ l ∧ pid p ∉ inst) by (intros; apply Hin; by right).
      rewrite fmap_cons. cbn [install_loop]. rewrite (package_key_pid q Hq). cbn [mbind res_bind]. cbv zeta.
      specialize (Hs q). destruct (local_get loc (key_of q)) as [i|] eqn:El.
      + destruct Hs as (p & Hp & -> & Hst). change (default (pid q) (Some (pid p))) with (pid p).
        assert (Hpi : pid p ∈ inst) by (destruct Hst as (_ & i1 & i2 & -> & _); set_solver).
        rewrite decide_False by (intros E; rewrite E in Hpi; done).
        assert (Hrm : thin (λ y, y ≠ pid p) removals (if decide (pid p ∈ removals) then remove_first (pid p) removals else removals)).
        { case_decide; [by apply remove_first_thin|]. apply thin_all. set_solver. }
        destruct (IH _ ops (th_nodup _ _ _ Hrm Hnr) Hin') as (rem & ins & Hl & Hi & Hr).
        exists rem, ins. split; [done|]. split.
        * apply thin_skip; [|done]. intros Hf. apply (Hf p Hp Hpi), Hst.
        * eapply thin_ext; [|by eapply thin_trans]. intros r Hrr. cbn beta. split.
          -- intros [Hne Hn] (p' & q' & Hp' & [-> |Hq']%elem_of_cons & -> & Hst'); [|apply Hn; by exists p', q'].
             apply Hne. f_equal. 
             destruct Hst as (Ht & i1 & i2 & E1 & H1), Hst' as (Ht' & i3 & i4 & E2 & H2).
             rewrite E1 in E2. apply app_eq_inv in E2 as [(k & -> & E2)|(k & -> & E2)].
             ++ destruct k as [|k0 k]; [injection E2 as E2 _; by apply (pid_inj po l R Hinj) in E2|].
                injection E2 as <- ->. exfalso. eapply (H2 p); [done|set_solver|done].
             ++ destruct k as [|k0 k]; [injection E2 as E2 _; by apply (pid_inj po l R Hinj) in E2|].
                injection E2 as <- ->. exfalso. eapply (H1 p'); [done|set_solver|done].
          -- intros Hn. split; [|intros (p' & q' & ? & ? & ?); apply Hn; exists p', q'; split; [done|]; split; [by right|done]].
             intros ->. apply Hn. exists p, q. split; [done|]. split; [left|]. done.
      + change (default (pid q) None) with (pid q). rewrite decide_True by done. rewrite (pid_package po l R Hinj q Hq).
        cbn [mbind res_bind]. destruct (IH removals (ops ++ [InstallOp q]) Hnr Hin') as (rem & ins & Hl & Hi & Hr).
        exists rem, (q :: ins). split; [by rewrite Hl, <-app_assoc|]. split; [by apply thin_cons|].
        eapply thin_ext; [|done]. intros r Hrr. split; intros Hn (p' & q' & Hp' & Hq' & -> & Hst'); apply Hn.
        * apply elem_of_cons in Hq' as [-> |Hq']; [|by exists p', q'].
          exfalso. apply (Hs p' Hp'); [|apply Hst']. destruct Hst' as (_ & i1 & i2 & -> & _). set_solver.
        * exists p', q'. split; [done|]. split; [by right|done].
  Qed.

  (** Decisions in terms of packages. *)
  Definition decided_for (p : package) : Prop := p ∈ l ∧ pid p ∈ dec.
  Definition decided_against (p : package) : Prop := p ∈ l ∧ - pid p ∈ dec.
  Definition installed (p : package) : Prop := p ∈ l ∧ pid p ∈ inst.
  Definition to_install (p : package) : Prop := decided_for p ∧ ¬ installed p ∧ fresh p.
  Definition to_remove (p : package) : Prop := installed p ∧ decided_against p ∧
    ¬ ∃ q, decided_for q ∧ ¬ installed q ∧ stands_for p q.
  Record ops_ok (ops : list operation) (rem ins : list package) : Prop := {
    ok_ops : ops = (RemoveOp <$> rem) ++ (InstallOp <$> ins);
    ok_rem_nodup : NoDup rem;
    ok_ins_nodup : NoDup ins;
    ok_rem : ∀ p, p ∈ rem ↔ to_remove p;
    ok_ins : ∀ p, p ∈ ins ↔ to_install p;
    ok_ins_order : ∀ p q d, p ∈ ins → q ∈ ins → q ≠ p → d ∈ p_requires p → dep_meets m d q → bef ins q p;
    ok_rem_order : ∀ p q d, p ∈ rem → q ∈ rem → q ≠ p → d ∈ p_requires p → dep_meets m d q → bef rem p q }.

  (** From the literals in order to packages. *)
  Lemma lits_pkgs (xs : list Z) : (∀ x, x ∈ xs → ∃ p, p ∈ l ∧ x = pid p) → ∃ ps, xs = pid <$> ps ∧ ∀ p, p ∈ ps → p ∈ l.
  Proof.
    induction xs as [|x xs IH]; intros H; [exists []; split; [done|]; by intros p ?%elem_of_nil|].
    destruct IH as (ps & -> & Hps); [intros; apply H; by right|]. destruct (H x) as (p & Hp & ->); [left|].
    exists (p :: ps). split; [done|]. intros q [-> |?]%elem_of_cons; auto.
  Qed.
  Lemma bef_pid ps p q : (∀ p, p ∈ ps → p ∈ l) → p ∈ l → q ∈ l → bef (pid <$> ps) (pid p) (pid q) → bef ps p q.
  Proof.
    intros Hps Hp Hq (l1 & l2 & l3 & E).
    apply fmap_app_inv in E as (a1 & a2 & -> & E & ->). symmetry in E. apply fmap_cons_inv in E as (x' & a3 & E1 & E & ->).
    symmetry in E. apply fmap_app_inv in E as (a4 & a5 & -> & E & ->). symmetry in E. apply fmap_cons_inv in E as (y' & a6 & E2 & -> & ->).
    apply (pid_inj po l R Hinj) in E1 as ->; [|done|apply Hps; set_solver].
    apply (pid_inj po l R Hinj) in E2 as ->; [|done|apply Hps; set_solver]. by exists a1, a4, a6.
  Qed.

  Lemma safe_ops_gen g gs : (∀ x p, x ∈ dec → lit_pkg x p → plain_deps p) →
    lit_graph po dec true = Ok g → toposort g = Ok gs → ∃ ops rem ins, safe_operations po dec inst = Ok ops ∧ ops_ok ops rem ins.
  Proof.
    intros Hpl Eg Egs. destruct (lit_graph_inv g Eg) as [_ Hg]. destruct (topo_spec g gs Hg Egs) as (Hnd & Hel & Hord).
    destruct local_spec as (loc & Eloc & Hloc). unfold safe_operations. rewrite Eloc. cbn [mbind res_bind]. rewrite Eg. cbn [mbind res_bind].
    rewrite Egs. cbn [mbind res_bind]. cbv zeta. rewrite decide_True by (apply Forall_forall; intros; by apply Hel).
    cbn [mbind res_bind]. set (xs := ordered_lits gs) in *. unfold split_lits.
    set (ri := Z.opp <$> filter (λ x, x < 0 ∧ - x ∈ inst) xs). set (ii := filter (λ x, 0 < x ∧ x ∉ inst) xs).
    assert (Hii : ∀ x, x ∈ ii ↔ 0 < x ∧ x ∉ inst ∧ x ∈ dec).
    { intros x. unfold ii. rewrite elem_of_list_filter, Hel. tauto. }
    assert (Hri : ∀ x, x ∈ ri ↔ 0 < x ∧ x ∈ inst ∧ - x ∈ dec).
    { intros x. unfold ri. rewrite elem_of_list_fmap. setoid_rewrite elem_of_list_filter. setoid_rewrite Hel. split.
      - intros (y & -> & (? & ?) & ?). rewrite Z.opp_involutive. split; [lia|done].
      - intros (? & ? & ?). exists (- x). rewrite Z.opp_involutive. split; [done|]. split; [split; [lia|done]|done]. }
    assert (Hrn : NoDup ri). { apply NoDup_fmap_2_strong; [intros; lia|]. by apply NoDup_filter. }
    destruct (lits_pkgs ii) as (ips & Eii & Hips).
    { intros x (Hx & _ & Hd)%Hii. destruct (Hdec x Hd) as (p & Hp & E). pose proof (pid_pos po l R p Hp). exists p. split; [done|lia]. }
    destruct (lits_pkgs ri) as (rps & Eri & Hrps).
    { intros x (Hx & Hi & _)%Hri. apply Hinst in Hi as (p & Hp & ->). eauto. }
    assert (Hips' : ∀ p, p ∈ ips ↔ decided_for p ∧ ¬ installed p).
    { intros p. unfold decided_for, installed. split.
      - intros Hp. assert (Hx : pid p ∈ ii) by (rewrite Eii; by apply elem_of_list_fmap_1). apply Hii in Hx. specialize (Hips p Hp). naive_solver.
      - intros [[Hp Hd] Hn]. pose proof (pid_pos po l R p Hp). assert (Hx : pid p ∈ ii) by (apply Hii; split; [lia|]; naive_solver).
        rewrite Eii in Hx. apply elem_of_list_fmap in Hx as (q & E & Hq). by apply (pid_inj po l R Hinj) in E as ->; [..|auto]. }
    assert (Hrps' : ∀ p, p ∈ rps ↔ installed p ∧ decided_against p).
    { intros p. unfold decided_against, installed. split.
      - intros Hp. assert (Hx : pid p ∈ ri) by (rewrite Eri; by apply elem_of_list_fmap_1). apply Hri in Hx. specialize (Hrps p Hp). naive_solver.
      - intros [[Hp Hd] Hn]. pose proof (pid_pos po l R p Hp). assert (Hx : pid p ∈ ri) by (apply Hri; split; [lia|]; naive_solver).
        rewrite Eri in Hx. apply elem_of_list_fmap in Hx as (q & E & Hq). by apply (pid_inj po l R Hinj) in E as ->; [..|auto]. }
    destruct (install_loop_spec loc Eloc ips ri [] Hrn) as (rem & ins & E & Hti & Htr).
    { intros p Hp. destruct (proj1 (Hips' p) Hp) as [[? ?] Hn]. unfold installed in Hn. naive_solver. }
    rewrite Eii, E. cbn [mbind res_bind]. cbn [app].
    destruct (lits_pkgs rem) as (rems & -> & Hrems).
    { intros x Hx. apply (th_elem _ _ _ Htr) in Hx as [Hx _]. rewrite Eri in Hx. apply elem_of_list_fmap in Hx as (p & -> & Hp). eauto. }
    rewrite <-fmap_reverse. 
    assert (Hm : ∀ ps, (∀ p, p ∈ ps → p ∈ l) → mapM_res (λ i, p ← id_to_package po i; Ok (RemoveOp p)) (pid <$> ps) = Ok (RemoveOp <$> ps)).
    { induction ps as [|p ps IHp]; intros Hps; [done|]. rewrite !fmap_cons. cbn [mapM_res].
      rewrite (pid_package po l R Hinj p) by (apply Hps; left). cbn [mbind res_bind].
      rewrite IHp by (intros; apply Hps; by right). done. }
    rewrite Hm by (intros p Hp; rewrite elem_of_reverse in Hp; auto). cbn [mbind res_bind].
    eexists _, (reverse rems), ins. split; [done|].
    assert (Hrp : ∀ p, p ∈ rems ↔ to_remove p).
    { intros p. unfold to_remove. split.
      - intros Hp. assert (Hx : pid p ∈ pid <$> rems) by (by apply elem_of_list_fmap_1). apply (th_elem _ _ _ Htr) in Hx as [Hx Hn].
        rewrite Eri in Hx. apply elem_of_list_fmap in Hx as (p' & E' & Hp'). assert (p' = p) as ->.
        { apply (pid_inj po l R Hinj) in E'; auto. }
        apply Hrps' in Hp' as [? ?]. split; [done|]. split; [done|]. intros (q & Hq & Hqi & Hst). apply Hn.
        exists p, q. split; [auto|]. split; [by apply Hips'|]. done.
      - intros (Hi & Ha & Hn). assert (Hx : pid p ∈ pid <$> rems).
        { apply (th_elem _ _ _ Htr). split; [rewrite Eri; apply elem_of_list_fmap_1; by apply Hrps'|].
          intros (p' & q & Hp' & Hq & E' & Hst). apply (pid_inj po l R Hinj) in E' as <-; [|apply Hi|done].
          apply Hn. exists q. apply Hips' in Hq as [? ?]. done. }
        apply elem_of_list_fmap in Hx as (p' & E' & Hp'). apply (pid_inj po l R Hinj) in E' as ->; [done|apply Hi|auto]. }
    assert (Hip : ∀ p, p ∈ ins ↔ to_install p).
    { intros p. rewrite (th_elem _ _ _ Hti), Hips'. unfold to_install. tauto. }
    assert (Hedge : ∀ a b p q d, a ∈ dec → b ∈ dec → lit_pkg a p → lit_pkg b q → q ≠ p → d ∈ p_requires p → dep_meets m d q → bef xs b a).
    { intros a b p q d Ha Hb Hap Hbq Hne Hd Hmt. apply Hord; [|intros ->; apply Hne; by eapply lit_pkg_fun].
      split; [done|]. split; [done|]. exists p, q, d. split; [done|]. split; [done|]. split; [done|].
      apply (dcand_spec po l R); [exact (Hpl a p Ha Hap d Hd)|]. split; [apply Hbq|done]. }
    assert (Hlp : ∀ p, p ∈ l → lit_pkg (pid p) p ∧ lit_pkg (- pid p) p).
    { intros p Hp. pose proof (pid_pos po l R p Hp). unfold lit_pkg. split; (split; [done|lia]). }
    split; [done| | |by intros p; rewrite elem_of_reverse|done| |].
    - rewrite reverse_Permutation. eapply NoDup_fmap_1. by apply (th_nodup _ _ _ Htr).
    - apply (th_nodup _ _ _ Hti). apply (NoDup_fmap_1 pid). rewrite <-Eii. by apply NoDup_filter.
    - intros p q d Hp%Hip Hq%Hip Hne Hd Hmt. destruct Hp as ([Hp Hpd] & Hpi & Hpf), Hq as ([Hq Hqd] & Hqi & Hqf).
      apply (th_bef _ _ _ Hti); [|done|done]. apply bef_pid; [done|done|done|]. rewrite <-Eii.
      pose proof (pid_pos po l R p Hp). pose proof (pid_pos po l R q Hq).
      apply bef_filter; [|split; [lia|]; unfold installed in Hqi; tauto|split; [lia|]; unfold installed in Hpi; tauto].
      eapply (Hedge _ _ p q d); try done; by apply Hlp.
    - intros p q d Hp Hq Hne Hd Hmt. rewrite elem_of_reverse in Hp, Hq. apply Hrp in Hp, Hq.
      apply bef_reverse. pose proof Hp as ([Hpl' Hpi] & [_ Hpd] & Hpn). pose proof Hq as ([Hql Hqi] & [_ Hqd] & Hqn).
      apply bef_pid; [done|done|done|]. apply (th_bef _ _ _ Htr).
      + rewrite <-(Z.opp_involutive (pid q)), <-(Z.opp_involutive (pid p)). apply bef_fmap.
        pose proof (pid_pos po l R p Hpl'). pose proof (pid_pos po l R q Hql).
        apply bef_filter; [|rewrite Z.opp_involutive; split; [lia|done]..].
        eapply (Hedge _ _ p q d); try done; by apply Hlp.
      + intros (p' & q' & Hp' & Hq' & E' & Hst). apply (pid_inj po l R Hinj) in E' as <-; [|done..].
        apply Hqn. exists q'. apply Hips' in Hq' as [? ?]. done.
      + intros (p' & q' & Hp' & Hq' & E' & Hst). apply (pid_inj po l R Hinj) in E' as <-; [|done..].
        apply Hpn. exists q'. apply Hips' in Hq' as [? ?]. done.
  Qed.
  Lemma safe_ops_spec ops : safe_operations po dec inst = Ok ops → ∃ rem ins, ops_ok ops rem ins.
  Proof.
    intros H. assert (H' := H). unfold safe_operations in H'. apply mbind_ok in H' as (loc & _ & H'). apply mbind_ok in H' as (g & Hg & H').
    apply mbind_ok in H' as (gs & Hgs & _). destruct (lit_graph_inv g Hg) as [Hpl _].
    destruct (safe_ops_gen g gs Hpl Hg Hgs) as (ops' & rem & ins & E & Hok). rewrite H in E. injection E as ->. eauto.
  Qed.
  Lemma safe_ops_total : (∀ x p, x ∈ dec → lit_pkg x p → plain_deps p) →
    (∀ x, ¬ tc (λ a b, dec_edge a b ∧ a ≠ b) x x) → ∃ ops rem ins, safe_operations po dec inst = Ok ops ∧ ops_ok ops rem ins.
  Proof.
    intros Hpl Hac. destruct (lit_graph_spec Hpl) as (g & Hg & Hgo).
    destruct (toposort_spec g) as [(gs & Hgs & _)|(_ & x & Hx)]; [by eapply safe_ops_gen|].
    exfalso. apply (Hac x). eapply tc_mono; [|exact Hx]. intros a b. exact (proj1 (graph_edge g _ _ Hgo)).
  Qed.
  Lemma safe_ops_cyclic : (∀ x p, x ∈ dec → lit_pkg x p → plain_deps p) →
    (∃ x, tc (λ a b, dec_edge a b ∧ a ≠ b) x x) → safe_operations po dec inst = Raise ValueError.
  Proof.
    intros Hpl (x & Hx). destruct (lit_graph_spec Hpl) as (g & Hg & Hgo).
    destruct local_spec as (loc & Eloc & _). unfold safe_operations. rewrite Eloc. cbn [mbind res_bind]. rewrite Hg. cbn [mbind res_bind].
    destruct (toposort_spec g) as [(gs & _ & _ & Hac)|(-> & _)]; [|done].
    exfalso. apply (Hac x). eapply tc_mono; [|exact Hx]. intros a b. exact (proj2 (graph_edge g _ _ Hgo)).
  Qed.
End trans.
