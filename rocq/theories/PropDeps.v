(** * Property C34: compute_dependencies, compute_reverse_dependencies, compute_leaf_packages. *)
From Verif Require Import SatLearn TransProofs ReachProofs PropPool.
From Verif Require Export Deps SpecDeps.

Section deps.
  Context (ord : gset Z → list Z) (Hord : ∀ X, ord X ≡ₚ elements X).
  Context (po : pool) (l : list package) (R : pool_rep po l) (Hm : po_mods po = None).
  Context (Hplain : ∀ p d, p ∈ l → d ∈ p_requires p → plain_cdep d).
  Local Notation pid := (pid po).
  Definition at_id (i : Z) (p : package) : Prop := id_to_package po i = Ok p.

  Lemma at_id_elem i p : at_id i p → p ∈ l ∧ 1 ≤ i.
  Proof. intros [H1 H2]%(rep_id_to_package _ _ R). split; [by eapply elem_of_list_lookup_2|done]. Qed.
  Lemma elem_ids i : i ∈ iter_package_ids po ↔ ∃ p, at_id i p.
  Proof.
    unfold iter_package_ids, at_id. setoid_rewrite (rep_id_to_package _ _ R). rewrite (pr_i2p _ _ R).
    rewrite elem_of_list_fmap. split.
    - intros ([j p] & -> & (k & p' & [= -> ->] & Hk)%elem_of_lookup_imap). cbn. exists p'. split; [lia|].
      by replace (Z.to_nat (Z.of_nat k + 1 - 1)) with k by lia.
    - intros (p & Hi & Hp). exists (i, p). split; [done|]. apply elem_of_lookup_imap.
      exists (Z.to_nat (i - 1)), p. split; [f_equal; lia|done].
  Qed.
  Lemma pid_at p : p ∈ l → ∃ p', at_id (pid p) p' ∧ p' ∈ l ∧ equal_pkgs p' p.
  Proof.
    intros Hp. destruct (rep_package_id_total _ _ R p Hp) as (i & Hi & _ & q & ? & ? & ?).
    unfold RulesProofs.pid. rewrite Hi. by exists q.
  Qed.
  Lemma pid_eq p q : p ∈ l → q ∈ l → pid p = pid q ↔ equal_pkgs p q.
  Proof.
    intros Hp Hq. pose proof (pid_ok _ _ R p Hp) as H1. pose proof (pid_ok _ _ R q Hq) as H2.
    apply (rep_package_id _ _ R) in H1, H2. unfold equal_pkgs. split.
    - intros E. rewrite E in H1. by eapply id_of_inj.
    - intros E. by eapply id_of_fun.
  Qed.
  Lemma dcand_meets d q : plain_cdep d → q ∈ dcand po d ↔ q ∈ l ∧ dep_meets no_mods d q.
  Proof. intros Hd. rewrite (dcand_spec _ _ R) by done. unfold sem_mods. by rewrite Hm. Qed.

  Definition ids : list Z := ord (list_to_set (iter_package_ids po)).
  Lemma ids_at i : i ∈ ids ↔ ∃ p, at_id i p.
  Proof. unfold ids. by rewrite Hord, elem_of_elements, elem_of_list_to_set, elem_ids. Qed.

  Lemma open_edges (idmap : gmap Z Z) p : (∀ i x, idmap !! i = Some x → x = i) → p ∈ l →
    ∃ es, lit_edges po false idmap p = Ok es ∧ ∀ x, x ∈ es ↔ ∃ d q, d ∈ p_requires p ∧ q ∈ dcand po d ∧ x = pid q.
  Proof.
    intros Hid Hp. unfold lit_edges. assert (Hpl := λ d, Hplain p d Hp). revert Hpl.
    enough (G : ∀ ds, (∀ d, d ∈ ds → plain_cdep d) → ∀ acc : gset Z, ∃ es : gset Z,
      foldM (λ (acc : gset Z) c,
        r ← from_constraints RInstall c;
        deps ← what_provides po r true;
        is_ ← mapM_res (package_id po) deps;
        let is_ := filter (λ i, false = false ∨ is_Some (idmap !! i)) is_ in
        Ok (acc ∪ list_to_set ((λ i, default i (idmap !! i)) <$> is_))) ds acc = Ok es ∧
      ∀ x, x ∈ es ↔ x ∈ acc ∨ ∃ d q, d ∈ ds ∧ q ∈ dcand po d ∧ x = pid q).
    { intros Hpl. destruct (G (p_requires p) Hpl ∅) as (es & He & Hs). exists es. split; [exact He|].
      intros x. rewrite Hs, elem_of_empty. naive_solver. }
    induction ds as [|d ds IH]; intros Hd acc.
    - exists acc. split; [done|]. intros x. split; [by left|]. by intros [?|(d & q & ?%elem_of_nil & _)].
    - rewrite foldM_cons. destruct (dcand_ok _ _ R d) as (r & -> & Hw); [apply Hd; left|]. cbn [mbind res_bind].
      rewrite Hw. cbn [mbind res_bind]. rewrite (pids_ok po l R); [|intros q Hq; by eapply dcand_sub].
      cbn [mbind res_bind]. cbv zeta.
      match goal with |- context [foldM _ ds ?A] => destruct (IH (λ d' H, Hd d' (elem_of_list_further _ _ _ H)) A) as (es & He & Hs) end.
      exists es. split; [exact He|]. intros x. rewrite Hs, elem_of_union, elem_of_list_to_set, elem_of_list_fmap.
      assert (Hdef : ∀ i, default i (idmap !! i) = i).
      { intros i. destruct (idmap !! i) eqn:E; [by apply Hid in E|done]. }
      setoid_rewrite Hdef. setoid_rewrite elem_of_list_filter. setoid_rewrite elem_of_list_fmap. setoid_rewrite elem_of_cons.
      split.
      + intros [[H|(i & -> & _ & q & -> & Hq)]|(d' & q & ? & ? & ?)]; [by left|right; exists d, q; auto|right; exists d', q; auto].
      + intros [H|(d' & q & [-> |Hd'] & Hq & ->)]; [by left; left| |right; eauto].
        left. right. exists (pid q). split; [done|]. split; [by left|]. by exists q.
  Qed.

  Lemma open_graph : ∃ g, lit_graph po ids false = Ok g ∧
    (∀ i, is_Some (g !! i) ↔ ∃ p, at_id i p) ∧
    (∀ i j, arc g i j ↔ ∃ p d q, at_id i p ∧ d ∈ p_requires p ∧ q ∈ dcand po d ∧ j = pid q).
  Proof.
    unfold lit_graph. set (idmap := foldl _ _ _).
    assert (Hid : ∀ i x, idmap !! i = Some x → x = i).
    { intros i x H. apply idmap_spec in H as [Hx ->].
      - apply ids_at in Hx as (p & [_ ?]%at_id_elem). lia.
      - intros y (p & [_ ?]%at_id_elem)%ids_at. left. intros (q & [_ ?]%at_id_elem)%ids_at. lia. }
    assert (Hps : ∀ xs, (∀ x, x ∈ xs → x ∈ ids) → ∃ ps,
      mapM_res (λ l, p ← id_to_package po (Z.abs l); Ok (l, p)) xs = Ok ps ∧
      (∀ x p, (x, p) ∈ ps ↔ x ∈ xs ∧ at_id x p)).
    { induction xs as [|x xs IH]; intros Hx; cbn [mapM_res].
      - exists []. split; [done|]. intros x p. rewrite !elem_of_nil. naive_solver.
      - destruct IH as (ps & Hps & Hs); [intros; apply Hx; by right|].
        destruct (proj1 (ids_at x)) as (p & Hp); [apply Hx; left|]. destruct (at_id_elem _ _ Hp) as [_ Hpos].
        rewrite Z.abs_eq by lia. unfold at_id in Hp. rewrite Hp. cbn [mbind res_bind]. rewrite Hps.
        exists ((x, p) :: ps). split; [done|]. intros y q. rewrite elem_of_cons, Hs, elem_of_cons. split.
        + intros [[= -> ->]|[? ?]]; [split; [by left|done]|split; [by right|done]].
        + intros [[-> |Hy] Hq]; [left; f_equal; unfold at_id in Hq; congruence|by right]. }
    destruct (Hps (fromkeys ids)) as (ps & -> & Hin).
    { intros x Hx. by rewrite elem_of_fromkeys in Hx. }
    cbn [mbind res_bind].
    assert (Hf : ∀ ps, (∀ x p, (x, p) ∈ ps → at_id x p) → ∀ g0 : graph, ∃ g : graph,
      foldM (λ (g : graph) lp, e ← lit_edges po false idmap lp.2; Ok (<[lp.1 := e]> g)) ps g0 = Ok g ∧
      (∀ a, is_Some (g !! a) ↔ is_Some (g0 !! a) ∨ ∃ p, (a, p) ∈ ps) ∧
      (∀ a b, (∀ p, at_id a p → arc g0 a b ↔ (∃ s, g0 !! a = Some s) ∧ ∃ d q, d ∈ p_requires p ∧ q ∈ dcand po d ∧ b = pid q) →
         ∀ p, at_id a p → arc g a b ↔ (∃ s, g !! a = Some s) ∧ ∃ d q, d ∈ p_requires p ∧ q ∈ dcand po d ∧ b = pid q)).
    { clear Hin ps. induction ps as [|[x p] ps IH]; intros Hat g0.
      - exists g0. split; [done|]. split; [|done]. intros a. split; [by left|]. intros [?|(p & ?%elem_of_nil)]; done.
      - rewrite foldM_cons. assert (Hxp : at_id x p) by (apply Hat; left). destruct (at_id_elem _ _ Hxp) as [Hp _].
        destruct (open_edges idmap p Hid Hp) as (es & Hes & Hsp). cbn [fst snd]. rewrite Hes. cbn [mbind res_bind].
        destruct (IH (λ y q H, Hat y q (elem_of_list_further _ _ _ H)) (<[x:=es]> g0)) as (g & Hg & G1 & G2).
        exists g. split; [exact Hg|]. split.
        + intros a. rewrite G1. setoid_rewrite elem_of_cons. rewrite lookup_insert_is_Some'. split.
          * intros [[-> |?]|(q & ?)]; [right; exists p; by left|by left|right; exists q; by right].
          * intros [?|(q & [[= -> ->]|?])]; [left; by right|left; by left|right; eauto].
        + intros a b H0. apply G2. intros p' Hp'. unfold arc. destruct (decide (x = a)) as [->|Hne].
          * rewrite lookup_insert. assert (p' = p) as -> by (unfold at_id in *; congruence). rewrite <-Hsp. split.
            -- intros (s & [= <-] & H). eauto.
            -- intros (_ & H). eauto.
          * rewrite lookup_insert_ne by done. by apply H0. }
    destruct (Hf ps (λ x p H, proj2 (proj1 (Hin x p) H)) ∅) as (g & Hg & G1 & G2).
    exists g. split; [exact Hg|]. assert (N : ∀ i, is_Some (g !! i) ↔ ∃ p, at_id i p).
    { intros i. rewrite G1, lookup_empty. split.
      - intros [[? ?]|(p & [_ ?]%Hin)]; [done|eauto].
      - intros (p & Hp). right. exists p. apply Hin. split; [|done]. rewrite elem_of_fromkeys. apply ids_at. eauto. }
    assert (Hemp : ∀ i j p, at_id i p → arc ∅ i j ↔ (∃ s, (∅ : graph) !! i = Some s) ∧ ∃ d q, d ∈ p_requires p ∧ q ∈ dcand po d ∧ j = pid q).
    { intros i j p _. split; [intros (s & E & _); by rewrite lookup_empty in E|intros ((s & E) & _); by rewrite lookup_empty in E]. }
    split; [exact N|]. intros i j. split.
    - intros (s & Hs & Hj). destruct (proj1 (N i)) as (p & Hp); [by exists s|]. exists p.
      destruct (proj1 (G2 i j (Hemp i j) p Hp)) as (_ & d & q & ?); [by exists s|].
      eauto.
    - intros (p & d & q & Hp & H). apply (G2 i j) with (p := p); [apply Hemp|done|].
      split; [|eauto]. destruct (proj2 (N i)) as [s Hs]; eauto.
  Qed.

  (** ** From ids to packages *)
  Section graph.
  Context (g : graph) (Hn : ∀ i, is_Some (g !! i) ↔ ∃ p, at_id i p).
  Context (He : ∀ i j, arc g i j ↔ ∃ p d q, at_id i p ∧ d ∈ p_requires p ∧ q ∈ dcand po d ∧ j = pid q).

  Lemma arc_target i j : arc g i j → ∃ q, q ∈ l ∧ j = pid q.
  Proof. intros (p & d & q & _ & _ & Hq & ->)%He. exists q. split; [by eapply dcand_sub|done]. Qed.
  Lemma arc_at i p q : at_id i p → q ∈ l → arc g i (pid q) ↔ needs l p q.
  Proof.
    intros Hp Hq. destruct (at_id_elem _ _ Hp) as [Hpl _]. rewrite He. unfold needs. split.
    - intros (p' & d & q' & Hp' & Hd & Hq' & E). assert (p' = p) as -> by (unfold at_id in *; congruence).
      assert (Hq'l : q' ∈ l) by by eapply dcand_sub.
      split; [done|]. split; [done|]. exists d, q'. split; [done|]. split; [done|]. split; [by apply pid_eq|].
      apply (dcand_meets d q' (Hplain p d Hpl Hd)) in Hq' as [_ ?]. done.
    - intros (_ & _ & d & q' & Hd & Hq' & E & Hmeet). exists p, d, q'. split; [done|]. split; [done|].
      split; [by apply (dcand_meets d q' (Hplain p d Hpl Hd))|]. symmetry. by apply pid_eq.
  Qed.
  Lemma needs_equal_l p p' q : p ∈ l → p' ∈ l → equal_pkgs p p' → needs l p q → needs l p' q.
  Proof.
    unfold needs, equal_pkgs, pkg_key. intros _ Hp' [= _ _ E _ _] (_ & Hq & d & q' & Hd & ?).
    split; [done|]. split; [done|]. exists d, q'. by rewrite <-E.
  Qed.
  Lemma needs_equal_r p q q' : q' ∈ l → equal_pkgs q q' → needs l p q → needs l p q'.
  Proof.
    unfold needs, equal_pkgs. intros Hq' E (Hp & _ & d & q2 & ? & ? & ? & ?).
    split; [done|]. split; [done|]. exists d, q2. split; [done|]. split; [done|]. split; [congruence|done].
  Qed.
  Lemma arc_pid p q : p ∈ l → q ∈ l → arc g (pid p) (pid q) ↔ needs l p q.
  Proof.
    intros Hp Hq. destruct (pid_at p Hp) as (p' & Hat & Hp' & E). rewrite (arc_at _ p') by done. split.
    - by apply needs_equal_l.
    - apply needs_equal_l; done.
  Qed.
  Lemma tc_needs p q : p ∈ l → q ∈ l → tc (arc g) (pid p) (pid q) ↔ tc (needs l) p q.
  Proof.
    intros Hp Hq. split.
    - remember (pid p) as i eqn:Ei. remember (pid q) as j eqn:Ej. intros H. revert p Hp Ei.
      induction H as [i j H|i k j H Htc IH]; intros p Hp ->.
      + apply tc_once. rewrite Ej in H. by apply arc_pid.
      + destruct (arc_target _ _ H) as (q' & Hq' & ->). eapply tc_l; [by apply arc_pid|]. by apply IH.
    - intros H. clear Hp Hq. induction H as [p q H|p q' q H Htc IH].
      + apply tc_once. apply arc_pid; [by destruct H|by destruct H as (_ & ? & _)|done].
      + eapply tc_l; [|exact IH]. apply arc_pid; [by destruct H|by destruct H as (_ & ? & _)|done].
  Qed.
  Lemma tc_at i p q : at_id i p → q ∈ l → tc (arc g) i (pid q) ↔ tc (needs l) p q.
  Proof.
    intros Hp Hq. destruct (at_id_elem _ _ Hp) as [Hpl _]. rewrite <-tc_needs by done.
    assert (Hsw : ∀ a b, (∀ x, arc g a x → arc g b x) → ∀ x, tc (arc g) a x → tc (arc g) b x).
    { intros a b Hab x Hx. destruct Hx as [a x H|a y x H Htc]; [apply tc_once; auto|eapply tc_l; eauto]. }
    split; apply Hsw; intros x Hx; destruct (arc_target _ _ Hx) as (q' & Hq' & ->).
    - apply arc_pid; [done|done|]. by eapply arc_at.
    - eapply arc_at; [done|done|]. by apply arc_pid.
  Qed.
  Lemma acyclic_graph : acyclic l → ¬ ∃ a, tc (edge g) a a.
  Proof.
    intros Hac (a & Ha). apply Hac.
    assert (Hp : ∃ p, p ∈ l ∧ a = pid p).
    { enough (G : ∀ a b, tc (edge g) a b → ∃ p, p ∈ l ∧ b = pid p) by eauto.
      intros x y H. induction H as [x y H|x y z H Htc IH]; [|done]. apply edge_arc in H. by eapply arc_target. }
    destruct Hp as (p & Hp & Ea). exists p.
    enough (G : ∀ x y, tc (edge g) x y → ∀ p q, p ∈ l → q ∈ l → x = pid p → y = pid q →
      tc (λ p q, needs l p q ∧ ¬ equal_pkgs p q) p q) by (by eapply (G a a)).
    clear p Hp Ea a Ha. intros x y H. induction H as [x y H|x y z H Htc IH]; intros p q Hp Hq -> Ez.
    - subst y. apply tc_once. split; [apply arc_pid; [done|done|by apply edge_arc]|].
      rewrite <-pid_eq by done. destruct H as (s & _ & _ & Hne); auto.
    - destruct (arc_target _ _ (edge_arc _ _ _ H)) as (q' & Hq' & ->). eapply tc_l; [|by eapply IH].
      split; [apply arc_pid; [done|done|by apply edge_arc]|].
      rewrite <-pid_eq by done. destruct H as (s & _ & _ & Hne); auto.
  Qed.
  Lemma graph_closed : closed_graph g.
  Proof. intros a b (q & Hq & ->)%arc_target. apply Hn. destruct (pid_at q Hq) as (q' & ? & _). eauto. Qed.
  End graph.

  (** ** Collecting the neighbours *)
  Lemma set_add_spec (acc : list package) p : NoDup (pkg_key <$> acc) →
    NoDup (pkg_key <$> pkg_set_add acc p) ∧ (∀ q, q ∈ pkg_set_add acc p → q ∈ acc ∨ q = p) ∧
    ∀ q, (∃ q', q' ∈ pkg_set_add acc p ∧ equal_pkgs q' q) ↔ (∃ q', q' ∈ acc ∧ equal_pkgs q' q) ∨ equal_pkgs p q.
  Proof.
    intros Hnd. unfold pkg_set_add. destruct (existsb (pkg_eq p) acc) eqn:E.
    - apply existsb_exists in E as (x & Hx%elem_of_list_In & Hxp%pkg_eq_true). split; [done|]. split; [by left|].
      intros q. split; [by left|]. intros [?|Hq]; [done|]. exists x. split; [done|]. unfold equal_pkgs in *. congruence.
    - assert (Hno : ∀ x, x ∈ acc → pkg_key x ≠ pkg_key p).
      { intros x Hx Hk. rewrite <-not_true_iff_false in E. apply E. apply existsb_exists. exists x.
        split; [by apply elem_of_list_In|]. by apply pkg_eq_true. }
      split; [|split].
      + rewrite fmap_app. apply NoDup_app. split; [done|]. split; [|apply NoDup_singleton].
        intros k (x & -> & Hx)%elem_of_list_fmap Hk%elem_of_list_singleton. by eapply Hno.
      + intros q [?|?%elem_of_list_singleton]%elem_of_app; auto.
      + intros q. split.
        * intros (q' & [?| ->%elem_of_list_singleton]%elem_of_app & ?); [left; eauto|by right].
        * intros [(q' & ? & ?)|?]; [exists q'; split; [apply elem_of_app; by left|done]|].
          exists p. split; [apply elem_of_app; right; by apply elem_of_list_singleton|done].
  Qed.
  Lemma set_adds_spec (qs acc : list package) : NoDup (pkg_key <$> acc) →
    NoDup (pkg_key <$> foldl pkg_set_add acc qs) ∧ (∀ q, q ∈ foldl pkg_set_add acc qs → q ∈ acc ∨ q ∈ qs) ∧
    ∀ q, (∃ q', q' ∈ foldl pkg_set_add acc qs ∧ equal_pkgs q' q) ↔
         (∃ q', q' ∈ acc ∧ equal_pkgs q' q) ∨ ∃ q', q' ∈ qs ∧ equal_pkgs q' q.
  Proof.
    revert acc. induction qs as [|x qs IH]; intros acc Hnd; cbn [foldl].
    - split; [done|]. split; [by left|]. intros q. split; [by left|]. intros [?|(? & ?%elem_of_nil & _)]; done.
    - destruct (set_add_spec acc x Hnd) as (H1 & H2 & H3). destruct (IH _ H1) as (G1 & G2 & G3).
      split; [done|]. split.
      + intros q [[?| ->]%H2|?]%G2; [by left|right; left|right; by right].
      + intros q. rewrite G3, H3. split.
        * intros [[?|?]|(q' & ? & ?)]; [by left|right; exists x; split; [left|done]|right; exists q'; split; [by right|done]].
        * intros [?|(q' & [-> |?]%elem_of_cons & ?)]; [by left; left|left; by right|right; eauto].
  Qed.
  Lemma wp_meets r : ∃ ps, what_provides po r true = Ok ps ∧ ∀ p, p ∈ ps ↔ p ∈ l ∧ req_meets r p.
  Proof.
    assert (Hmod : pool_modify po r = Ok r) by (unfold pool_modify; by rewrite Hm).
    destruct (what_provides po r true) as [ps|e] eqn:E.
    - exists ps. split; [done|]. intros p. rewrite (rep_what_provides_elem _ _ R _ _ _ _ E). unfold req_meets.
      assert (Ha := accepts_spec po r false r (p_version p) (or_intror eq_refl) eq_refl).
      unfold accepts in Ha. rewrite Hm in Ha. rewrite <-Ha. split.
      + intros (? & ? & r' & Hr' & ?). rewrite Hmod in Hr'. injection Hr' as <-. done.
      + intros (? & ? & ?). eauto.
    - rewrite (rep_what_provides _ _ R), Hmod in E. by destruct (by_name _ _).
  Qed.
  Lemma neighbors_for_spec (look : Z → res (gset Z)) (F : Z → gset Z) r :
    (∀ p, p ∈ l → look (pid p) = Ok (F (pid p))) → (∀ p j, p ∈ l → j ∈ F (pid p) → ∃ q, at_id j q) →
    ∃ qs, neighbors_for ord po look r = Ok qs ∧
      holds_exactly l qs (λ q, ∃ p j q', p ∈ l ∧ req_meets r p ∧ j ∈ F (pid p) ∧ at_id j q' ∧ equal_pkgs q' q).
  Proof.
    intros Hlook HF. unfold neighbors_for. destruct (wp_meets r) as (ps & -> & Hps). cbn [mbind res_bind].
    enough (G : ∀ ps, (∀ p, p ∈ ps → p ∈ l) → ∀ acc : list package, NoDup (pkg_key <$> acc) → (∀ q, q ∈ acc → q ∈ l) → ∃ qs,
      foldM (λ acc p, i ← package_id po p; ns ← look i; qs ← mapM_res (id_to_package po) (ord ns);
                      Ok (foldl pkg_set_add acc qs)) ps acc = Ok qs ∧
      NoDup (pkg_key <$> qs) ∧ (∀ q, q ∈ qs → q ∈ l) ∧
      ∀ q, (∃ q', q' ∈ qs ∧ equal_pkgs q' q) ↔
        (∃ q', q' ∈ acc ∧ equal_pkgs q' q) ∨ ∃ p j q', p ∈ ps ∧ j ∈ F (pid p) ∧ at_id j q' ∧ equal_pkgs q' q).
    { destruct (G ps) with (acc := @nil package) as (qs & E & H1 & H2 & H3).
      - intros p Hp. by apply Hps.
      - apply NoDup_nil_2.
      - by intros q ?%elem_of_nil.
      - exists qs. split; [exact E|]. split; [done|]. split; [done|]. intros q _. rewrite H3. split.
        + intros [(? & ?%elem_of_nil & _)|(p & j & q' & [? ?]%Hps & ?)]; [done|]. exists p, j, q'. done.
        + intros (p & j & q' & ? & ? & ?). right. exists p, j, q'. split; [by apply Hps|done]. }
    clear ps Hps. induction ps as [|p ps IH]; intros Hps acc Hnd Hacc.
    - exists acc. split; [done|]. split; [done|]. split; [done|]. intros q. split; [by left|].
      intros [?|(? & ? & ? & ?%elem_of_nil & _)]; done.
    - rewrite foldM_cons. assert (Hp : p ∈ l) by (apply Hps; left). rewrite (pid_ok _ _ R p Hp). cbn [mbind res_bind].
      rewrite Hlook by done. cbn [mbind res_bind].
      assert (Hxs : ∃ xs, mapM_res (id_to_package po) (ord (F (pid p))) = Ok xs ∧
                          ∀ q, q ∈ xs ↔ ∃ j, j ∈ F (pid p) ∧ at_id j q).
      { assert (Hin : ∀ j, j ∈ ord (F (pid p)) ↔ j ∈ F (pid p)) by (intros j; by rewrite Hord, elem_of_elements).
        setoid_rewrite <-Hin. assert (Hv : ∀ j, j ∈ ord (F (pid p)) → ∃ q, at_id j q) by (intros j Hj%Hin; eauto).
        revert Hv. generalize (ord (F (pid p))). clear. intros js. induction js as [|j js IH]; intros Hv; cbn [mapM_res].
        - exists []. split; [done|]. intros q. split; [by intros ?%elem_of_nil|by intros (? & ?%elem_of_nil & _)].
        - destruct (Hv j) as (q & Hq); [left|]. destruct IH as (xs & -> & Hxs); [intros; apply Hv; by right|].
          unfold at_id in *. rewrite Hq. exists (q :: xs). split; [done|]. intros q'. rewrite elem_of_cons, Hxs. split.
          + intros [-> |(j' & ? & ?)]; [exists j; split; [left|done]|exists j'; split; [by right|done]].
          + intros (j' & [-> |?]%elem_of_cons & Hj'); [left; congruence|right; eauto]. }
      destruct Hxs as (xs & -> & Hxs). cbn [mbind res_bind].
      destruct (set_adds_spec xs acc Hnd) as (G1 & G2 & G3).
      destruct (IH (λ q H, Hps q (elem_of_list_further _ _ _ H)) (foldl pkg_set_add acc xs) G1) as (qs & E & H1 & H2 & H3).
      { intros q [?|(j & ? & Hj)%Hxs]%G2; [auto|by apply at_id_elem in Hj as [? _]]. }
      exists qs. split; [exact E|]. split; [done|]. split; [done|]. intros q. rewrite H3, G3. split.
      + intros [[?|(q' & (j & ? & ?)%Hxs & ?)]|(p' & j & q' & ? & ?)]; [by left| |].
        * right. exists p, j, q'. split; [left|done].
        * right. exists p', j, q'. split; [by right|done].
      + intros [?|(p' & j & q' & [-> |?]%elem_of_cons & ? & ? & ?)]; [by left; left|left; right|right; eauto 10].
        exists q'. split; [apply Hxs; eauto|done].
  Qed.

  (** ** The reverse mapping *)
  Lemma reverse_spec (g : graph) k v : k ∈ default ∅ (reverse_mapping g !! v) ↔ arc g k v.
  Proof.
    unfold reverse_mapping.
    assert (G1 : ∀ n vs (m : graph) v k, 
      k ∈ default ∅ (foldl (λ m v, <[v := {[n]} ∪ default ∅ (m !! v)]> m) m vs !! v) ↔ k ∈ default ∅ (m !! v) ∨ (k = n ∧ v ∈ vs)).
    { intros n vs. induction vs as [|w vs IH]; intros m x y; cbn [foldl].
      - split; [by left|]. by intros [?|[_ ?%elem_of_nil]].
      - rewrite IH. destruct (decide (w = x)) as [->|Hne].
        + rewrite lookup_insert. cbn. rewrite elem_of_union, elem_of_singleton, elem_of_cons. naive_solver.
        + rewrite lookup_insert_ne by done. rewrite elem_of_cons. naive_solver. }
    assert (G2 : ∀ kvs (m : graph),
      k ∈ default ∅ (foldl (λ m kv, foldl (λ m v, <[v := {[kv.1]} ∪ default ∅ (m !! v)]> m) m (elements kv.2)) m kvs !! v)
      ↔ k ∈ default ∅ (m !! v) ∨ ∃ s : gset Z, (k, s) ∈ kvs ∧ v ∈ s).
    { induction kvs as [|[n s] kvs IH]; intros m; cbn [foldl].
      - split; [by left|]. by intros [?|(s & ?%elem_of_nil & _)].
      - rewrite IH. cbn [fst snd]. rewrite G1, elem_of_elements. split.
        + intros [[?|[-> ?]]|(s' & ? & ?)]; [by left|right; exists s; split; [left|done]|right; exists s'; split; [by right|done]].
        + intros [?|(s' & [[= -> ->]|?]%elem_of_cons & ?)]; [by left; left|left; by right|right; eauto]. }
    rewrite G2, lookup_empty. cbn. unfold arc. setoid_rewrite elem_of_map_to_list. split; [intros [?%elem_of_empty|?]; done|by right].
  Qed.

  (** ** Results lie between two relations, which are equal if there are no cycles *)
  Definition between (qs : list package) (P Q : package → Prop) : Prop :=
    NoDup (pkg_key <$> qs) ∧ (∀ q, q ∈ qs → q ∈ l) ∧
    (∀ q, q ∈ l → P q → ∃ q', q' ∈ qs ∧ equal_pkgs q' q) ∧
    (∀ q, q ∈ l → (∃ q', q' ∈ qs ∧ equal_pkgs q' q) → Q q).
  Section between.
  Context (g : graph) (Hn : ∀ i, is_Some (g !! i) ↔ ∃ p, at_id i p).
  Context (Ht : ∀ i j, arc g i j → ∃ q, q ∈ l ∧ j = pid q) (L U : package → package → Prop).
  Context (HLU : ∀ i p q, at_id i p → q ∈ l → (L p q → arc g i (pid q)) ∧ (arc g i (pid q) → U p q)).
  Context (HL : ∀ p p' q, p ∈ l → p' ∈ l → equal_pkgs p p' → L p q → L p' q).
  Context (HUl : ∀ p p' q, p ∈ l → p' ∈ l → equal_pkgs p p' → U p q → U p' q).
  Context (HUr : ∀ p q q', q ∈ l → q' ∈ l → equal_pkgs q q' → U p q → U p q').

  Lemma forward_spec r : ∃ qs, neighbors_for ord po (look_dict g) r = Ok qs ∧
    between qs (λ q, ∃ p, p ∈ l ∧ req_meets r p ∧ L p q) (λ q, ∃ p, p ∈ l ∧ req_meets r p ∧ U p q).
  Proof.
    destruct (neighbors_for_spec (look_dict g) (λ i, default ∅ (g !! i)) r) as (qs & E & H1 & H2 & H3).
    - intros p Hp. unfold look_dict. destruct (pid_at p Hp) as (p' & Hat & _). 
      destruct (proj2 (Hn (pid p))) as [s Hs]; [eauto|]. by rewrite Hs.
    - intros p j _ Hj. destruct (g !! pid p) as [s|] eqn:Es; [|by apply elem_of_empty in Hj].
      destruct (Ht (pid p) j) as (q & Hq & ->); [by exists s|]. destruct (pid_at q Hq) as (? & ? & _). eauto.
    - exists qs. split; [exact E|]. split; [done|]. split; [done|]. split.
      + intros q Hq (p & Hp & Hr & HLpq). apply H3; [done|]. destruct (pid_at p Hp) as (p' & Hat & Hp' & Ep).
        destruct (pid_at q Hq) as (q' & Hatq & Hq' & Eq). exists p, (pid q), q'. split; [done|]. split; [done|].
        split; [|done]. destruct (proj1 (HLU _ _ q Hat Hq)) as (s & -> & Hs); [|done].
        eapply HL; [exact Hp| |symmetry; exact Ep|]; done.
      + intros q Hq Hex. apply H3 in Hex as (p & j & q' & Hp & Hr & Hj & Hat & Eq); [|done].
        exists p. split; [done|]. split; [done|].
        assert (Ha : arc g (pid p) j). { destruct (g !! pid p) as [s|] eqn:Es; [by exists s|by apply elem_of_empty in Hj]. }
        destruct (Ht _ _ Ha) as (q2 & Hq2 & ->). destruct (pid_at p Hp) as (p' & Hatp & Hp' & Ep).
        destruct (pid_at q2 Hq2) as (q3 & Hat3 & Hq3 & E3).
        assert (q3 = q') as -> by (unfold at_id in *; congruence).
        apply (HLU _ _ q2 Hatp Hq2) in Ha. eapply HUr; [exact Hq2|exact Hq| |].
        * unfold equal_pkgs in *. congruence.
        * eapply HUl; [exact Hp'|exact Hp|exact Ep|exact Ha].
  Qed.
  Lemma backward_spec r : ∃ qs, neighbors_for ord po (look_default (reverse_mapping g)) r = Ok qs ∧
    between qs (λ q, ∃ p, p ∈ l ∧ req_meets r p ∧ L q p) (λ q, ∃ p, p ∈ l ∧ req_meets r p ∧ U q p).
  Proof.
    destruct (neighbors_for_spec (look_default (reverse_mapping g)) (λ i, default ∅ (reverse_mapping g !! i)) r) as (qs & E & H1 & H2 & H3).
    - done.
    - intros p j _ Hj%reverse_spec. apply Hn. destruct Hj as (s & Hs & _). eauto.
    - exists qs. split; [exact E|]. split; [done|]. split; [done|]. split.
      + intros q Hq (p & Hp & Hr & HLqp). apply H3; [done|]. destruct (pid_at q Hq) as (q' & Hat & Hq' & Eq).
        exists p, (pid q), q'. split; [done|]. split; [done|]. split; [|done]. apply reverse_spec.
        apply (HLU _ _ p Hat Hp). eapply HL; [exact Hq|done|symmetry; exact Eq|done].
      + intros q Hq Hex. apply H3 in Hex as (p & j & q' & Hp & Hr & Hj%reverse_spec & Hat & Eq); [|done].
        exists p. split; [done|]. split; [done|]. apply (HLU _ _ p Hat Hp) in Hj.
        destruct (at_id_elem _ _ Hat) as [Hq' _]. eapply HUl; [exact Hq'|exact Hq|exact Eq|exact Hj].
  Qed.
  End between.

  Lemma tc_needs_equal_l p p' q : p ∈ l → p' ∈ l → equal_pkgs p p' → tc (needs l) p q → tc (needs l) p' q.
  Proof.
    intros Hp Hp' E H. revert Hp E. destruct H as [p q H|p x q H Htc]; intros Hp E.
    - apply tc_once. eapply needs_equal_l; [exact Hp|exact Hp'|exact E|exact H].
    - eapply tc_l; [eapply needs_equal_l; [exact Hp|exact Hp'|exact E|exact H]|done].
  Qed.
  Lemma tc_needs_equal_r p q q' : q ∈ l → q' ∈ l → equal_pkgs q q' → tc (needs l) p q → tc (needs l) p q'.
  Proof.
    intros _ Hq' E H. induction H as [p q H|p x q H Htc IH]; [apply tc_once; by eapply needs_equal_r|].
    eapply tc_l; [done|auto].
  Qed.

  Lemma neighbors_direct : ∃ g, neighbors_in ord po false = Ok g ∧ (∀ i, is_Some (g !! i) ↔ ∃ p, at_id i p) ∧
    (∀ i j, arc g i j → ∃ q, q ∈ l ∧ j = pid q) ∧
    ∀ i p q, at_id i p → q ∈ l → (needs l p q → arc g i (pid q)) ∧ (arc g i (pid q) → needs l p q).
  Proof.
    destruct open_graph as (g & Hg & Hn & He). exists g. unfold neighbors_in. fold ids. rewrite Hg. split; [done|].
    split; [done|]. split; [intros i j; by eapply arc_target|]. intros i p q Hp Hq. by rewrite (arc_at g He i p q).
  Qed.
  Lemma neighbors_trans : ∃ g, neighbors_in ord po true = Ok g ∧ (∀ i, is_Some (g !! i) ↔ ∃ p, at_id i p) ∧
    (∀ i j, arc g i j → ∃ q, q ∈ l ∧ j = pid q) ∧
    ∀ i p q, at_id i p → q ∈ l → (needs l p q ∨ (acyclic l ∧ tc (needs l) p q) → arc g i (pid q)) ∧
                                   (arc g i (pid q) → tc (needs l) p q).
  Proof.
    destruct open_graph as (g & Hg & Hn & He). unfold neighbors_in. fold ids. rewrite Hg. cbn [mbind res_bind].
    destruct (transitive_neighbors_spec ord Hord g (graph_closed g Hn He) (S (size g)) ids) as (t & Et & Hd & Hs & Hc).
    { lia. } { intros k. by rewrite ids_at, Hn. }
    exists t. split; [exact Et|].
    assert (Hdom : ∀ i, is_Some (t !! i) ↔ is_Some (g !! i)) by (intros i; by rewrite <-!elem_of_dom, Hd).
    split; [intros i; by rewrite Hdom|]. split.
    - intros i j (s & Hi & Hj). destruct (Hs _ _ Hi) as [_ H]. specialize (H j Hj).
      clear -H He R. induction H as [i j H|i k j H Htc IH]; [by eapply arc_target|done].
    - intros i p q Hp Hq. destruct (proj2 (Hdom i)) as [s Hi]; [apply Hn; eauto|]. destruct (Hs _ _ Hi) as [H1 H2].
      unfold arc at 1 2. rewrite Hi. split.
      + intros H. exists s. split; [done|]. destruct H as [H|[Hac H]].
        * apply H1. by apply (arc_at g He i p q).
        * eapply Hc; [|done|by apply (tc_at g He i p q)]. intros a Ha. apply (acyclic_graph g He Hac). eauto.
      + intros (s' & [= <-] & H). by apply (tc_at g He i p q Hp Hq), H2.
  Qed.
End deps.

Lemma readable_pool repos : readable (mjoin repos) → ∃ po, pool_of repos None = Ok po ∧
  pool_rep po (mjoin repos) ∧ po_mods po = None.
Proof.
  intros [Hr _]. destruct (pool_of_total repos None) as [po Hpo].
  - intros p d Hp Hd. apply ok_provide_unversioned. by eapply Hr.
  - exists po. split; [done|]. by apply pool_of_rep.
Qed.
Lemma between_exact l qs (P Q : package → Prop) : (∀ q, q ∈ l → Q q → P q) → between l qs P Q → holds_exactly l qs P.
Proof. intros H (H1 & H2 & H3 & H4). split; [done|]. split; [done|]. intros q Hq. split; eauto. Qed.

(** ** The direct dependencies, and what directly depends on something *)
Theorem C34_dependencies : ∀ ord repos r, (∀ X, ord X ≡ₚ elements X) → readable (mjoin repos) →
  ∃ qs, compute_dependencies ord repos r false = Ok qs ∧
    holds_exactly (mjoin repos) qs (λ q, ∃ p, p ∈ mjoin repos ∧ req_meets r p ∧ needs (mjoin repos) p q).
Proof.
  intros ord repos r Hord Hr. destruct (readable_pool repos Hr) as (po & Epo & R & Hm). destruct Hr as [_ Hpl].
  unfold compute_dependencies. rewrite Epo. cbn [mbind res_bind].
  destruct (neighbors_direct ord Hord po _ R Hm Hpl) as (g & -> & Hn & Ht & HLU). cbn [mbind res_bind].
  destruct (forward_spec ord Hord po _ R Hm g Hn Ht _ _ HLU) with (r := r) as (qs & E & Hb).
  - exact (needs_equal_l (mjoin repos)).
  - exact (needs_equal_l (mjoin repos)).
  - intros p q q' _. exact (needs_equal_r (mjoin repos) p q q').
  - exists qs. split; [exact E|]. eapply between_exact; [|exact Hb]. done.
Qed.
Theorem C34_reverse : ∀ ord repos r, (∀ X, ord X ≡ₚ elements X) → readable (mjoin repos) →
  ∃ qs, compute_reverse_dependencies ord repos r false = Ok qs ∧
    holds_exactly (mjoin repos) qs (λ q, ∃ p, p ∈ mjoin repos ∧ req_meets r p ∧ needs (mjoin repos) q p).
Proof.
  intros ord repos r Hord Hr. destruct (readable_pool repos Hr) as (po & Epo & R & Hm). destruct Hr as [_ Hpl].
  unfold compute_reverse_dependencies, reverse_neighbors_in. rewrite Epo. cbn [mbind res_bind].
  destruct (neighbors_direct ord Hord po _ R Hm Hpl) as (g & -> & Hn & Ht & HLU). cbn [mbind res_bind].
  destruct (backward_spec ord Hord po _ R Hm g Hn _ _ HLU) with (r := r) as (qs & E & Hb).
  - exact (needs_equal_l (mjoin repos)).
  - exact (needs_equal_l (mjoin repos)).
  - exists qs. split; [exact E|]. eapply between_exact; [|exact Hb]. done.
Qed.

(** ** transitive=True *)
(** Always: between the direct and all indirect dependencies; exactly the latter without cycles. *)
Theorem C34_transitive : ∀ ord repos r, (∀ X, ord X ≡ₚ elements X) → readable (mjoin repos) →
  ∃ qs, compute_dependencies ord repos r true = Ok qs ∧
    (∀ q, q ∈ qs → q ∈ mjoin repos ∧ ∃ p, p ∈ mjoin repos ∧ req_meets r p ∧ tc (needs (mjoin repos)) p q) ∧
    (∀ p q, p ∈ mjoin repos → req_meets r p → needs (mjoin repos) p q → ∃ q', q' ∈ qs ∧ equal_pkgs q' q) ∧
    (acyclic (mjoin repos) → holds_exactly (mjoin repos) qs
       (λ q, ∃ p, p ∈ mjoin repos ∧ req_meets r p ∧ tc (needs (mjoin repos)) p q)).
Proof.
  intros ord repos r Hord Hr. destruct (readable_pool repos Hr) as (po & Epo & R & Hm). destruct Hr as [_ Hpl].
  unfold compute_dependencies. rewrite Epo. cbn [mbind res_bind].
  destruct (neighbors_trans ord Hord po _ R Hm Hpl) as (g & -> & Hn & Ht & HLU). cbn [mbind res_bind].
  destruct (forward_spec ord Hord po _ R Hm g Hn Ht (λ p q, needs (mjoin repos) p q ∨ (acyclic (mjoin repos) ∧ tc (needs (mjoin repos)) p q)) _ HLU) with (r := r) as (qs & E & Hb).
  - intros p p' q H1 H2 H3 [H|[Ha H]]; [left; exact (needs_equal_l _ p p' q H1 H2 H3 H)|right; exact (conj Ha (tc_needs_equal_l _ p p' q H1 H2 H3 H))].
  - exact (tc_needs_equal_l (mjoin repos)).
  - exact (tc_needs_equal_r (mjoin repos)).
  - exists qs. split; [exact E|]. pose proof Hb as (_ & H2 & H3 & H4). split; [|split].
    + intros q Hq. split; [auto|]. apply H4; [auto|]. by exists q.
    + intros p q Hp Hrp Hnq. apply H3; [by destruct Hnq as (_ & ? & _)|]. eauto.
    + intros Hac. destruct Hb as (H1 & _). split; [done|]. split; [done|]. intros q Hq. split; [by apply H4|].
      intros (p & ? & ? & ?). apply H3; eauto 10.
Qed.
Theorem C34_reverse_transitive : ∀ ord repos r, (∀ X, ord X ≡ₚ elements X) → readable (mjoin repos) →
  ∃ qs, compute_reverse_dependencies ord repos r true = Ok qs ∧
    (∀ q, q ∈ qs → q ∈ mjoin repos ∧ ∃ p, p ∈ mjoin repos ∧ req_meets r p ∧ tc (needs (mjoin repos)) q p) ∧
    (∀ p q, p ∈ mjoin repos → req_meets r p → needs (mjoin repos) q p → ∃ q', q' ∈ qs ∧ equal_pkgs q' q) ∧
    (acyclic (mjoin repos) → holds_exactly (mjoin repos) qs
       (λ q, ∃ p, p ∈ mjoin repos ∧ req_meets r p ∧ tc (needs (mjoin repos)) q p)).
Proof.
  intros ord repos r Hord Hr. destruct (readable_pool repos Hr) as (po & Epo & R & Hm). destruct Hr as [_ Hpl].
  unfold compute_reverse_dependencies, reverse_neighbors_in. rewrite Epo. cbn [mbind res_bind].
  destruct (neighbors_trans ord Hord po _ R Hm Hpl) as (g & -> & Hn & Ht & HLU). cbn [mbind res_bind].
  destruct (backward_spec ord Hord po _ R Hm g Hn (λ p q, needs (mjoin repos) p q ∨ (acyclic (mjoin repos) ∧ tc (needs (mjoin repos)) p q)) _ HLU) with (r := r) as (qs & E & Hb).
  - intros p p' q H1 H2 H3 [H|[Ha H]]; [left; exact (needs_equal_l _ p p' q H1 H2 H3 H)|right; exact (conj Ha (tc_needs_equal_l _ p p' q H1 H2 H3 H))].
  - exact (tc_needs_equal_l (mjoin repos)).
  - exists qs. split; [exact E|]. pose proof Hb as (_ & H2 & H3 & H4). split; [|split].
    + intros q Hq. split; [auto|]. apply H4; [auto|]. by exists q.
    + intros p q Hp Hrp Hnq. apply H3; [by destruct Hnq as (? & _)|]. eauto.
    + intros Hac. destruct Hb as (H1 & _). split; [done|]. split; [done|]. intros q Hq. split; [by apply H4|].
      intros (p & ? & ? & ?). apply H3; eauto 10.
Qed.

(** The two functions are converse to each other: [q] is among the dependencies of what only [p] satisfies
    iff [p] is among the reverse dependencies of what only [q] satisfies. *)
Theorem C34_converse : ∀ ord repos p q rp rq ds rs, (∀ X, ord X ≡ₚ elements X) → readable (mjoin repos) →
  p ∈ mjoin repos → q ∈ mjoin repos →
  (∀ x, x ∈ mjoin repos → req_meets rp x ↔ equal_pkgs x p) → (∀ x, x ∈ mjoin repos → req_meets rq x ↔ equal_pkgs x q) →
  compute_dependencies ord repos rp false = Ok ds → compute_reverse_dependencies ord repos rq false = Ok rs →
  (∃ q', q' ∈ ds ∧ equal_pkgs q' q) ↔ (∃ p', p' ∈ rs ∧ equal_pkgs p' p).
Proof.
  intros ord repos p q rp rq ds rs Hord Hr Hp Hq Hrp Hrq Hds Hrs.
  destruct (C34_dependencies ord repos rp Hord Hr) as (ds' & E & _ & _ & Hd). rewrite Hds in E. injection E as <-.
  destruct (C34_reverse ord repos rq Hord Hr) as (rs' & E & _ & _ & Hs). rewrite Hrs in E. injection E as <-.
  rewrite Hd, Hs by done. split.
  - intros (x & Hx & Hm%Hrp & Hn); [|done]. exists q. split; [done|]. split; [by apply Hrq|].
    exact (needs_equal_l _ x p q Hx Hp Hm Hn).
  - intros (x & Hx & Hm%Hrq & Hn); [|done]. exists p. split; [done|]. split; [by apply Hrp|].
    exact (needs_equal_r _ p x q Hq Hm Hn).
Qed.

(** ** Leaf packages *)
Lemma p2i_keys d p i q : q ∈ (pdict_set d p i).*1 ↔ q ∈ d.*1 ∨ (q = p ∧ ∀ x, x ∈ d.*1 → pkg_key x ≠ pkg_key p).
Proof.
  induction d as [|[x j] d IH]; cbn [pdict_set fmap list_fmap fst].
  - rewrite elem_of_list_singleton, elem_of_nil. split; [intros ->; right; split; [done|by intros x ?%elem_of_nil]|naive_solver].
  - destruct (pkg_eq x p) eqn:E; cbn [fmap list_fmap fst].
    + rewrite elem_of_cons. split; [by left|]. intros [?|[-> H]]; [done|]. exfalso. eapply H; [left|]. by apply pkg_eq_true.
    + apply pkg_eq_false in E. rewrite !elem_of_cons. fold (fmap (M := list) (@fst package Z)). rewrite IH. split.
      * intros [?|[?|[-> H]]]; [auto|auto|]. right. split; [done|]. intros y [-> |?]%elem_of_cons; auto.
      * intros [[?|?]|[-> H]]; [auto|auto|]. right. right. split; [done|]. intros y Hy. apply H. by right.
Qed.
Lemma p2i_nodup d p i : NoDup (pkg_key <$> d.*1) → NoDup (pkg_key <$> (pdict_set d p i).*1).
Proof.
  induction d as [|[x j] d IH]; cbn [pdict_set fmap list_fmap fst]; [intros _; apply NoDup_singleton|].
  intros [Hx Hd]%NoDup_cons. destruct (pkg_eq x p) eqn:E; cbn [fmap list_fmap fst]; apply NoDup_cons; [done|].
  split; [|by apply IH]. intros (y & Ey & Hy)%elem_of_list_fmap. apply p2i_keys in Hy as [Hy|[-> _]].
  - apply Hx. apply elem_of_list_fmap. eauto.
  - apply pkg_eq_false in E. congruence.
Qed.
Lemma iter_packages_spec repos m po : pool_of repos m = Ok po →
  NoDup (pkg_key <$> iter_packages po) ∧ (∀ p, p ∈ iter_packages po → p ∈ mjoin repos) ∧
  (∀ p, p ∈ mjoin repos → ∃ q, q ∈ iter_packages po ∧ equal_pkgs q p).
Proof.
  unfold pool_of, iter_packages.
  enough (G : ∀ ps po0 l0 po, 
    NoDup (pkg_key <$> (po_p2i po0).*1) ∧ (∀ p, p ∈ (po_p2i po0).*1 → p ∈ l0) ∧ (∀ p, p ∈ l0 → ∃ q, q ∈ (po_p2i po0).*1 ∧ equal_pkgs q p) →
    add_repository po0 ps = Ok po →
    NoDup (pkg_key <$> (po_p2i po).*1) ∧ (∀ p, p ∈ (po_p2i po).*1 → p ∈ l0 ++ ps) ∧ (∀ p, p ∈ l0 ++ ps → ∃ q, q ∈ (po_p2i po).*1 ∧ equal_pkgs q p)).
  { assert (G2 : ∀ rs po0 (l0 : list package) po,
      NoDup (pkg_key <$> (po_p2i po0).*1) ∧ (∀ p, p ∈ (po_p2i po0).*1 → p ∈ l0) ∧ (∀ p, p ∈ l0 → ∃ q, q ∈ (po_p2i po0).*1 ∧ equal_pkgs q p) →
      foldM add_repository rs po0 = Ok po →
      NoDup (pkg_key <$> (po_p2i po).*1) ∧ (∀ p, p ∈ (po_p2i po).*1 → p ∈ l0 ++ mjoin rs) ∧ (∀ p, p ∈ l0 ++ mjoin rs → ∃ q, q ∈ (po_p2i po).*1 ∧ equal_pkgs q p)).
    { induction rs as [|r rs IH]; intros po0 l0 po1 H0.
      - intros [= <-]. cbn. by rewrite app_nil_r.
      - rewrite foldM_cons. intros (po2 & H1 & H2)%mbind_ok. apply (G _ _ l0) in H1; [|done].
        apply (IH _ (l0 ++ r)) in H2; [|done]. change (mjoin (r :: rs)) with (r ++ mjoin rs). by rewrite app_assoc. }
    intros H. apply (G2 _ _ []) in H; [done|]. split; [apply NoDup_nil_2|]. split; by intros p ?%elem_of_nil. }
  induction ps as [|p ps IH]; intros po0 l0 po1 H0.
  - intros [= <-]. by rewrite app_nil_r.
  - unfold add_repository. rewrite foldM_cons. intros (po2 & H1 & H2)%mbind_ok. fold (add_repository po2 ps) in H2.
    apply (IH _ (l0 ++ [p])) in H2; [by rewrite <-app_assoc in H2|].
    unfold pool_add in H1. apply mbind_ok in H1 as (b & _ & [= <-]). cbn [po_p2i].
    destruct H0 as (N & S1 & S2). split; [by apply p2i_nodup|]. split.
    + intros x [?|[-> _]]%p2i_keys; apply elem_of_app; [left; auto|right; by apply elem_of_list_singleton].
    + intros x [Hx| ->%elem_of_list_singleton]%elem_of_app.
      * destruct (S2 x Hx) as (y & ? & ?). exists y. split; [apply p2i_keys; by left|done].
      * destruct (decide (pkg_key p ∈ pkg_key <$> (po_p2i po0).*1)) as [Hin|Hin].
        -- apply elem_of_list_fmap in Hin as (y & Hy & Hin). exists y. split; [apply p2i_keys; by left|done].
        -- exists p. split; [|done]. apply p2i_keys. right. split; [done|]. intros y Hy Hk. apply Hin, elem_of_list_fmap. eauto.
Qed.
(** Exactly the packages such that nothing depends on a package that provides their name in their version. *)
Theorem C34_leaves : ∀ ord repos, (∀ X, ord X ≡ₚ elements X) → readable (mjoin repos) →
  ∃ qs, compute_leaf_packages ord repos = Ok qs ∧
    holds_exactly (mjoin repos) qs (λ p,
      ∀ p' q, p' ∈ mjoin repos → provides p' (p_name p) → p_version p' = p_version p → ¬ needs (mjoin repos) q p').
Proof.
  intros ord repos Hord Hr. destruct (readable_pool repos Hr) as (po & Epo & R & Hm). pose proof Hr as [_ Hpl].
  destruct (iter_packages_spec _ _ _ Epo) as (N & S1 & S2).
  assert (Hrev := C34_reverse ord repos).
  unfold compute_leaf_packages. unfold compute_reverse_dependencies in Hrev. rewrite Epo in *. cbn [mbind res_bind] in *.
  assert (∃ g, reverse_neighbors_in ord po false = Ok g) as [g Eg].
  { destruct (Hrev (req_exact "" (V 0 0)) Hord Hr) as (qs & E & _). apply mbind_ok in E as (g & ? & _). eauto. }
  rewrite Eg in *. cbn [mbind res_bind] in *.
  set (P := λ p, ∀ p' q, p' ∈ mjoin repos → provides p' (p_name p) → p_version p' = p_version p → ¬ needs (mjoin repos) q p').
  assert (Hdeps : ∀ p, ∃ ds, neighbors_for ord po (look_default g) (req_exact (p_name p) (p_version p)) = Ok ds ∧ (ds = [] ↔ P p)).
  { intros p. destruct (Hrev (req_exact (p_name p) (p_version p)) Hord Hr) as (ds & E & _ & Hs & Hd). exists ds. split; [done|].
    assert (Hmeet : ∀ x, req_meets (req_exact (p_name p) (p_version p)) x ↔ provides x (p_name p) ∧ p_version x = p_version p).
    { intros x. unfold req_meets. cbn. split; [intros [? H]; split; [done|exact (H _ (elem_of_list_here _ _))]|].
      intros [? ?]. split; [done|]. by intros c ->%elem_of_list_singleton. }
    split.
    - intros -> p' q Hp' Hpr Hv Hn. destruct (proj2 (Hd q (proj1 Hn))) as (x & ?%elem_of_nil & _); [|done].
      exists p'. split; [done|]. split; [by apply Hmeet|done].
    - intros HP. destruct ds as [|d ds]; [done|]. exfalso.
      destruct (proj1 (Hd d (Hs d (elem_of_list_here _ _)))) as (p' & Hp' & [? ?]%Hmeet & Hn).
      { exists d. split; [left|done]. }
      by eapply HP. }
  assert (HPeq : ∀ p q, equal_pkgs p q → P p → P q).
  { unfold P, equal_pkgs, pkg_key. intros p q [= -> -> _ _ _]. done. }
  assert (G : ∀ xs (acc : list package), NoDup (pkg_key <$> acc) → ∃ qs,
    foldM (λ acc p, ds ← neighbors_for ord po (look_default g) (req_exact (p_name p) (p_version p));
                    Ok (match ds with [] => pkg_set_add acc p | _ => acc end)) xs acc = Ok qs ∧
    NoDup (pkg_key <$> qs) ∧ (∀ q, q ∈ qs → q ∈ acc ∨ q ∈ xs) ∧
    ∀ q, (∃ q', q' ∈ qs ∧ equal_pkgs q' q) ↔ (∃ q', q' ∈ acc ∧ equal_pkgs q' q) ∨ ∃ q', q' ∈ xs ∧ equal_pkgs q' q ∧ P q').
  { induction xs as [|x xs IH]; intros acc Hnd.
    - exists acc. split; [done|]. split; [done|]. split; [by left|]. intros q. split; [by left|].
      intros [?|(? & ?%elem_of_nil & _)]; done.
    - rewrite foldM_cons. destruct (Hdeps x) as (ds & -> & Hds). cbn [mbind res_bind].
      destruct ds as [|d ds].
      + destruct (set_add_spec acc x Hnd) as (A1 & A2 & A3). destruct (IH _ A1) as (qs & E & B1 & B2 & B3).
        exists qs. split; [exact E|]. split; [done|]. split.
        * intros q [[?| ->]%A2|?]%B2; [by left|right; left|right; by right].
        * intros q. rewrite B3, A3. split.
          -- intros [[?|?]|(q' & ? & ?)]; [by left|right; exists x; split; [left|split; [done|by apply Hds]]|right; exists q'; split; [by right|done]].
          -- intros [?|(q' & [-> |?]%elem_of_cons & ? & ?)]; [by left; left|left; by right|right; eauto].
      + destruct (IH _ Hnd) as (qs & E & B1 & B2 & B3). exists qs. split; [exact E|]. split; [done|]. split.
        * intros q [?|?]%B2; [by left|right; by right].
        * intros q. rewrite B3. split; [intros [?|(q' & ? & ?)]; [by left|right; exists q'; split; [by right|done]]|].
          intros [?|(q' & [-> |?]%elem_of_cons & ? & Hp)]; [by left|by apply Hds in Hp|right; eauto]. }
  destruct (G (iter_packages po) [] (NoDup_nil_2)) as (qs & E & A1 & A2 & A3).
  exists qs. split; [exact E|]. split; [done|]. split.
  - intros q [?%elem_of_nil|?]%A2; [done|auto].
  - intros q Hq. rewrite A3. split.
    + intros [(? & ?%elem_of_nil & _)|(q' & _ & Heq & HP)]; [done|]. by eapply HPeq.
    + intros HP. right. destruct (S2 q Hq) as (q' & Hq' & Heq). exists q'. split; [done|]. split; [done|].
      eapply HPeq; [symmetry; exact Heq|done].
Qed.
(** Without virtual packages and twins these are the packages nothing depends on. *)
Theorem C34_leaves_plain : ∀ ord repos qs, (∀ X, ord X ≡ₚ elements X) → readable (mjoin repos) →
  (∀ p, p ∈ mjoin repos → p_provides p = []) →
  (∀ p q, p ∈ mjoin repos → q ∈ mjoin repos → p_name p = p_name q → p_version p = p_version q → equal_pkgs p q) →
  compute_leaf_packages ord repos = Ok qs →
  holds_exactly (mjoin repos) qs (λ p, ∀ q, ¬ needs (mjoin repos) q p).
Proof.
  intros ord repos qs Hord Hr Hv Ht E. destruct (C34_leaves ord repos Hord Hr) as (qs' & E' & H1 & H2 & H3).
  rewrite E in E'. injection E' as <-. split; [done|]. split; [done|]. intros p Hp. rewrite H3 by done. split.
  - intros H q Hn. exact (H p q Hp (or_introl eq_refl) eq_refl Hn).
  - intros H p' q Hp' [Hn|(d & Hd & _)] Hver Hneed; [|by rewrite (Hv p' Hp') in Hd; apply elem_of_nil in Hd].
    apply (H q). apply (needs_equal_r _ q p' p); [done|by apply Ht|done].
Qed.

(** ** Limits *)
Definition order (X : gset Z) : list Z := sort_Z (elements X).
Lemma order_perm X : order X ≡ₚ elements X.
Proof. apply sort_Z_perm. Qed.
Definition P0 (n : string) (deps prov : list string) : package :=
  Pkg n (V 1 0) ((λ d, (d, [])) <$> deps) [] ((λ d, (d, [])) <$> prov) None.
Lemma needs_P0 ps n deps prov q : P0 n deps prov ∈ ps → q ∈ ps → p_name q ∈ deps → needs ps (P0 n deps prov) q.
Proof.
  intros Hp Hq Hd. split; [done|]. split; [done|]. exists (p_name q, []), q. split.
  - cbn. apply elem_of_list_fmap. eauto.
  - split; [done|]. split; [done|]. split; [by left|]. by left.
Qed.
(** With a dependency cycle, transitive=True may miss indirect dependencies. *)
Definition cyclic_repo : list package := [P0 "A" ["B"; "C"]%string []; P0 "B" ["A"]%string []; P0 "C" ["D"]%string []; P0 "D" [] []].
Theorem C34_cyclic_refuted : ∃ qs, 
  compute_dependencies order [cyclic_repo] (req_of_name RInstall "B") true = Ok qs ∧
  tc (needs cyclic_repo) (P0 "B" ["A"]%string []) (P0 "D" [] []) ∧ ¬ ∃ q', q' ∈ qs ∧ equal_pkgs q' (P0 "D" [] []).
Proof.
  eexists. split; [vm_compute; reflexivity|]. split.
  - eapply tc_l; [|eapply tc_l; [|apply tc_once]].
    + apply (needs_P0 cyclic_repo "B" ["A"%string] [] (P0 "A" ["B"; "C"]%string [])); repeat constructor.
    + apply (needs_P0 cyclic_repo "A" ["B"; "C"]%string [] (P0 "C" ["D"]%string [])); repeat constructor.
    + apply (needs_P0 cyclic_repo "C" ["D"]%string [] (P0 "D" [] [])); repeat constructor.
  - intros (q' & Hq & He). unfold equal_pkgs in He. rewrite !elem_of_cons, elem_of_nil in Hq.
    repeat (destruct Hq as [->|Hq]; [discriminate He|]). done.
Qed.
(** A package on which nothing depends is not reported as a leaf if another one provides its name in the same
    version and is depended on. *)
Definition virtual_repo : list package := [P0 "A" [] []; P0 "B" [] ["A"]%string; P0 "C" ["B"]%string []].
Theorem C34_leaves_refuted : ∃ qs, compute_leaf_packages order [virtual_repo] = Ok qs ∧
  (∀ q, ¬ needs virtual_repo q (P0 "A" [] [])) ∧ ¬ ∃ q', q' ∈ qs ∧ equal_pkgs q' (P0 "A" [] []).
Proof.
  eexists. split; [vm_compute; reflexivity|]. split.
  - intros q (Hq & _ & d & q' & Hd & Hq' & He & [Hpr _]). unfold virtual_repo in *. rewrite !elem_of_cons, elem_of_nil in Hq, Hq'.
    destruct Hq as [->|[->|[->|[]]]]; [by apply elem_of_nil in Hd|by apply elem_of_nil in Hd|].
    apply elem_of_list_singleton in Hd as ->.
    destruct Hq' as [->|[->|[->|[]]]]; [|discriminate He|discriminate He].
    destruct Hpr as [?|(? & ?%elem_of_nil & _)]; done.
  - intros (q' & Hq & He). unfold equal_pkgs in He. rewrite !elem_of_cons, elem_of_nil in Hq.
    repeat (destruct Hq as [->|Hq]; [discriminate He|]). done.
Qed.

(** ** Non-vacuity *)
Definition dep_repo : list (list package) :=
  [[P0 "A" ["B"]%string []; P0 "B" ["D"; "E"]%string []; P0 "C" ["D"]%string []]; [P0 "D" [] ["E"]%string; P0 "F" ["F"]%string []]].
Example dep_repo_readable : readable (mjoin dep_repo).
Proof.
  split; intros p d Hp Hd; cbn in Hp; rewrite !elem_of_cons, elem_of_nil in Hp;
    repeat (destruct Hp as [->|Hp]; [cbn in Hd; rewrite ?elem_of_cons, ?elem_of_nil in Hd;
      repeat (destruct Hd as [->|Hd]; [first [by left|cbn; lia]|]); done|]); done.
Qed.
Definition names (r : res (list package)) : res (list string) :=
  match r with Ok l => Ok (p_name <$> l) | Raise e => Raise e end.
Example dep_ex1 : names (compute_dependencies order dep_repo (req_of_name RInstall "A") true) = Ok ["B"; "D"]%string.
Proof. vm_compute. reflexivity. Qed.
Example dep_ex2 : names (compute_reverse_dependencies order dep_repo (req_of_name RInstall "D") true) = Ok ["A"; "B"; "C"]%string.
Proof. vm_compute. reflexivity. Qed.
Example dep_ex3 : names (compute_dependencies order dep_repo (req_of_name RInstall "A") false) = Ok ["B"]%string.
Proof. vm_compute. reflexivity. Qed.
Example dep_ex4 : names (compute_leaf_packages order dep_repo) = Ok ["A"; "C"]%string.
Proof. vm_compute. reflexivity. Qed.

Print Assumptions C34_dependencies.
Print Assumptions C34_reverse.
Print Assumptions C34_transitive.
Print Assumptions C34_reverse_transitive.
Print Assumptions C34_converse.
Print Assumptions C34_leaves.
Print Assumptions C34_leaves_plain.
Print Assumptions C34_cyclic_refuted.
Print Assumptions C34_leaves_refuted.
