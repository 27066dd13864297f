(** * The unsatisfiability report can always be built, from the rules of the problem. *)
From Verif Require Export Report SatMain BfsProofs.

Lemma mapM_res_ok {A B} (f : A → res B) (P : A → B → Prop) (l : list A) :
  (∀ x, x ∈ l → ∃ y, f x = Ok y ∧ P x y) → ∃ ys, mapM_res f l = Ok ys ∧ Forall2 P l ys.
Proof.
  induction l as [|x l IH]; intros H; [exists []; split; [done|constructor]|].
  destruct (H x) as (y & E & Hy); [left|]. destruct IH as (ys & E' & Hys); [intros; apply H; by right|].
  exists (y :: ys). cbn. rewrite E. cbn. rewrite E'. split; [done|by constructor].
Qed.

Lemma elem_of_fromkeys_by {A} (eq : A → A → bool) (l : list A) x : x ∈ fromkeys_by eq l → x ∈ l.
Proof.
  induction l as [|y l IH]; [done|]. cbn. intros [->|Hx]%elem_of_cons; [left|].
  apply elem_of_list_filter in Hx as [_ Hx]. right. auto.
Qed.
Lemma fromkeys_by_rep {A} (eq : A → A → bool) (l : list A) x :
  (∀ a, eq a a = true) → (∀ a b c, eq a b = true → eq b c = true → eq a c = true) →
  x ∈ l → ∃ y, y ∈ fromkeys_by eq l ∧ eq y x = true.
Proof.
  intros Hr Ht. induction l as [|z l IH]; [by intros ?%elem_of_nil|].
  intros [->|Hx]%elem_of_cons; [exists z; split; [left|done]|].
  destruct (IH Hx) as (y & Hy & E). destruct (eq z y) eqn:Ez.
  - exists z. split; [left|]. by eapply Ht.
  - exists y. split; [|done]. right. by apply elem_of_list_filter.
Qed.

Definition set_order (ord : gset nat → list nat) : Prop :=
  ∀ X, NoDup (ord X) ∧ ∀ x, x ∈ ord X ↔ x ∈ X.

Lemma size_list_to_set_le (l : list nat) : (size (list_to_set l : gset nat) ≤ length l)%nat.
Proof.
  induction l as [|x l IH]; [done|]. cbn [list_to_set length].
  pose proof (size_union_alt {[x]} (list_to_set l : gset nat)) as E. rewrite size_singleton in E.
  assert (size ((list_to_set l : gset nat) ∖ {[x]}) ≤ size (list_to_set l : gset nat))%nat by (apply subseteq_size; set_solver).
  unfold union, gset_union in *. lia.
Qed.

Section proofs.
  Context (R : list (list Z * option rule)) (c0 l0 : nat) (s : solver).
  Hypothesis Hu : UnsatOk R c0 l0 s.
  Context (ord : gset nat → list nat).
  Hypothesis Ho : set_order ord.

  Definition good (x : nat) : Prop := x = 0%nat ∨ x ∈ s_clauses s ∨ x = l0.
  Definition leaf (x : nat) : Prop := good x ∧ learned_of s x = false.
  (** A clause with requirements, that came from a rule. *)
  Definition det (x : nat) : Prop := leaf x ∧ has_reqs s x = true.

  Lemma heap_pos : (0 < length (s_heap s))%nat.
  Proof. pose proof (uo_l _ _ _ _ Hu). lia. Qed.
  Lemma good_range x : good x → (x < length (s_heap s))%nat.
  Proof. intros [->|[Hx| ->]]; [apply heap_pos|by apply (uo_cls _ _ _ _ Hu)|apply (uo_l _ _ _ _ Hu)]. Qed.

  Lemma trail_of c : learned_of s c = true →
    ∃ t, s_ctrails s !! c = Some t ∧ ∀ j, j ∈ t → (j < c)%nat ∧ good j.
  Proof.
    unfold learned_of. destruct (s_heap s !! c) as [cl|] eqn:E; [|done]. intros El.
    destruct (uo_prov _ _ _ _ Hu c cl E) as [(_ & ? & _)|[(_ & ? & _)|(_ & _ & t & Et & Ht)]]; [congruence..|].
    exists t. split; [done|]. intros j Hj. destruct (Ht j Hj) as [? [?|?]]; split; [done|by left|done|by right; left].
  Qed.

  Definition MI (ft : memo) : Prop :=
    ∀ c l, ft !! c = Some l → (learned_of s c = false → l = []) ∧ ∀ x, x ∈ l → leaf x.
  Lemma mi_insert ft c l : MI ft → (learned_of s c = false → l = []) → (∀ x, x ∈ l → leaf x) → MI (<[c := l]> ft).
  Proof.
    intros H H1 H2 c' l'. destruct (decide (c' = c)) as [->|].
    - rewrite lookup_insert. intros [= <-]. done.
    - rewrite lookup_insert_ne by done. apply H.
  Qed.

  Lemma clause_trail_spec fuel : ∀ c ign ft, (c < fuel)%nat → MI ft →
    ∃ l ign' ft', clause_trail s fuel c (ign, ft) = Ok (l, (ign', ft')) ∧ MI ft' ∧
      (learned_of s c = false → l = []) ∧ ∀ x, x ∈ l → leaf x.
  Proof.
    induction fuel as [|fuel IH]; intros c ign ft Hc Hm; [lia|]. cbn [clause_trail].
    case_decide as Hi.
    { exists [], ign, ft. split; [done|]. split; [done|]. split; [done|]. by intros ? ?%elem_of_nil. }
    destruct (ft !! c) as [l|] eqn:El.
    { exists l, ({[c]} ∪ ign), ft. split; [done|]. split; [done|]. by apply (Hm c). }
    destruct (learned_of s c) eqn:Ec; cycle 1.
    { eexists _, _, _. split; [done|]. split; [|split; [done|by intros ? ?%elem_of_nil]].
      apply mi_insert; [done|done|]. by intros ? ?%elem_of_nil. }
    destruct (trail_of c Ec) as (t & -> & Ht). cbn [of_option]. rewrite res_bind_ok.
    enough (Hf : ∀ t acc ign ft, (∀ j, j ∈ t → (j < c)%nat ∧ good j) → MI ft → (∀ x, x ∈ acc → leaf x) →
      ∃ l ign' ft', foldM (λ '(acc, (ign, ft)) tc,
                '(l, (ign, ft)) ← (if learned_of s tc then clause_trail s fuel tc (ign, ft)
                                   else Ok ([tc], (ign, ft)));
                Ok (acc ++ l, ({[tc]} ∪ ign, ft))) t (acc, (ign, ft)) = Ok (l, (ign', ft')) ∧ MI ft' ∧ ∀ x, x ∈ l → leaf x).
    { destruct (Hf t [] ({[c]} ∪ ign) ft Ht Hm) as (l & ign' & ft' & -> & Hm' & Hl); [by intros ? ?%elem_of_nil|].
      rewrite res_bind_ok. eexists _, _, _. split; [done|]. split; [|done]. apply mi_insert; [done|congruence|done]. }
    clear t Ht Hi El ign ft Hm. intros t. induction t as [|tc t IHt]; intros acc ign ft Ht Hm Ha.
    { exists acc, ign, ft. done. }
    cbn [foldM]. destruct (Ht tc) as [Hlt Hg]; [left|].
    assert (∃ l ign' ft', (if learned_of s tc then clause_trail s fuel tc (ign, ft) else Ok ([tc], (ign, ft)))
              = Ok (l, (ign', ft')) ∧ MI ft' ∧ ∀ x, x ∈ l → leaf x) as (l & ign' & ft' & -> & Hm' & Hl).
    { destruct (learned_of s tc) eqn:Et.
      - destruct (IH tc ign ft) as (l & ign' & ft' & -> & ? & _ & ?); [lia|done|]. eauto 10.
      - eexists _, _, _. split; [done|]. split; [done|]. intros x ->%elem_of_list_singleton. done. }
    rewrite !res_bind_ok. apply IHt; [intros; apply Ht; by right|done|].
    intros x [?|?]%elem_of_app; auto.
  Qed.

  Definition MC (cr : memo) : Prop := ∀ c l, cr !! c = Some l → ∀ x, x ∈ l → det x.
  Lemma mc_insert cr c l : MC cr → (∀ x, x ∈ l → det x) → MC (<[c := l]> cr).
  Proof.
    intros H H1 c' l'. destruct (decide (c' = c)) as [->|].
    - rewrite lookup_insert. by intros [= <-].
    - rewrite lookup_insert_ne by done. apply H.
  Qed.
  Lemma has_reqs_learned c : has_reqs s c = true → learned_of s c = false.
  Proof.
    unfold has_reqs, rule_of, learned_of. destruct (s_heap s !! c) as [cl|] eqn:E; [|done]. cbn.
    destruct (uo_prov _ _ _ _ Hu c cl E) as [(_ & ? & _)|[(_ & ? & _)|(_ & -> & _)]]; [done..|]. done.
  Qed.

  Lemma leaf_requirements fuel c ign cr ft : leaf c → MC cr → MI ft →
    ∃ l ign' cr', clause_requirements s (S fuel) c (ign, (cr, ft)) = Ok (l, (ign', (cr', ft))) ∧ MC cr' ∧
      ∀ x, x ∈ l → det x.
  Proof.
    intros [Hg Hl] Hc Hm. cbn [clause_requirements]. case_decide.
    { eexists _, _, _. split; [done|]. split; [done|]. by intros ? ?%elem_of_nil. }
    destruct (cr !! c) as [l|] eqn:E.
    { eexists _, _, _. split; [done|]. split; [done|]. by apply (Hc c). }
    rewrite Hl.
    assert (Hd : ∀ x, x ∈ (if has_reqs s c then [c] else []) → det x).
    { destruct (has_reqs s c) eqn:Eh; [|by intros ? ?%elem_of_nil]. by intros x ->%elem_of_list_singleton. }
    eexists _, _, _. split; [done|]. split; [by apply mc_insert|done].
  Qed.

  Lemma clause_requirements_spec fuel c ign cr ft :
    (learned_of s c = true ∨ leaf c) → (S c < fuel)%nat → MC cr → MI ft →
    ∃ l ign' cr' ft', clause_requirements s fuel c (ign, (cr, ft)) = Ok (l, (ign', (cr', ft'))) ∧ MC cr' ∧ MI ft' ∧
      ∀ x, x ∈ l → det x.
  Proof.
    intros Hc Hf Hmc Hmi. destruct fuel as [|[|fuel]]; [lia..|].
    destruct (learned_of s c) eqn:El; cycle 1.
    { destruct Hc as [|Hc]; [done|].
      destruct (leaf_requirements (S fuel) c ign cr ft Hc Hmc Hmi) as (l & ign' & cr' & -> & ? & ?). eauto 10. }
    clear Hc. remember (S fuel) as f eqn:Ef. cbn [clause_requirements]. case_decide.
    { eexists _, _, _, _. split; [done|]. split; [done|]. split; [done|]. by intros ? ?%elem_of_nil. }
    destruct (cr !! c) as [l|] eqn:E.
    { eexists _, _, _, _. split; [done|]. split; [done|]. split; [done|]. by apply (Hmc c). }
    rewrite El.
    assert (has_reqs s c = false) as ->.
    { destruct (has_reqs s c) eqn:Eh; [|done]. apply has_reqs_learned in Eh. congruence. }
    destruct (clause_trail_spec f c ∅ ft) as (t & ign1 & ft1 & -> & Hm1 & _ & Ht); [lia|done|].
    rewrite res_bind_ok.
    enough (Hfo : ∀ t acc ign cr, (∀ x, x ∈ t → leaf x) → MC cr → (∀ x, x ∈ acc → det x) →
      ∃ l ign' cr', foldM (λ '(acc, st) c',
                '(l, st) ← clause_requirements s f c' st;
                Ok (acc ++ l, st)) t (acc, (ign, (cr, ft1))) = Ok (l, (ign', (cr', ft1))) ∧ MC cr' ∧
                ∀ x, x ∈ l → det x).
    { destruct (Hfo t [] ({[c]} ∪ ign) cr Ht Hmc) as (l & ign' & cr' & -> & ? & ?); [by intros ? ?%elem_of_nil|].
      rewrite res_bind_ok. eexists _, _, _, _. split; [done|]. split; [by apply mc_insert|]. done. }
    clear t Ht E. intros t. induction t as [|x t IH]; intros acc ign2 cr2 Ht Hm2 Ha.
    { eexists _, _, _. split; [done|]. done. }
    cbn [foldM]. rewrite Ef.
    destruct (leaf_requirements fuel x ign2 cr2 ft1) as (l & ign' & cr' & -> & ? & ?); [apply Ht; left|done..|].
    rewrite !res_bind_ok. rewrite <-Ef. apply IH; [intros; apply Ht; by right|done|].
    intros y [?|?]%elem_of_app; auto.
  Qed.

  (** ** End clauses *)
  Lemma elem_of_end_clauses details imp x : x ∈ end_clauses ord s details imp ↔
    x ∈ details ∧ has_reqs s x = true ∧ (imp ∈ lits_of s x ∨ job_clause s x = Ok true).
  Proof.
    unfold end_clauses. rewrite elem_of_sort_by. rewrite (proj2 (Ho _)), elem_of_list_to_set, elem_of_list_filter.
    rewrite andb_true_iff, orb_true_iff, bool_decide_eq_true.
    assert ((match job_clause s x with Ok b => b | Raise _ => false end = true) ↔ job_clause s x = Ok true) as ->.
    { destruct (job_clause s x) as [[]|]; split; done. }
    tauto.
  Qed.
  Lemma nodup_end_clauses details imp : NoDup (end_clauses ord s details imp).
  Proof. unfold end_clauses. apply sort_by_nodup. apply Ho. Qed.

  (** ** Neighbours *)
  Definition var_in (v : Z) (c : nat) : Prop := v ∈ Z.abs <$> lits_of s c.
  Definition add_lits (c : nat) (m : gmap Z (gset nat)) (lits : list Z) : gmap Z (gset nat) :=
    foldl (λ m l, <[Z.abs l := {[c]} ∪ default ∅ (m !! Z.abs l)]> m) m lits.
  Definition at_var (m : gmap Z (gset nat)) (v : Z) : gset nat := default ∅ (m !! v).
  Lemma ltc_inner c lits : ∀ m v,
    (∀ x, x ∈ at_var (add_lits c m lits) v ↔ (x = c ∧ v ∈ Z.abs <$> lits) ∨ x ∈ at_var m v) ∧
    (is_Some (add_lits c m lits !! v) ↔ v ∈ Z.abs <$> lits ∨ is_Some (m !! v)).
  Proof.
    induction lits as [|l lits IH]; intros m v.
    - unfold add_lits. cbn [foldl fmap list_fmap]. split; [intros x|]; rewrite elem_of_nil; tauto.
    - change (add_lits c m (l :: lits)) with (add_lits c (<[Z.abs l := {[c]} ∪ default ∅ (m !! Z.abs l)]> m) lits).
      destruct (IH (<[Z.abs l := {[c]} ∪ default ∅ (m !! Z.abs l)]> m) v) as [H1 H2].
      split; [intros x; rewrite H1|rewrite H2]; clear H1 H2 IH; rewrite ?fmap_cons, ?elem_of_cons.
      + unfold at_var. destruct (decide (v = Z.abs l)) as [->|Hv].
        * rewrite lookup_insert. cbn [default from_option]. unfold id. rewrite elem_of_union, elem_of_singleton. tauto.
        * rewrite lookup_insert_ne by done. tauto.
      + destruct (decide (v = Z.abs l)) as [->|Hv].
        * rewrite lookup_insert. split; [tauto|]. intros _. right. eauto.
        * rewrite lookup_insert_ne by done. tauto.
  Qed.
  Lemma ltc_spec rel : ∀ m v,
    let m' := foldl (λ m c, add_lits c m (lits_of s c)) m rel in
    (∀ x, x ∈ at_var m' v ↔ (x ∈ rel ∧ var_in v x) ∨ x ∈ at_var m v) ∧
    (is_Some (m' !! v) ↔ (∃ x, x ∈ rel ∧ var_in v x) ∨ is_Some (m !! v)).
  Proof.
    induction rel as [|c rel IH]; intros m v; cbn [foldl].
    - split; [intros x; rewrite elem_of_nil; tauto|]. split; [by right|]. intros [(x & Hx & _)|?]; [|done].
      by apply elem_of_nil in Hx.
    - destruct (IH (add_lits c m (lits_of s c)) v) as [H1 H2].
      destruct (ltc_inner c (lits_of s c) m v) as [H3 H4].
      cbn zeta in *. split.
      + intros x. rewrite H1, H3, elem_of_cons. unfold var_in. split.
        * intros [[? ?]|[[-> ?]|?]]; auto.
        * intros [[[->|?] ?]|?]; auto.
      + rewrite H2, H4. split.
        * intros [(x & ? & ?)|[?|?]]; [left; exists x; split; [by right|done]|left; exists c; split; [left|done]|by right].
        * intros [(x & [->|?]%elem_of_cons & ?)|?]; [auto|left; eauto|auto].
  Qed.
  Lemma ltc_elem rel v x : x ∈ at_var (lit_to_clauses s rel) v ↔ x ∈ rel ∧ var_in v x.
  Proof.
    destruct (ltc_spec rel ∅ v) as [H _]. cbn zeta in H. etrans; [apply H|]. unfold at_var. rewrite lookup_empty. cbn.
    split; [|by left]. by intros [?|?%elem_of_empty].
  Qed.
  Lemma ltc_some rel v : is_Some (lit_to_clauses s rel !! v) ↔ ∃ x, x ∈ rel ∧ var_in v x.
  Proof.
    destruct (ltc_spec rel ∅ v) as [_ H]. cbn zeta in H. etrans; [apply H|]. rewrite lookup_empty. split; [|by left].
    intros [?|[? ?]]; done.
  Qed.

  Definition share (a b : nat) : Prop := ∃ v, var_in v a ∧ var_in v b.
  Lemma get_neighbors_spec rel c : c ∈ rel → lits_of s c ≠ [] →
    ∃ l, get_neighbors ord s (lit_to_clauses s rel) c = Ok l ∧ ∀ x, x ∈ l ↔ x ∈ rel ∧ share c x.
  Proof.
    intros Hc Hne. unfold get_neighbors.
    destruct (mapM_res_ok (λ l, of_option KeyError (lit_to_clauses s rel !! Z.abs l))
      (λ l X, lit_to_clauses s rel !! Z.abs l = Some X) (lits_of s c)) as (sets & -> & HF).
    { intros l Hl. destruct (ltc_some rel (Z.abs l)) as [_ [X HX]].
      - exists c. split; [done|]. apply elem_of_list_fmap. eauto.
      - exists X. by rewrite HX. }
    rewrite res_bind_ok. destruct sets as [|X sets].
    { apply Forall2_nil_inv_r in HF. done. }
    eexists. split; [done|]. intros x. rewrite elem_of_sort_by, (proj2 (Ho _)), elem_of_union_list. split.
    - intros (Y & HY & Hx). apply elem_of_list_lookup in HY as [i Hi].
      destruct (Forall2_lookup_r _ _ _ _ _ HF Hi) as (l & Hl & El).
      destruct (ltc_elem rel (Z.abs l) x) as [Hel _]. unfold at_var in Hel. rewrite El in Hel. destruct (Hel Hx) as [? Hv].
      split; [done|]. exists (Z.abs l). split; [|done]. apply elem_of_list_fmap. exists l. split; [done|].
      by eapply elem_of_list_lookup_2.
    - intros (Hx & v & Hv & Hvx). apply elem_of_list_fmap in Hv as (l & -> & Hl).
      apply elem_of_list_lookup in Hl as [i Hi]. destruct (Forall2_lookup_l _ _ _ _ _ HF Hi) as (Y & HY & El).
      exists Y. split; [by eapply elem_of_list_lookup_2|].
      destruct (ltc_elem rel (Z.abs l) x) as [_ Hel]. unfold at_var in Hel. rewrite El in Hel. by apply Hel.
  Qed.

  (** ** Paths *)
  Record GoodPath (rel ends p : list nat) : Prop := {
    gp_in : ∀ x, x ∈ p → x ∈ rel;
    gp_step : ∀ k a b, p !! k = Some a → p !! S k = Some b → share a b;
    gp_start : ∃ x, head p = Some x ∧ x ∈ ends;
    gp_end : ∃ x, last p = Some x ∧ x ∈ ends }.

  Lemma path_good nb start p x (rel : list nat) : (∀ c y, c ∈ rel → y ∈ nb c → y ∈ rel ∧ share c y) → start ∈ rel →
    path_to nb start p x → (∀ y, y ∈ p → y ∈ rel) ∧ head p = Some start ∧ last p = Some x ∧ x ∈ rel ∧
    ∀ k a b, p !! k = Some a → p !! S k = Some b → share a b.
  Proof.
    intros Hnb Hs. induction 1 as [|p x y Hp (H1 & H2 & H3 & H4 & H5) Hy].
    - split; [by intros y ->%elem_of_list_singleton|]. split; [done|]. split; [done|]. split; [done|].
      intros k a b _ Hb. by destruct k.
    - destruct (Hnb _ _ H4 Hy) as [Hy1 Hy2]. split; [|split; [|split; [|split]]].
      + intros z [?| ->%elem_of_list_singleton]%elem_of_app; auto.
      + destruct p; [done|]. done.
      + by rewrite last_snoc.
      + done.
      + intros k a b Ha Hb. apply lookup_app_Some in Hb as [Hb|[Hl Hb]].
        * rewrite lookup_app_l in Ha; [by eapply H5|]. apply lookup_lt_Some in Hb. lia.
        * apply list_lookup_singleton_Some in Hb as [Hk <-].
          rewrite lookup_app_l in Ha by lia. rewrite last_lookup in H3.
          replace (pred (length p)) with k in H3 by lia. rewrite Ha in H3. injection H3 as ->. done.
  Qed.

  Lemma all_searches_spec nb (rel : list nat) fuel : (∀ c y, c ∈ rel → y ∈ nb c → y ∈ rel ∧ share c y) →
    (S (S (length rel)) < fuel)%nat → ∀ ends, (∀ x, x ∈ ends → x ∈ rel) →
    ∃ ps, all_searches nb fuel ends = Ok ps ∧ ∀ p, p ∈ ps → GoodPath rel ends p.
  Proof.
    intros Hnb Hf. induction ends as [|st rest IH]; intros He.
    { exists []. split; [done|]. by intros ? ?%elem_of_nil. }
    destruct IH as (ps & Eps & Hps); [intros; apply He; by right|].
    destruct rest as [|r2 rest2] eqn:Er.
    { exists []. split; [done|]. by intros ? ?%elem_of_nil. }
    rewrite <-Er in *. assert (Est : all_searches nb fuel (st :: rest) =
      (ps ← breadth_first_search nb (λ x, x) fuel st (list_to_set rest : gset nat);
        more ← all_searches nb fuel rest; Ok (ps ++ more))) by (by rewrite Er).
    rewrite Est. clear Est.
    assert (Hst : st ∈ rel) by (apply He; left).
    destruct (bfs_spec nb (λ x, x) st (list_to_set rel) fuel (list_to_set rest)) as (paths & ts & -> & HF & _ & Hts).
    { intros k x (p & Hp & _)%walk_path. apply elem_of_list_to_set.
      by apply (path_good nb st p x rel Hnb Hst) in Hp as (_ & _ & _ & ? & _). }
    { assert (size (list_to_set rel : gset nat) ≤ length rel)%nat by apply size_list_to_set_le. lia. }
    rewrite res_bind_ok, Eps, res_bind_ok. eexists. split; [done|].
    intros p [Hp|Hp]%elem_of_app.
    - apply elem_of_list_lookup in Hp as [i Hi]. destruct (Forall2_lookup_l _ _ _ _ _ HF Hi) as (t & Ht & Hsh).
      assert (Htt : t ∈ ts) by by eapply elem_of_list_lookup_2.
      apply Hts in Htt as [Htt _]. apply elem_of_list_to_set in Htt.
      destruct Hsh as (x & Hpt & <- & _).
      destruct (path_good nb st p x rel Hnb Hst Hpt) as (K1 & K2 & K3 & K4 & K5).
      split; [done|done| |].
      + exists st. split; [done|left].
      + exists x. split; [done|by right].
    - destruct (Hps p Hp) as [K1 K2 (x & ? & ?) (y & ? & ?)]. split; [done|done| |].
      + exists x. split; [done|by right].
      + exists y. split; [done|by right].
  Qed.

  Lemma elem_of_fresh ps : ∀ seen p, p ∈ fresh_paths seen ps → p ∈ ps.
  Proof.
    induction ps as [|q ps IH]; intros seen p; [done|]. cbn. destruct (forallb _ q).
    - intros Hp. right. eauto.
    - intros [->|Hp]%elem_of_cons; [left|right; eauto].
  Qed.
  Lemma elem_of_first_group l : ∀ p, p ∈ first_group l → ∃ n, (n, p) ∈ l.
  Proof.
    induction l as [|[n q] l IH]; intros p; [by intros ?%elem_of_nil|]. cbn [first_group].
    intros [->|Hp]%elem_of_cons; [exists n; left|].
    destruct l as [|[m q'] l]; [by apply elem_of_nil in Hp|].
    destruct (n =? m)%nat; [|by apply elem_of_nil in Hp].
    apply IH in Hp as [k Hk]. exists k. by right.
  Qed.

  Lemma has_reqs_rule x : has_reqs s x = true → ∃ r, rule_of s x = Some r ∧ ru_reqs r ≠ [].
  Proof.
    unfold has_reqs. destruct (rule_of s x) as [r|]; [|done]. destruct (ru_reqs r) as [|q qs] eqn:E; [done|].
    intros _. exists r. split; [done|]. by rewrite E.
  Qed.

  Lemma best_paths_spec raw : (∀ p x, p ∈ raw → x ∈ p → has_reqs s x = true) →
    ∃ ps, best_paths s raw = Ok ps ∧ ∀ p, p ∈ ps → p ∈ raw.
  Proof.
    intros Hr. unfold best_paths.
    destruct (mapM_res_ok (λ p, n ← jobs_in_path s p; Ok (n, p)) (λ p kv, kv.2 = p) raw) as (keyed & -> & HF).
    { intros p Hp. unfold jobs_in_path.
      destruct (mapM_res_ok (job_clause s) (λ _ _, True) p) as (bs & -> & _).
      { intros x Hx. destruct (has_reqs_rule x (Hr p x Hp Hx)) as (r & Er & _).
        unfold job_clause. rewrite Er. eauto. }
      rewrite !res_bind_ok. eauto. }
    rewrite res_bind_ok. eexists. split; [done|]. intros p Hp. apply elem_of_fresh in Hp.
    rewrite elem_of_sort_by in Hp. apply elem_of_first_group in Hp as [n Hn]. rewrite elem_of_sort_by in Hn.
    apply elem_of_list_lookup in Hn as [i Hi]. destruct (Forall2_lookup_r _ _ _ _ _ HF Hi) as (q & Hq & <-).
    by eapply elem_of_list_lookup_2.
  Qed.

  Lemma det_lits x : det x → lits_of s x ≠ [].
  Proof.
    intros [[Hg _] Hr]. destruct Hg as [->|[Hx| ->]].
    - exfalso. unfold has_reqs, rule_of in Hr. destruct (s_heap s !! 0%nat) as [cl|] eqn:E; [|done].
      cbn in Hr. destruct (uo_prov _ _ _ _ Hu _ _ E) as [(_ & _ & El)|[(? & _)|(_ & El & _)]]; [|done|];
      rewrite El in Hr; done.
    - by apply (uo_cls _ _ _ _ Hu).
    - destruct (uo_unit _ _ _ _ Hu) as (x & _ & Ex & _). change (hl (s_heap s) l0 ≠ []). by rewrite Ex.
  Qed.

  Lemma find_conflict_paths_spec (ends rel : list nat) : (∀ x, x ∈ rel → det x) → (∀ x, x ∈ ends → x ∈ rel) →
    ∃ ps, find_conflict_paths ord s ends rel = Ok ps ∧
      ∀ p, p ∈ ps → p = [] ∨ GoodPath rel ends p.
  Proof.
    intros Hd He. unfold find_conflict_paths. case_decide as Hlen.
    { eexists. split; [done|]. intros p ->%elem_of_list_singleton. destruct ends as [|x [|]]; cbn in Hlen; [by left| |lia].
      right. split.
      - done.
      - intros k a b _ Hb. by destruct k.
      - exists x. split; [done|left].
      - exists x. split; [done|left]. }
    destruct (mapM_res_ok (λ c, l ← get_neighbors ord s (lit_to_clauses s rel) c; Ok (c, l))
      (λ c kv, kv.1 = c ∧ ∀ x, x ∈ kv.2 ↔ x ∈ rel ∧ share c x) (fromkeys rel)) as (nbs & -> & HF).
    { intros c Hc. rewrite elem_of_fromkeys in Hc.
      destruct (get_neighbors_spec rel c Hc) as (l & -> & Hl); [by apply det_lits, Hd|].
      rewrite res_bind_ok. exists (c, l). done. }
    rewrite res_bind_ok.
    set (nb := λ c, default [] ((list_to_map nbs : gmap nat (list nat)) !! c)).
    assert (Hnb : ∀ c y, c ∈ rel → y ∈ nb c → y ∈ rel ∧ share c y).
    { intros c y Hc Hy. unfold nb in Hy.
      destruct ((list_to_map nbs : gmap nat (list nat)) !! c) as [l|] eqn:E; [|by apply elem_of_nil in Hy].
      apply elem_of_list_to_map_2 in E. apply elem_of_list_lookup in E as [i Hi].
      destruct (Forall2_lookup_r _ _ _ _ _ HF Hi) as (c' & _ & Ec & Hx). cbn in Ec, Hx, Hy. subst c'.
      by apply Hx. }
    destruct (all_searches_spec nb rel (S (S (S (length rel)))) Hnb ltac:(lia) ends He) as (raw & -> & Hraw).
    rewrite res_bind_ok.
    destruct (best_paths_spec raw) as (ps & -> & Hps).
    { intros p x Hp Hx. apply Hd. by apply (gp_in _ _ _ (Hraw p Hp)). }
    exists ps. split; [done|]. intros p Hp. right. auto.
  Qed.

  (** ** The report *)
  Record GoodReport (rp : report) : Prop := {
    gr_details : ∀ x, x ∈ rp_details rp → det x;
    gr_paths : ∀ p, p ∈ rp_paths rp → p = [] ∨ GoodPath (rp_details rp) (end_clauses ord s (rp_details rp) (rp_implicand rp)) p;
    gr_imp : hl (s_heap s) l0 = [- rp_implicand rp];
    gr_memo : MI (rp_flat rp) }.

  Lemma good_reqs x ign cr ft : good x → MC cr → MI ft →
    ∃ l ign' cr' ft', clause_requirements s (S (S (length (s_heap s)))) x (ign, (cr, ft)) = Ok (l, (ign', (cr', ft'))) ∧
      MC cr' ∧ MI ft' ∧ ∀ y, y ∈ l → det y.
  Proof.
    intros Hx. apply clause_requirements_spec.
    - destruct (learned_of s x) eqn:E; [by left|right; done].
    - apply good_range in Hx. lia.
  Qed.

  Lemma unsat_report_spec : ∃ rp, unsat_report ord s c0 l0 = Ok rp ∧ GoodReport rp.
  Proof.
    unfold unsat_report. destruct (uo_unit _ _ _ _ Hu) as (x & ic & Ex & Eic & Hic).
    change (lits_of s l0) with (hl (s_heap s) l0). rewrite Ex.
    rewrite Z.abs_opp, Eic. cbn [of_option]. rewrite res_bind_ok.
    destruct (good_reqs ic ∅ ∅ ∅) as (l1 & ? & cr1 & ft1 & -> & Hc1 & Hm1 & Hl1).
    { right; by left. } { intros ? ? [=]. } { intros ? ? [=]. }
    rewrite res_bind_ok.
    destruct (good_reqs l0 ∅ cr1 ft1) as (l2 & ? & cr2 & ft2 & -> & Hc2 & Hm2 & Hl2); [by right; right|done..|].
    rewrite res_bind_ok.
    destruct (good_reqs c0 ∅ cr2 ft2) as (l3 & ? & cr3 & ft3 & -> & Hc3 & Hm3 & Hl3); [|done..|].
    { destruct (uo_c _ _ _ _ Hu) as [?|?]; right; auto. }
    rewrite res_bind_ok. cbn [snd].
    assert (Hd : ∀ y, y ∈ l1 ++ l2 ++ l3 → det y) by (intros y; rewrite !elem_of_app; intros [?|[?|?]]; auto).
    destruct (find_conflict_paths_spec (end_clauses ord s (l1 ++ l2 ++ l3) (- x)) (l1 ++ l2 ++ l3) Hd)
      as (ps & -> & Hps).
    { intros y Hy. by apply elem_of_end_clauses in Hy as [? _]. }
    rewrite res_bind_ok. eexists. split; [done|]. split; cbn; [done|done| |done].
    by rewrite Z.opp_involutive.
  Qed.

  Lemma report_det rp x : GoodReport rp → x ∈ mjoin (rp_paths rp) → det x.
  Proof.
    intros [H1 H2 _ _] (p & Hx & Hp)%elem_of_list_join. destruct (H2 p Hp) as [->|G]; [by apply elem_of_nil in Hx|].
    by apply H1, (gp_in _ _ _ G).
  Qed.

  (** A clause with requirements comes from a rule of the problem, with the same literals. *)
  Lemma det_rule x : det x → ∃ r lits, rule_of s x = Some r ∧ (lits, Some r) ∈ R ∧ ru_reqs r ≠ [] ∧
    ∀ l, l ∈ lits_of s x ↔ l ∈ lits.
  Proof.
    intros Hd. pose proof Hd as [[Hg Hl] Hr]. destruct (has_reqs_rule x Hr) as (r & Er & Hne).
    unfold rule_of in Er. destruct (s_heap s !! x) as [cl|] eqn:E; [|done]. cbn in Er.
    destruct (uo_prov _ _ _ _ Hu x cl E) as [(_ & _ & ?)|[(_ & _ & c & Hc & Hx)|(_ & ? & _)]]; [congruence| |congruence].
    rewrite Er in Hc. exists r, c. unfold rule_of, lits_of. rewrite E. done.
  Qed.

  Lemma rule_eq_refl r : rule_eq r r = true.
  Proof. unfold rule_eq. by apply bool_decide_eq_true. Qed.
  Lemma rule_eq_trans a b c : rule_eq a b = true → rule_eq b c = true → rule_eq a c = true.
  Proof. unfold rule_eq. rewrite !bool_decide_eq_true. congruence. Qed.
  Lemma req_eqb_refl r : req_eqb r r = true.
  Proof. unfold req_eqb. by apply bool_decide_eq_true. Qed.
  Lemma req_eqb_trans a b c : req_eqb a b = true → req_eqb b c = true → req_eqb a c = true.
  Proof. unfold req_eqb. rewrite !bool_decide_eq_true. intros [-> ->] [-> ->]. done. Qed.

  Lemma report_rules_spec rp : GoodReport rp → ∃ rs, report_rules s rp = Ok rs ∧
    (∀ r, r ∈ rs → ∃ x, x ∈ mjoin (rp_paths rp) ∧ rule_of s x = Some r) ∧
    (∀ x, x ∈ mjoin (rp_paths rp) → ∃ r r', rule_of s x = Some r' ∧ r ∈ rs ∧ ru_lits r = ru_lits r').
  Proof.
    intros G. unfold report_rules.
    destruct (mapM_res_ok (λ c, of_option AttributeError (rule_of s c)) (λ c r, rule_of s c = Some r)
      (mjoin (rp_paths rp))) as (rs & -> & HF).
    { intros x Hx. destruct (det_rule x (report_det rp x G Hx)) as (r & _ & -> & _). eauto. }
    rewrite res_bind_ok. eexists. split; [done|]. split.
    - intros r Hr. apply elem_of_fromkeys_by, elem_of_list_lookup in Hr as [i Hi].
      destruct (Forall2_lookup_r _ _ _ _ _ HF Hi) as (x & Hx & Ex). exists x. split; [by eapply elem_of_list_lookup_2|done].
    - intros x Hx. apply elem_of_list_lookup in Hx as [i Hi].
      destruct (Forall2_lookup_l _ _ _ _ _ HF Hi) as (r' & Hr' & Ex).
      apply elem_of_list_lookup_2 in Hr'.
      destruct (fromkeys_by_rep rule_eq rs r' rule_eq_refl rule_eq_trans Hr') as (r & Hr & E).
      exists r, r'. split; [done|]. split; [done|]. unfold rule_eq in E. by apply bool_decide_eq_true in E.
  Qed.

  Lemma report_requirements_spec rp : GoodReport rp → ∃ rs qs, report_rules s rp = Ok rs ∧
    report_requirements s rp = Ok qs ∧
    (∀ q, q ∈ qs → ∃ r, r ∈ rs ∧ ru_reqs r !! 0%nat = Some q) ∧
    (∀ r, r ∈ rs → ∃ q q', ru_reqs r !! 0%nat = Some q' ∧ q ∈ qs ∧ req_eqb q q' = true).
  Proof.
    intros G. destruct (report_rules_spec rp G) as (rs & Er & H1 & H2). unfold report_requirements. rewrite Er, res_bind_ok.
    destruct (mapM_res_ok (λ r, of_option IndexError (ru_reqs r !! 0%nat)) (λ r q, ru_reqs r !! 0%nat = Some q) rs)
      as (qs & -> & HF).
    { intros r Hr. destruct (H1 r Hr) as (x & Hx & Ex).
      destruct (det_rule x (report_det rp x G Hx)) as (r' & _ & Ex' & _ & Hne & _). rewrite Ex in Ex'. injection Ex' as <-.
      destruct (ru_reqs r) as [|q ?]; [done|]. exists q. done. }
    rewrite res_bind_ok. eexists _, _. split; [done|]. split; [done|]. split.
    - intros q Hq. apply elem_of_fromkeys_by, elem_of_list_lookup in Hq as [i Hi].
      destruct (Forall2_lookup_r _ _ _ _ _ HF Hi) as (r & Hr & E). exists r. split; [by eapply elem_of_list_lookup_2|done].
    - intros r Hr. apply elem_of_list_lookup in Hr as [i Hi].
      destruct (Forall2_lookup_l _ _ _ _ _ HF Hi) as (q' & Hq' & E). apply elem_of_list_lookup_2 in Hq'.
      destruct (fromkeys_by_rep req_eqb qs q' req_eqb_refl req_eqb_trans Hq') as (q & Hq & Eq).
      exists q, q'. done.
  Qed.

  Lemma path_clauses_spec rp path : GoodReport rp → path ∈ rp_paths rp →
    path_clauses s rp path = Ok (fromkeys_by (λ a b, bool_decide (clause_key s a = clause_key s b)) path).
  Proof.
    intros G Hp. unfold path_clauses.
    assert (Hd : ∀ x, x ∈ path → det x).
    { intros x Hx. apply (report_det rp x G). apply elem_of_list_join. eauto. }
    enough (H : ∀ l acc ft, (∀ x, x ∈ l → det x) → MI ft → ∃ ft',
      foldM (λ '(acc, ft) c,
      '(l, (_, ft)) ← clause_trail s (S (S (length (s_heap s)))) c (∅, ft);
      Ok (acc ++ (match l with [] => [c] | _ => l end), ft)) l (acc, ft) = Ok (acc ++ l, ft')).
    { destruct (H path [] (rp_flat rp) Hd (gr_memo _ G)) as (ft' & ->). done. }
    clear path Hp Hd. induction l as [|c l IH]; intros acc ft Hl Hm.
    { exists ft. by rewrite app_nil_r. }
    cbn [foldM]. destruct (Hl c) as [[Hg Hlf] _]; [left|].
    destruct (clause_trail_spec (S (S (length (s_heap s)))) c ∅ ft) as (t & ign & ft1 & -> & Hm1 & Ht & _).
    { apply good_range in Hg. lia. } { done. }
    rewrite !res_bind_ok. rewrite (Ht Hlf).
    destruct (IH (acc ++ [c]) ft1) as (ft' & ->); [intros; apply Hl; by right|done|].
    exists ft'. by rewrite <-(assoc_L (++)).
  Qed.
End proofs.
