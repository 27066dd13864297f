(** * Repository: what iteration and lookup yield. *)
From Verif Require Export Repository SortUniq ConstraintProofs.

Lemma ver_ltb_false a b : ver_ltb a b = false ↔ vle b a.
Proof.
  rewrite <-not_true_iff_false, ver_ltb_vlt, vle_iff. unfold vlt. lia.
Qed.
Lemma pkg_ver_lt_irrefl p : pkg_ver_lt p p = false.
Proof. unfold pkg_ver_lt. rewrite ver_ltb_false, vle_iff. lia. Qed.
Lemma pkg_ver_lt_asym p q : pkg_ver_lt p q = true → pkg_ver_lt q p = false.
Proof. unfold pkg_ver_lt. rewrite ver_ltb_false, ver_ltb_vlt, vle_iff. unfold vlt. lia. Qed.
Lemma pkg_ver_lt_cotrans p q r : pkg_ver_lt q p = false → pkg_ver_lt r q = false → pkg_ver_lt r p = false.
Proof. unfold pkg_ver_lt. rewrite !ver_ltb_false, !vle_iff. lia. Qed.
Lemma keq_ver p q : keq pkg_ver_lt p q ↔ p_version p = p_version q.
Proof.
  unfold keq, pkg_ver_lt. rewrite !ver_ltb_false, !vle_iff. split; [|intros ->; lia].
  destruct (p_version p), (p_version q); cbn. intros [??]. f_equal; lia.
Qed.

(** Name, then version. *)
Definition repo_lt (p q : package) : bool :=
  str_ltb (p_name p) (p_name q) || (bool_decide (p_name p = p_name q) && pkg_ver_lt p q).
Lemma repo_lt_irrefl p : repo_lt p p = false.
Proof. unfold repo_lt. by rewrite str_ltb_irrefl, pkg_ver_lt_irrefl, andb_false_r. Qed.
Lemma repo_lt_false p q : repo_lt p q = false ↔
  str_ltb (p_name q) (p_name p) = true ∨ (p_name p = p_name q ∧ pkg_ver_lt p q = false).
Proof.
  unfold repo_lt. rewrite orb_false_iff, andb_false_iff, bool_decide_eq_false.
  destruct (str_total (p_name p) (p_name q)) as [H|[H|H]]; rewrite ?H.
  - rewrite (str_ltb_asym _ _ H). split; [intros [? ?]; done|]. intros [?|[E ?]]; [done|].
    rewrite E, str_ltb_irrefl in H. done.
  - rewrite str_ltb_irrefl. naive_solver.
  - split; [by left|]. intros _. split; [by apply str_ltb_asym|]. left. intros E.
    rewrite E, str_ltb_irrefl in H. done.
Qed.
Lemma repo_lt_asym p q : repo_lt p q = true → repo_lt q p = false.
Proof.
  unfold repo_lt at 1. rewrite repo_lt_false, orb_true_iff, andb_true_iff, bool_decide_eq_true.
  intros [?|[-> ?]]; [by left|right]. split; [done|by apply pkg_ver_lt_asym].
Qed.
Lemma repo_lt_cotrans p q r : repo_lt q p = false → repo_lt r q = false → repo_lt r p = false.
Proof.
  rewrite !repo_lt_false. intros [H1|[E1 H1]] [H2|[E2 H2]].
  - left. by eapply str_ltb_trans.
  - left. by rewrite E2.
  - left. by rewrite <-E1.
  - right. split; [congruence|]. by eapply pkg_ver_lt_cotrans.
Qed.
Lemma keq_repo p q : keq repo_lt p q ↔ p_name p = p_name q ∧ p_version p = p_version q.
Proof.
  rewrite <-keq_ver. unfold keq. rewrite !repo_lt_false. split; [|naive_solver].
  intros [[H1|[E1 H1]] [H2|[E2 H2]]].
  - rewrite (str_ltb_asym _ _ H1) in H2. done.
  - rewrite E2, str_ltb_irrefl in H1. done.
  - rewrite E1, str_ltb_irrefl in H2. done.
  - done.
Qed.

(** The packages of one name. *)
Definition named (n : string) (ps : list package) : list package := filter (λ p, p_name p = n) ps.

Lemma repo_of_map ps n : rp_map (repo_of ps) !! n =
  match named n ps with [] => None | l => Some (sort_by pkg_ver_lt l) end.
Proof.
  unfold repo_of, repo_update. induction ps as [|p ps IH] using rev_ind; [done|].
  rewrite foldl_app. cbn [foldl]. set (r := foldl add_package repo_empty ps) in *.
  unfold named in *. rewrite filter_app. unfold add_package. cbn [rp_map].
  destruct (decide (p_name p = n)) as [<-|Hn].
  - rewrite lookup_insert, IH. rewrite (filter_cons_True _ p) by done. rewrite filter_nil.
    destruct (filter _ ps) as [|q l]; [done|].
    change (default [] (Some (sort_by pkg_ver_lt (q :: l)))) with (sort_by pkg_ver_lt (q :: l)).
    rewrite (sort_by_app_l pkg_ver_lt pkg_ver_lt_irrefl pkg_ver_lt_asym pkg_ver_lt_cotrans). done.
  - rewrite lookup_insert_ne by done. rewrite IH.
    rewrite (filter_cons_False _ p) by done. rewrite filter_nil, app_nil_r. done.
Qed.

Lemma repo_of_find ps n : find_packages (repo_of ps) n = sort_by pkg_ver_lt (named n ps).
Proof. unfold find_packages. rewrite repo_of_map. by destruct (named n ps). Qed.

Lemma repo_of_names ps :
  (∀ n, n ∈ rp_names (repo_of ps) ↔ n ∈ p_name <$> ps) ∧ NoDup (rp_names (repo_of ps)) ∧
  sorted_by str_ltb (rp_names (repo_of ps)).
Proof.
  induction ps as [|p ps (IH1 & IH2 & IH3)] using rev_ind.
  { split; [done|]. split; constructor. }
  assert (Hm : rp_map (repo_of ps) !! p_name p = None ↔ p_name p ∉ p_name <$> ps).
  { rewrite repo_of_map. unfold named. destruct (filter _ ps) as [|q l] eqn:E.
    - split; [|done]. intros _ (q & Hq & Hin)%elem_of_list_fmap.
      assert (H : q ∈ filter (λ p0, p_name p0 = p_name p) ps) by (by apply elem_of_list_filter).
      rewrite E in H. by apply elem_of_nil in H.
    - split; [done|]. intros Hn. exfalso. apply Hn.
      assert (Hq : q ∈ filter (λ p0, p_name p0 = p_name p) ps) by (rewrite E; left).
      apply elem_of_list_filter in Hq as [<- Hq]. by apply elem_of_list_fmap_1. }
  unfold repo_of, repo_update in *. rewrite foldl_app. cbn [foldl].
  set (r := foldl add_package repo_empty ps) in *.
  unfold add_package. cbn [rp_names]. rewrite fmap_app. cbn [fmap list_fmap].
  destruct (rp_map r !! p_name p) as [l|] eqn:E.
  - assert (Hin : p_name p ∈ p_name <$> ps).
    { destruct (decide (p_name p ∈ p_name <$> ps)) as [|Hn]; [done|]. by apply Hm in Hn. }
    split; [|done]. intros n. rewrite IH1, elem_of_app, elem_of_list_singleton.
    split; [tauto|]. intros [?| ->]; done.
  - assert (Hin := proj1 Hm eq_refl). rewrite <-IH1 in Hin. split; [|split].
    + intros n. rewrite insert_by_perm, elem_of_cons, IH1, elem_of_app, elem_of_list_singleton. tauto.
    + by apply insert_str_nodup.
    + apply insert_by_sorted; [apply str_ltb_asym|apply str_cotrans|done].
Qed.

Lemma mjoin_cons {A} (l : list A) ls : mjoin (l :: ls) = l ++ mjoin ls.
Proof. done. Qed.
Lemma filter_mjoin {A} (P : A → Prop) `{∀ x, Decision (P x)} (ls : list (list A)) :
  filter P (mjoin ls) = mjoin (filter P <$> ls).
Proof. induction ls as [|l ls IH]; [done|]. by rewrite fmap_cons, !mjoin_cons, filter_app, IH. Qed.

Lemma mjoin_one {A B} `{EqDecision A} (f : A → list B) (ns : list A) n :
  NoDup ns → n ∈ ns → (∀ m, m ≠ n → f m = []) → mjoin (f <$> ns) = f n.
Proof.
  intros Hnd Hin Hf. induction Hnd as [|m ns Hm Hnd IH]; [by apply elem_of_nil in Hin|]. rewrite fmap_cons, mjoin_cons.
  destruct (decide (m = n)) as [->|Hne].
  - assert (E : mjoin (f <$> ns) = []).
    { clear IH Hin Hnd. induction ns as [|k ns IH]; [done|]. rewrite fmap_cons, mjoin_cons, IH by (intros ?; apply Hm; by right).
      rewrite Hf; [done|]. intros ->. apply Hm. left. }
    by rewrite E, app_nil_r.
  - rewrite (Hf m) by done. apply IH. apply elem_of_cons in Hin as [->|]; done.
Qed.
Lemma mjoin_nil {A B} (f : A → list B) (ns : list A) :
  (∀ m, m ∈ ns → f m = []) → mjoin (f <$> ns) = [].
Proof.
  induction ns as [|k ns IH]; [done|]. intros Hf. rewrite fmap_cons, mjoin_cons, (Hf k) by left. apply IH.
  intros m Hm. apply Hf. by right.
Qed.

Lemma sorted_by_app {A} (lt : A → A → bool) l k :
  sorted_by lt l → sorted_by lt k → (∀ x y, x ∈ l → y ∈ k → lt y x = false) → sorted_by lt (l ++ k).
Proof.
  unfold sorted_by. intros Hl Hk H. induction Hl as [|x l Hl IH Hx]; cbn; [done|].
  constructor.
  - apply IH. intros. apply H; [by right|done].
  - rewrite Forall_app. split; [done|]. rewrite Forall_forall. intros y Hy. apply H; [left|done].
Qed.

(** Iterating a repository: the stable sort of the added packages by name and version. *)
Lemma repo_iter_sort ps : repo_iter (repo_of ps) = sort_by repo_lt ps.
Proof.
  destruct (repo_of_names ps) as (Hin & Hnd & Hs).
  assert (E : repo_iter (repo_of ps) = mjoin ((λ n, sort_by pkg_ver_lt (named n ps)) <$> rp_names (repo_of ps))).
  { unfold repo_iter. f_equal. apply list_fmap_ext. intros _ n _. apply repo_of_find. }
  rewrite E. apply (sort_by_unique repo_lt repo_lt_irrefl repo_lt_asym repo_lt_cotrans).
  - clear Hin E. revert Hnd Hs. generalize (rp_names (repo_of ps)) as ns. unfold sorted_by at 1.
    induction ns as [|n ns IH]; intros Hnd Hs; [constructor|]. rewrite fmap_cons, mjoin_cons.
    inversion Hs as [|?? Hs' Hall]; subst. inversion Hnd as [|?? Hn Hnd']; subst. rewrite Forall_forall in Hall.
    apply sorted_by_app; [|by apply IH|].
    + assert (H := sort_by_sorted _ pkg_ver_lt_asym pkg_ver_lt_cotrans (named n ps)).
      assert (Hk : Forall (λ p, p_name p = n) (sort_by pkg_ver_lt (named n ps))).
      { rewrite sort_by_perm, Forall_forall. by intros p [? ?]%elem_of_list_filter. }
      revert H Hk. generalize (sort_by pkg_ver_lt (named n ps)). unfold sorted_by.
      induction 1 as [|x l Hl IHl Hx]; intros Hk; [constructor|]. apply Forall_cons in Hk as [Hk1 Hk2].
      constructor; [auto|]. rewrite Forall_forall in Hx, Hk2 |- *. intros y Hy. apply repo_lt_false.
      right. split; [rewrite (Hk2 y Hy); congruence|auto].
    + intros x y [<- _]%elem_of_sort_by%elem_of_list_filter Hy.
      apply elem_of_list_join in Hy as (l & Hy & (m & -> & Hm)%elem_of_list_fmap).
      apply elem_of_sort_by, elem_of_list_filter in Hy as [<- _].
      apply repo_lt_false. left. specialize (Hall _ Hm). cbn in Hall.
      destruct (str_total (p_name x) (p_name y)) as [?|[He|?]]; [done|congruence|congruence].
  - intros x. rewrite filter_mjoin, <-list_fmap_compose.
    assert (Hf : ∀ m, (filter (keq repo_lt x) ∘ (λ n, sort_by pkg_ver_lt (named n ps))) m =
              if decide (m = p_name x) then filter (keq repo_lt x) ps else []).
    { intros m. unfold compose. case_decide as Hm.
      - subst m. rewrite (sort_by_filter pkg_ver_lt).
        + unfold named. rewrite list_filter_filter. apply list_filter_iff. intros p.
          rewrite keq_repo. naive_solver.
        + intros u v [_ Hu]%keq_repo [_ Hv]%keq_repo.
          assert (Hk : keq pkg_ver_lt v u) by (apply keq_ver; congruence). apply Hk.
      - destruct (filter _ _) as [|p l] eqn:Ef; [done|].
        assert (Hp : p ∈ filter (keq repo_lt x) (sort_by pkg_ver_lt (named m ps))) by (rewrite Ef; left).
        apply elem_of_list_filter in Hp as [[Hk _]%keq_repo Hp].
        apply elem_of_sort_by, elem_of_list_filter in Hp as [Hp _]. congruence. }
    rewrite (list_fmap_ext _ (λ m, if decide (m = p_name x) then filter (keq repo_lt x) ps else [])) by (intros; apply Hf).
    destruct (decide (p_name x ∈ rp_names (repo_of ps))) as [Hx|Hx].
    + rewrite (mjoin_one _ _ (p_name x)); [by rewrite decide_True|done|done|].
      intros m Hm. by rewrite decide_False.
    + rewrite mjoin_nil.
      * destruct (filter _ _) as [|p l] eqn:Ef; [done|].
        assert (Hp : p ∈ filter (keq repo_lt x) ps) by (rewrite Ef; left).
        apply elem_of_list_filter in Hp as [[Hk _]%keq_repo Hp]. exfalso. apply Hx, Hin.
        rewrite Hk. by apply elem_of_list_fmap_1.
      * intros m Hm. rewrite decide_False; [done|]. by intros ->.
Qed.

Lemma repo_iter_perm ps : repo_iter (repo_of ps) ≡ₚ ps.
Proof. rewrite repo_iter_sort. apply sort_by_perm. Qed.

Lemma list_sum_perm (l k : list nat) : l ≡ₚ k → list_sum l = list_sum k.
Proof. apply Permutation_list_sum. Qed.
Lemma repo_of_len ps : repo_len (repo_of ps) = length ps.
Proof.
  unfold repo_of, repo_update, repo_len. induction ps as [|p ps IH] using rev_ind; [done|].
  rewrite foldl_app, app_length. cbn [foldl length]. set (r := foldl add_package repo_empty ps) in *.
  unfold add_package. cbn [rp_map].
  destruct (rp_map r !! p_name p) as [l|] eqn:E; cbn [default].
  - rewrite <-(insert_delete_insert (rp_map r)).
    rewrite (list_sum_perm _ _ (fmap_Permutation _ _ _ (map_to_list_insert _ _ _ (lookup_delete _ _)))).
    rewrite <-IH. rewrite <-(insert_delete (rp_map r) _ _ E) at 2.
    rewrite (list_sum_perm _ _ (fmap_Permutation _ _ _ (map_to_list_insert _ _ _ (lookup_delete _ _)))).
    rewrite !fmap_cons. unfold list_sum. cbn [fold_right snd]. rewrite sort_by_length, app_length. cbn [length]. unfold id. lia.
  - rewrite (list_sum_perm _ _ (fmap_Permutation _ _ _ (map_to_list_insert _ _ _ E))).
    rewrite <-IH. rewrite !fmap_cons. unfold list_sum. cbn [fold_right snd]. rewrite sort_by_length. cbn [length app]. lia.
Qed.

Lemma existsb_perm {A} (f : A → bool) l k : l ≡ₚ k → existsb f l = existsb f k.
Proof. induction 1; cbn; [done| |by destruct (f x), (f y)|]; congruence. Qed.
Lemma repo_of_contains ps p : repo_contains (repo_of ps) p = existsb (pkg_eq p) ps.
Proof.
  assert (E : repo_contains (repo_of ps) p = existsb (pkg_eq p) (named (p_name p) ps)).
  { unfold repo_contains. rewrite repo_of_map. destruct (named _ ps) as [|q l] eqn:E; [done|].
    apply existsb_perm, sort_by_perm. }
  rewrite E. unfold named. induction ps as [|q ps IH]; [done|]. rewrite filter_cons.
  case_decide as Hq; cbn [existsb].
  - rewrite IH; [done|]. unfold repo_contains. rewrite repo_of_map. unfold named.
    destruct (filter _ ps) eqn:E'; [done|]. apply existsb_perm, sort_by_perm.
  - rewrite IH.
    + assert (pkg_eq p q = false) as ->; [|done]. apply bool_decide_eq_false. unfold pkg_key. congruence.
    + unfold repo_contains. rewrite repo_of_map. unfold named.
      destruct (filter _ ps) eqn:E'; [done|]. apply existsb_perm, sort_by_perm.
Qed.

Lemma repo_of_find_package ps n v : find_package (repo_of ps) n v =
  match filter (λ p, p_name p = n ∧ p_version p = v) ps with p :: _ => Ok p | [] => Raise NoPackageFound end.
Proof.
  unfold find_package. change (default [] (rp_map (repo_of ps) !! n)) with (find_packages (repo_of ps) n).
  rewrite repo_of_find. rewrite (sort_by_filter pkg_ver_lt).
  - unfold named. rewrite list_filter_filter.
    rewrite (list_filter_iff _ (λ p, p_name p = n ∧ p_version p = v)); [done|]. naive_solver.
  - intros u w Hu Hw. assert (Hk : keq pkg_ver_lt w u) by (apply keq_ver; congruence). apply Hk.
Qed.
