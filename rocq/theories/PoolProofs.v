(** * Pool: ids and providers. *)
From Verif Require Export Pool RepositoryProofs SpecInstall.

Lemma foldM_app {A B} (f : B → A → res B) l k b :
  foldM f (l ++ k) b = (b' ← foldM f l b; foldM f k b').
Proof. revert b. induction l as [|x l IH]; intros b; cbn; [done|]. destruct (f b x); cbn; auto. Qed.

Lemma foldM_snoc_inv {A B} (f : B → A → res B) l x b r :
  foldM f (l ++ [x]) b = Ok r → ∃ b', foldM f l b = Ok b' ∧ f b' x = Ok r.
Proof.
  rewrite foldM_app. destruct (foldM f l b) as [b'|]; cbn; [|done]. intros H. exists b'. split; [done|].
  by destruct (f b' x).
Qed.

Lemma mapM_res_ok {A B} (f : A → res B) (g : A → B) l :
  (∀ x, x ∈ l → f x = Ok (g x)) → mapM_res f l = Ok (g <$> l).
Proof.
  induction l as [|x l IH]; intros H; cbn; [done|]. rewrite H by left. cbn.
  rewrite IH; [done|]. intros y Hy. apply H. by right.
Qed.
Lemma mapM_res_inv {A B} (f : A → res B) l r :
  mapM_res f l = Ok r → Forall2 (λ x y, f x = Ok y) l r.
Proof.
  revert r. induction l as [|x l IH]; intros r; cbn; [intros [= <-]; constructor|].
  destruct (f x) eqn:E; cbn; [|done]. destruct (mapM_res f l) eqn:E'; cbn; [|done].
  intros [= <-]. constructor; auto.
Qed.

(** A provide that the pool accepts. *)
Definition plain_cdep (d : cdep) : Prop := (length d.2 ≤ 1)%nat.
Definition ok_provide (d : cdep) : Prop :=
  ∃ r, from_constraints RBase d = Ok r ∧ has_any_version_constraint r = false.

(** The packages that list [n] among the names they provide, once for each time. *)
Definition by_name (l : list package) (n : string) : list package :=
  mjoin ((λ p, (λ _, p) <$> filter (λ m, m = n) (pkg_provides p).*1) <$> l).
Lemma by_name_app l k n : by_name (l ++ k) n = by_name l n ++ by_name k n.
Proof. unfold by_name. rewrite fmap_app. induction l as [|x l IH]; [done|]. rewrite app_comm_cons || idtac.
  rewrite !fmap_cons. cbn [app]. rewrite !mjoin_cons, IH. by rewrite app_assoc. Qed.
Lemma provides_names p n : n ∈ (pkg_provides p).*1 ↔ provides p n.
Proof.
  unfold pkg_provides, provides. rewrite fmap_cons, elem_of_cons, elem_of_list_fmap. cbn. naive_solver.
Qed.
Lemma elem_of_by_name l n p : p ∈ by_name l n ↔ p ∈ l ∧ provides p n.
Proof.
  unfold by_name. rewrite elem_of_list_join. split.
  - intros (k & Hp & (q & -> & Hq)%elem_of_list_fmap).
    apply elem_of_list_fmap in Hp as (m & -> & [-> Hm]%elem_of_list_filter).
    split; [done|]. by apply provides_names.
  - intros [Hp Hn]. eexists. split; [|apply elem_of_list_fmap; exists p; split; [reflexivity|done]].
    apply elem_of_list_fmap. exists n. split; [done|]. apply elem_of_list_filter. split; [done|].
    by apply provides_names.
Qed.

Definition opt_list {A} (l : list A) : option (list A) := match l with [] => None | _ => Some l end.

(** [i] is the id of the last package of [l] that equals [p]. *)
Definition id_of (l : list package) (p : package) (i : Z) : Prop :=
  ∃ k q, i = Z.of_nat k + 1 ∧ l !! k = Some q ∧ pkg_key q = pkg_key p ∧
    ∀ k' q', (k < k')%nat → l !! k' = Some q' → pkg_key q' ≠ pkg_key p.

Record pool_rep (po : pool) (l : list package) : Prop := {
  pr_next : po_next po = Z.of_nat (length l) + 1;
  pr_i2p : po_i2p po = imap (λ k p, (Z.of_nat k + 1, p)) l;
  pr_p2i : ∀ p i, pdict_get (po_p2i po) p = Some i ↔ id_of l p i;
  pr_byname : ∀ n, po_byname po !! n = opt_list (by_name l n);
  pr_prov : ∀ p d, p ∈ l → d ∈ p_provides p → ok_provide d }.

Lemma pool_rep_empty m : pool_rep (pool_empty m) [].
Proof.
  split; [done|done| |done|].
  - intros p i. cbn. split; [done|]. intros (k & q & _ & Hk & _). done.
  - intros p d Hp. by apply elem_of_nil in Hp.
Qed.

Lemma pkg_eq_true p q : pkg_eq p q = true ↔ pkg_key p = pkg_key q.
Proof. apply bool_decide_eq_true. Qed.
Lemma pkg_eq_false p q : pkg_eq p q = false ↔ pkg_key p ≠ pkg_key q.
Proof. apply bool_decide_eq_false. Qed.

Lemma pdict_get_set d p i q : pdict_get (pdict_set d p i) q =
  if decide (pkg_key p = pkg_key q) then Some i else pdict_get d q.
Proof.
  induction d as [|[r j] d IH]; cbn.
  - destruct (pkg_eq p q) eqn:E; [apply pkg_eq_true in E; by rewrite decide_True|].
    apply pkg_eq_false in E. by rewrite decide_False.
  - destruct (pkg_eq r p) eqn:E; cbn.
    + apply pkg_eq_true in E. destruct (pkg_eq r q) eqn:E'.
      * apply pkg_eq_true in E'. rewrite decide_True; [done|congruence].
      * apply pkg_eq_false in E'. rewrite decide_False; [done|congruence].
    + apply pkg_eq_false in E. destruct (pkg_eq r q) eqn:E'; [|done].
      apply pkg_eq_true in E'. rewrite decide_False; [done|congruence].
Qed.

Lemma add_provide_ok p b d b' : add_provide p b d = Ok b' ↔
  ok_provide d ∧ b' = <[d.1 := default [] (b !! d.1) ++ [p]]> b.
Proof.
  unfold add_provide, ok_provide. destruct (from_constraints RBase d) as [r|] eqn:E; cbn.
  - assert (Hn : r_name r = d.1).
    { destruct d as [n dd]. unfold from_constraints in E. destruct (1 <? length dd)%nat; [discriminate|]. by injection E as <-. }
    rewrite <-Hn. destruct (has_any_version_constraint r) eqn:Eh.
    + split; [done|]. intros [(r' & [= <-] & ?) _]. congruence.
    + split; [intros [= <-]; split; eauto|]. by intros [_ ->].
  - split; [done|]. intros [(r' & ? & _) _]. done.
Qed.
Lemma ok_provide_self n : ok_provide (n, [[[CAny]]]).
Proof. eexists. split; [cbn; reflexivity|done]. Qed.

Lemma add_provides_ok p ds : ∀ b b', foldM (add_provide p) ds b = Ok b' →
  (∀ d, d ∈ ds → ok_provide d) ∧
  ∀ n, default [] (b' !! n) = default [] (b !! n) ++ ((λ _, p) <$> filter (λ m, m = n) ds.*1) ∧
       (b' !! n = None ↔ b !! n = None ∧ n ∉ ds.*1) .
Proof.
  induction ds as [|d ds IH]; intros b b'; cbn [foldM].
  - intros [= <-]. split; [intros d Hd; by apply elem_of_nil in Hd|].
    intros n. cbn. rewrite app_nil_r. split; [done|]. split; [intros ?|intros [? _]; done].
    split; [done|]. apply not_elem_of_nil.
  - destruct (add_provide p b d) as [b1|] eqn:E; cbn [mbind res_bind]; [|done].
    apply add_provide_ok in E as [Hd ->]. intros [H1 H2]%IH. split.
    { intros d' [->|?]%elem_of_cons; auto. }
    intros n. specialize (H2 n) as [H2 H3]. rewrite fmap_cons.
    destruct (decide (d.1 = n)) as [<-|Hn].
    + rewrite lookup_insert in H2, H3. cbn [default] in H2. rewrite filter_cons_True by done.
      rewrite fmap_cons. rewrite H2. unfold id. rewrite <-app_assoc. split; [done|].
      rewrite H3. split; [intros [? _]; done|]. intros [_ H]. exfalso. apply H. left.
    + rewrite lookup_insert_ne in H2, H3 by done. rewrite filter_cons_False by done. split; [done|].
      rewrite H3, not_elem_of_cons. naive_solver.
Qed.
Lemma add_provides_total p ds : (∀ d, d ∈ ds → ok_provide d) → ∀ b, ∃ b', foldM (add_provide p) ds b = Ok b'.
Proof.
  induction ds as [|d ds IH]; intros H b; cbn [foldM]; [eauto|].
  assert (E : add_provide p b d = Ok (<[d.1 := default [] (b !! d.1) ++ [p]]> b)).
  { apply add_provide_ok. split; [apply H; left|done]. }
  rewrite E. cbn. apply IH. intros d' Hd. apply H. by right.
Qed.

Lemma lookup_imap_ids (l : list package) i :
  zdict_get (imap (λ k p, (Z.of_nat k + 1, p)) l) i = if decide (1 ≤ i) then l !! Z.to_nat (i - 1) else None.
Proof.
  assert (G : ∀ (l : list package) n, zdict_get (imap (λ k p, (Z.of_nat (n + k) + 1, p)) l) i =
     if decide (Z.of_nat n + 1 ≤ i) then l !! Z.to_nat (i - 1 - Z.of_nat n) else None).
  { clear l. induction l as [|p l IH]; intros n; cbn [imap zdict_get].
    - by case_decide.
    - destruct (Z.eqb_spec (Z.of_nat (n + 0) + 1) i) as [He|He].
      + rewrite decide_True by lia. replace (Z.to_nat (i - 1 - Z.of_nat n)) with 0%nat by lia. done.
      + rewrite (imap_ext _ (λ k p, (Z.of_nat (S n + k) + 1, p))).
        2:{ intros. cbn. f_equal. lia. }
        rewrite IH. case_decide; case_decide; try lia; try done.
        replace (Z.to_nat (i - 1 - Z.of_nat n)) with (S (Z.to_nat (i - 1 - Z.of_nat (S n)))) by lia. done. }
  specialize (G l 0%nat). cbn [Nat.add] in G. rewrite G. by rewrite Z.sub_0_r.
Qed.

Lemma pool_add_rep po l p po' : pool_rep po l → pool_add po p = Ok po' →
  pool_rep po' (l ++ [p]) ∧ po_mods po' = po_mods po.
Proof.
  intros [Hn Hi Hp Hb Hv]. unfold pool_add. destruct (foldM _ _ _) as [b|] eqn:E; cbn; [|done].
  intros [= <-]. apply add_provides_ok in E as [Hok Hb']. split; [|done]. split; cbn [po_next po_i2p po_p2i po_byname].
  - rewrite app_length. cbn. lia.
  - rewrite imap_app, Hi. cbn. rewrite Nat.add_0_r. do 3 f_equal. lia.
  - intros q i. rewrite pdict_get_set. case_decide as Hk.
    + split.
      * intros [= <-]. exists (length l), p. split; [lia|]. split; [by rewrite list_lookup_middle|].
        split; [done|]. intros k' q' Hlt Hl. apply lookup_lt_Some in Hl. rewrite app_length in Hl. cbn in Hl. lia.
      * intros (k & r & -> & Hl & Hr & Hlast). f_equal.
        destruct (decide (k < length l)%nat) as [Hlt|Hge].
        -- exfalso. apply (Hlast (length l) p); [done|by rewrite list_lookup_middle|done].
        -- apply lookup_lt_Some in Hl. rewrite app_length in Hl. cbn in Hl. lia.
    + rewrite Hp. split.
      * intros (k & r & -> & Hl & Hr & Hlast). exists k, r. split; [done|].
        split; [by apply lookup_app_l_Some|]. split; [done|].
        intros k' q' Hlt [Hl'|[? Hl']]%lookup_app_Some; [by eapply Hlast|].
        apply list_lookup_singleton_Some in Hl' as [_ <-]. done.
      * intros (k & r & -> & [Hl|[? Hl]]%lookup_app_Some & Hr & Hlast).
        2:{ apply list_lookup_singleton_Some in Hl as [_ <-]. done. }
        exists k, r. repeat split; [done|done|]. intros k' q' Hlt Hl'. eapply Hlast; [done|].
        by apply lookup_app_l_Some.
  - intros n. specialize (Hb' n) as [Hb1 Hb2]. rewrite Hb in Hb1, Hb2.
    rewrite by_name_app. assert (E : by_name [p] n = (λ _, p) <$> filter (λ m, m = n) (pkg_provides p).*1).
    { unfold by_name. cbn. by rewrite app_nil_r. }
    rewrite E. assert (E2 : default [] (opt_list (by_name l n)) = by_name l n) by (by destruct (by_name l n)).
    rewrite E2 in Hb1. rewrite <-Hb1.
    destruct (b !! n) as [bl|] eqn:Eb; cbn [default].
    + unfold id. destruct bl; [|done]. exfalso.
      symmetry in Hb1. apply app_eq_nil in Hb1 as [Hb1 Hb1'].
      assert (Hx : Some (A := list package) [] = None); [|done]. apply Hb2. rewrite Hb1. split; [done|].
      intros Hin. apply fmap_nil_inv in Hb1'. assert (Hm : n ∈ filter (λ m, m = n) (pkg_provides p).*1) by (by apply elem_of_list_filter).
      rewrite Hb1' in Hm. by apply elem_of_nil in Hm.
    + done.
  - intros q d [Hq|Hq]%elem_of_app Hd; [by eapply Hv|]. apply elem_of_list_singleton in Hq as ->.
    apply Hok. unfold pkg_provides. by right.
Qed.

Lemma pool_add_total po l p : pool_rep po l → (∀ d, d ∈ p_provides p → ok_provide d) →
  ∃ po', pool_add po p = Ok po'.
Proof.
  intros Hr Hd. unfold pool_add.
  destruct (add_provides_total p (pkg_provides p)) with (b := po_byname po) as [b ->].
  - intros d [->|?]%elem_of_cons; [apply ok_provide_self|auto].
  - cbn. eauto.
Qed.

Lemma add_repository_rep ps : ∀ po l po', pool_rep po l → add_repository po ps = Ok po' →
  pool_rep po' (l ++ ps) ∧ po_mods po' = po_mods po.
Proof.
  unfold add_repository. induction ps as [|p ps IH]; intros po l po' Hr; cbn [foldM].
  - intros [= <-]. by rewrite app_nil_r.
  - destruct (pool_add po p) as [po1|] eqn:E; cbn; [|done]. intros H.
    apply (pool_add_rep _ _ _ _ Hr) in E as [Hr1 E]. apply (IH _ _ _ Hr1) in H as [H1 H2].
    rewrite <-app_assoc in H1. split; [done|congruence].
Qed.
Lemma add_repository_total ps : ∀ po l, pool_rep po l → (∀ p d, p ∈ ps → d ∈ p_provides p → ok_provide d) →
  ∃ po', add_repository po ps = Ok po'.
Proof.
  unfold add_repository. induction ps as [|p ps IH]; intros po l Hr Hd; cbn [foldM]; [eauto|].
  destruct (pool_add_total po l p Hr) as [po1 E]; [intros; eapply Hd; [left|done]|].
  rewrite E. cbn. apply (pool_add_rep _ _ _ _ Hr) in E as [Hr1 _]. eapply IH; [exact Hr1|].
  intros q d Hq. apply Hd. by right.
Qed.

Lemma pool_of_rep repos m po : pool_of repos m = Ok po → pool_rep po (mjoin repos) ∧ po_mods po = m.
Proof.
  unfold pool_of. assert (G : ∀ repos po0 l, pool_rep po0 l → foldM add_repository repos po0 = Ok po →
    pool_rep po (l ++ mjoin repos) ∧ po_mods po = po_mods po0).
  { clear. induction repos as [|r repos IH]; intros po0 l Hr; cbn [foldM].
    - intros [= <-]. cbn. by rewrite app_nil_r.
    - destruct (add_repository po0 r) as [po1|] eqn:E; cbn [mbind res_bind]; [|done]. intros H.
      apply (add_repository_rep _ _ _ _ Hr) in E as [Hr1 E]. apply (IH _ _ Hr1) in H as [H1 H2].
      rewrite mjoin_cons, app_assoc. split; [done|congruence]. }
  intros H. apply (G _ _ _ (pool_rep_empty m)) in H. done.
Qed.
Lemma pool_of_total repos m : (∀ p d, p ∈ mjoin repos → d ∈ p_provides p → ok_provide d) →
  ∃ po, pool_of repos m = Ok po.
Proof.
  unfold pool_of. assert (G : ∀ repos po0 l, pool_rep po0 l →
    (∀ p d, p ∈ mjoin repos → d ∈ p_provides p → ok_provide d) → ∃ po, foldM add_repository repos po0 = Ok po).
  { clear. induction repos as [|r repos IH]; intros po0 l Hr Hd; cbn [foldM]; [eauto|].
    rewrite mjoin_cons in Hd. setoid_rewrite elem_of_app in Hd.
    destruct (add_repository_total r po0 l Hr) as [po1 E]; [eauto|]. rewrite E. cbn.
    apply (add_repository_rep _ _ _ _ Hr) in E as [Hr1 _]. eapply IH; [exact Hr1|eauto]. }
  intros H. eapply G; [apply pool_rep_empty|done].
Qed.

Section rep.
  Context (po : pool) (l : list package) (R : pool_rep po l).

  Lemma rep_id_to_package i p : id_to_package po i = Ok p ↔ 1 ≤ i ∧ l !! Z.to_nat (i - 1) = Some p.
  Proof.
    unfold id_to_package. rewrite (pr_i2p _ _ R), lookup_imap_ids. case_decide.
    - destruct (l !! _); cbn; naive_solver.
    - cbn. naive_solver.
  Qed.
  Lemma rep_package_id p i : package_id po p = Ok i ↔ id_of l p i.
  Proof.
    unfold package_id. rewrite <-(pr_p2i _ _ R). destruct (pdict_get _ _); cbn; naive_solver.
  Qed.
  Lemma id_of_fun p q i j : pkg_key p = pkg_key q → id_of l p i → id_of l q j → i = j.
  Proof.
    intros Hk (k & a & -> & Ha & Hka & Hla) (k' & b & -> & Hb & Hkb & Hlb).
    destruct (lt_eq_lt_dec k k') as [[Hlt|Heq]|Hlt].
    - exfalso. apply (Hla k' b); [done|done|congruence].
    - by subst.
    - exfalso. apply (Hlb k a); [done|done|congruence].
  Qed.
  Lemma id_of_inj p q i : id_of l p i → id_of l q i → pkg_key p = pkg_key q.
  Proof.
    intros (k & a & -> & Ha & Hka & _) (k' & b & Hk & Hb & Hkb & _).
    assert (k' = k) as -> by lia. congruence.
  Qed.
  Lemma id_of_pos p i : id_of l p i → 1 ≤ i.
  Proof. intros (k & _ & -> & _). lia. Qed.
  Lemma id_of_exists p : (∃ q, q ∈ l ∧ pkg_key q = pkg_key p) → ∃ i, id_of l p i.
  Proof.
    clear R. induction l as [|a k IH] using rev_ind; intros (q & Hq & Hk); [by apply elem_of_nil in Hq|].
    destruct (decide (pkg_key a = pkg_key p)) as [Ha|Ha].
    - exists (Z.of_nat (length k) + 1), (length k), a. split; [done|]. split; [by rewrite list_lookup_middle|].
      split; [done|]. intros k' q' Hlt Hl. apply lookup_lt_Some in Hl. rewrite app_length in Hl. cbn in Hl. lia.
    - apply elem_of_app in Hq as [Hq|Hq]; [|apply elem_of_list_singleton in Hq as ->; congruence].
      destruct IH as (i & j & r & -> & Hl & Hr & Hlast); [eauto|].
      eexists _, j, r. split; [done|]. split; [by apply lookup_app_l_Some|]. split; [done|].
      intros k' q' Hlt [Hl'|[? Hl']]%lookup_app_Some; [by eapply Hlast|].
      apply list_lookup_singleton_Some in Hl' as [_ <-]. done.
  Qed.
  Lemma rep_package_id_total p : p ∈ l → ∃ i, package_id po p = Ok i ∧ 1 ≤ i ∧
    ∃ q, id_to_package po i = Ok q ∧ q ∈ l ∧ pkg_key q = pkg_key p.
  Proof.
    intros Hp. destruct (id_of_exists p) as [i Hi]; [eauto|]. exists i.
    split; [by apply rep_package_id|]. split; [by eapply id_of_pos|].
    destruct Hi as (k & q & -> & Hl & Hk & _). exists q. split; [|split; [by eapply elem_of_list_lookup_2|done]].
    apply rep_id_to_package. split; [lia|]. by replace (Z.to_nat _) with k by lia.
  Qed.
  Lemma rep_what_provides r (b : bool) : 
    what_provides po r b =
    match by_name l (r_name r) with
    | [] => Ok []
    | ps => r' ← (if b then pool_modify po r else Ok r);
            Ok (filter (λ p, req_matches r' (p_version p) = true) ps)
    end.
  Proof. unfold what_provides. rewrite (pr_byname _ _ R). by destruct (by_name l (r_name r)). Qed.

  Lemma rep_what_provides_elem r b ps p : what_provides po r b = Ok ps →
    p ∈ ps ↔ p ∈ l ∧ provides p (r_name r) ∧
      ∃ r', (if b then pool_modify po r else Ok r) = Ok r' ∧ req_matches r' (p_version p) = true.
  Proof.
    rewrite rep_what_provides. destruct (by_name l (r_name r)) as [|x bl] eqn:E.
    - intros [= <-]. split; [intros Hp; by apply elem_of_nil in Hp|]. intros (Hp & Hpr & _). exfalso.
      assert (Hx : p ∈ by_name l (r_name r)) by (by apply elem_of_by_name).
      rewrite E in Hx. by apply elem_of_nil in Hx.
    - destruct (if b then pool_modify po r else Ok r) as [r'|] eqn:Er; cbn [mbind res_bind]; [|done].
      intros [= <-]. rewrite <-E, elem_of_list_filter, elem_of_by_name. naive_solver.
  Qed.
End rep.

Lemma set_mods_rep po l m : pool_rep po l → pool_rep (set_mods po m) l.
Proof. intros [? ? ? ? ?]. by split. Qed.
