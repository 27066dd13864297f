(** * Proofs about AssignmentSet. *)
From Verif Require Export AssignmentSet SpecAset.

(** Well-formedness of the representation. *)
Record AWf (a : aset) : Prop := {
  awf_zero : a_data a !! 0 = None;
  awf_neg : ∀ k, a_data a !! (- k) = negb <$> a_data a !! k;
  awf_assigned : ∀ k, k ∈ a_assigned a ↔ 0 < k ∧ is_Some (a_data a !! k);
  awf_seen : a_assigned a ⊆ a_seen a;
  awf_pos : ∀ k, k ∈ a_seen a → 0 < k }.

Lemma awf_empty : AWf aset_empty.
Proof.
  split; cbn; [done|done|..|set_solver|set_solver].
  intros k. rewrite lookup_empty. split; [set_solver|]. intros [_ [? ?]]; done.
Qed.

Lemma awf_abs a k : AWf a → is_Some (a_data a !! k) ↔ Z.abs k ∈ a_assigned a.
Proof.
  intros W. rewrite (awf_assigned _ W). destruct (decide (0 ≤ k)).
  - rewrite Z.abs_eq by lia. split; [|tauto]. intros Hs. split; [|done].
    destruct (decide (k = 0)) as [->|]; [|lia]. rewrite (awf_zero _ W) in Hs. by destruct Hs.
  - replace (Z.abs k) with (- k) by lia. rewrite (awf_neg _ W).
    split; [|by intros [_ Hs]; apply fmap_is_Some in Hs].
    intros Hs. split; [lia|]. by apply fmap_is_Some.
Qed.

Lemma value_neg a l : AWf a → aset_value a (- l) = negb <$> aset_value a l.
Proof. intros W. apply (awf_neg _ W). Qed.

(** The unassigning part shared by [a[k] = None] and [del a[k]]. *)
Definition clear_data (k : Z) (a : aset) : gmap Z bool := delete (- k) (delete k (a_data a)).

Lemma delete_absent {V} (m : gmap Z V) k : m !! k = None → delete k m = m.
Proof. apply delete_notin. Qed.

Lemma aset_del_spec a k : AWf a → k ≠ 0 →
  ∃ a', aset_del k a = Ok a' ∧ a_data a' = clear_data k a ∧
    a_seen a' = a_seen a ∖ {[Z.abs k]} ∧ a_assigned a' = a_assigned a ∖ {[Z.abs k]} ∧
    a_new a' = a_new a ∧
    a_orig a' = match a_data a !! k with
                | None => a_orig a
                | Some _ => match a_orig a !! k with
                            | Some _ => a_orig a
                            | None => <[k := a_data a !! k]> (a_orig a) end
                end ∧
    a_cached a' = match a_data a !! k with None => a_cached a | Some _ => None end.
Proof.
  intros W Hk. unfold aset_del, clear_data. cbn.
  destruct (a_data a !! k) as [b|] eqn:Hd.
  - assert (k ≠ - k) by lia.
    rewrite lookup_delete_ne, (awf_neg _ W), Hd by done. cbn.
    eexists. split; [done|]. cbn. done.
  - eexists. split; [done|]. cbn. repeat split.
    + rewrite !delete_absent; [done|done|]. rewrite delete_absent by done.
      by rewrite (awf_neg _ W), Hd.
    + assert (Z.abs k ∉ a_assigned a); [|set_solver].
      rewrite <-awf_abs by done. rewrite Hd. by intros [? ?].
Qed.

Lemma clear_data_lookup k a j : AWf a →
  clear_data k a !! j = if decide (Z.abs j = Z.abs k) then None else a_data a !! j.
Proof.
  intros W. unfold clear_data. case_decide as Hj.
  - assert (j = k ∨ j = - k) as [->| ->] by lia.
    + destruct (decide (k = - k)) as [E|E].
      * rewrite <-E at 1. apply lookup_delete.
      * rewrite lookup_delete_ne by lia. apply lookup_delete.
    + apply lookup_delete.
  - rewrite !lookup_delete_ne by lia. done.
Qed.

Lemma awf_clear a a' k : AWf a → k ≠ 0 → a_data a' = clear_data k a →
  a_assigned a' = a_assigned a ∖ {[Z.abs k]} →
  a_assigned a' ⊆ a_seen a' → (∀ j, j ∈ a_seen a' → 0 < j) → AWf a'.
Proof.
  intros W Hk Hd Ha Hs Hp. split; try done.
  - rewrite Hd, clear_data_lookup by done. case_decide; [done|]. apply (awf_zero _ W).
  - intros j. rewrite Hd, !clear_data_lookup by done.
    rewrite Z.abs_opp. case_decide; [done|]. apply (awf_neg _ W).
  - intros j. rewrite Ha, Hd, clear_data_lookup, elem_of_difference, elem_of_singleton,
      (awf_assigned _ W) by done.
    case_decide as Hj.
    + split; [intros [[? _] ?]; lia|]. intros [_ [? ?]]; done.
    + split; [tauto|]. intros [? ?]. split; [done|]. intros ->. apply Hj. lia.
Qed.

Lemma aset_set_spec a k v : AWf a → k ≠ 0 →
  ∃ a', aset_set k v a = Ok a' ∧ AWf a' ∧
    (∀ j, a_data a' !! j = if decide (j = k) then v
                           else if decide (j = - k) then negb <$> v else a_data a !! j) ∧
    a_seen a' = {[Z.abs k]} ∪ a_seen a ∧
    a_assigned a' = (match v with Some _ => {[Z.abs k]} ∪ a_assigned a
                     | None => a_assigned a ∖ {[Z.abs k]} end) ∧
    a_new a' = (if decide (Z.abs k ∈ a_seen a) then a_new a else {[Z.abs k]} ∪ a_new a) ∧
    a_orig a' = (match v with
                 | Some _ => match a_orig a !! Z.abs k with
                             | Some _ => a_orig a
                             | None => <[Z.abs k := a_data a !! Z.abs k]> (a_orig a) end
                 | None => match a_data a !! k with
                           | None => a_orig a
                           | Some _ => match a_orig a !! k with
                                       | Some _ => a_orig a
                                       | None => <[k := a_data a !! k]> (a_orig a) end
                           end end) ∧
    a_cached a' = (match v with Some _ => None
                   | None => match a_data a !! k with None => a_cached a | Some _ => None end end).
Proof.
  intros W Hk. unfold aset_set.
  set (a1 := if decide (Z.abs k ∈ a_seen a) then a else _).
  assert (a_data a1 = a_data a ∧ a_orig a1 = a_orig a ∧ a_seen a1 = a_seen a ∧
          a_cached a1 = a_cached a ∧ a_assigned a1 = a_assigned a ∧
          a_new a1 = (if decide (Z.abs k ∈ a_seen a) then a_new a else {[Z.abs k]} ∪ a_new a))
    as (E1 & E2 & E3 & E4 & E5 & E6).
  { unfold a1. case_decide; done. }
  assert (W1 : AWf a1).
  { destruct W. split; rewrite ?E1, ?E5, ?E3; done. }
  clearbody a1. destruct v as [b|].
  - cbn.
    assert (Ek : (if k <? 0 then - k else k) = Z.abs k).
    { destruct (Z.ltb_spec k 0); lia. }
    rewrite Ek. eexists. split; [done|]. cbn. rewrite E1, E2, E3, E5, E6. clear E6.
    assert (Hl : ∀ j, <[- k := negb b]> (<[k := b]> (a_data a)) !! j =
      if decide (j = k) then Some b else if decide (j = - k) then Some (negb b) else a_data a !! j).
    { intros j. destruct (decide (j = k)) as [->|].
      - rewrite lookup_insert_ne by lia. apply lookup_insert.
      - destruct (decide (j = - k)) as [->|]; [apply lookup_insert|].
        rewrite !lookup_insert_ne by lia. done. }
    split.
    { split; cbn.
      - rewrite Hl. repeat case_decide; try lia. apply (awf_zero _ W).
      - intros j. rewrite !Hl. repeat case_decide; subst; try lia; cbn; try done.
        + by rewrite negb_involutive.
        + apply (awf_neg _ W).
      - intros j. rewrite Hl, elem_of_union, elem_of_singleton, (awf_assigned _ W).
        repeat case_decide; subst; cbn.
        + split; [|intros [? _]; left; lia].
          intros [?|[? _]]; split; try lia; eauto.
        + split; [|intros [? _]; left; lia].
          intros [?|[? _]]; split; try lia; eauto.
        + split; [intros [?|?]; [lia|done]|tauto].
      - pose proof (awf_seen _ W). set_solver.
      - intros j [->%elem_of_singleton|Hj]%elem_of_union; [lia|]. by apply (awf_pos _ W). }
    split; [done|]. done.
  - destruct (aset_del_spec a1 k W1 Hk) as (a' & -> & D1 & D2 & D3 & D4 & D5 & D6).
    cbn. eexists. split; [done|]. cbn.
    rewrite D1, D3, D4, D5, D6, E1, E2, E4, E5, E6. clear E6.
    assert (Hl : ∀ j, clear_data k a1 !! j =
      if decide (j = k) then None else if decide (j = - k) then None else a_data a !! j).
    { intros j. rewrite clear_data_lookup, E1 by done.
      repeat case_decide; try lia; done. }
    split.
    { eapply (awf_clear a1 _ k); cbn; rewrite ?D1, ?D3, ?D2, ?E5, ?E3; try done.
      - pose proof (awf_seen _ W). set_solver.
      - intros j [->%elem_of_singleton|Hj]%elem_of_union; [lia|].
        apply (awf_pos _ W). set_solver. }
    split; [done|]. rewrite D2, E3. split; [|done].
    apply set_eq. intros j. destruct (decide (j = Z.abs k)); set_solver.
Qed.

(** ** Refinement to the abstract map. *)
Definition aop_run (a : aset) (o : aop) : res aset :=
  match o with OpSet k v => aset_set k v a | OpDel k => aset_del k a end.

Record ARep (a : aset) (m : amap) : Prop := {
  ar_wf : AWf a;
  ar_dom : ∀ k, k ∈ a_seen a ↔ is_Some (m !! k);
  ar_val : ∀ k, 0 < k → a_data a !! k = amap_val m k }.

Lemma arep_empty : ARep aset_empty ∅.
Proof.
  split; [apply awf_empty| |].
  - intros k. cbn. split; [set_solver|by intros [? ?]].
  - intros k _. done.
Qed.

Lemma arep_pos a m k : ARep a m → is_Some (m !! k) → 0 < k.
Proof. intros R. rewrite <-(ar_dom _ _ R). apply (awf_pos _ (ar_wf _ _ R)). Qed.

Lemma arep_step a m o : ARep a m → aop_key o ≠ 0 →
  ∃ a', aop_run a o = Ok a' ∧ ARep a' (amap_step m o).
Proof.
  intros R Hk. destruct o as [k v|k]; cbn [aop_key aop_run amap_step] in *.
  - destruct (aset_set_spec a k v (ar_wf _ _ R) Hk) as (a' & -> & W & Hd & Hs & _).
    exists a'. split; [done|]. split; [done| |].
    + intros j. rewrite Hs, elem_of_union, elem_of_singleton, (ar_dom _ _ R).
      destruct (decide (j = Z.abs k)) as [->|].
      * rewrite lookup_insert. split; [eauto|]. intros _. by left.
      * rewrite lookup_insert_ne by done. split; [by intros [?|?]|by right].
    + intros j Hj. rewrite Hd. unfold amap_val.
      destruct (decide (j = k)) as [->|].
      * rewrite Z.abs_eq, lookup_insert by lia. rewrite decide_True by lia. done.
      * destruct (decide (j = - k)) as [->|].
        -- replace (Z.abs k) with (- k) by lia. rewrite lookup_insert.
           rewrite decide_False by lia. done.
        -- rewrite lookup_insert_ne by lia. by apply (ar_val _ _ R).
  - destruct (aset_del_spec a k (ar_wf _ _ R) Hk) as (a' & -> & Hd & Hs & Ha & _).
    exists a'. split; [done|]. split.
    + eapply (awf_clear a); try done; [apply (ar_wf _ _ R)|..].
      * rewrite Ha, Hs. pose proof (awf_seen _ (ar_wf _ _ R)). set_solver.
      * intros j. rewrite Hs. intros [Hj _]%elem_of_difference.
        by apply (awf_pos _ (ar_wf _ _ R)).
    + intros j. rewrite Hs, elem_of_difference, elem_of_singleton, (ar_dom _ _ R).
      destruct (decide (j = Z.abs k)) as [->|].
      * rewrite lookup_delete. split; [tauto|by intros [? ?]].
      * rewrite lookup_delete_ne by done. tauto.
    + intros j Hj. rewrite Hd, clear_data_lookup by apply (ar_wf _ _ R).
      unfold amap_val. destruct (decide (Z.abs j = Z.abs k)).
      * replace j with (Z.abs k) by lia. by rewrite lookup_delete.
      * rewrite lookup_delete_ne by lia. by apply (ar_val _ _ R).
Qed.

Lemma arep_run ops : Forall (λ o, aop_key o ≠ 0) ops → ∀ a m, ARep a m →
  ∃ a', foldM aop_run ops a = Ok a' ∧ ARep a' (foldl amap_step m ops).
Proof.
  induction 1 as [|o ops Ho _ IH]; intros a m R; cbn; [eauto|].
  destruct (arep_step a m o R Ho) as (a' & -> & R'). cbn. by apply IH.
Qed.

Lemma arep_value a m l : ARep a m → aset_value a l = amap_value m l.
Proof.
  intros R. unfold aset_value, amap_value. case_decide; [by apply (ar_val _ _ R)|].
  destruct (decide (l = 0)) as [->|].
  - rewrite (awf_zero _ (ar_wf _ _ R)). unfold amap_val. change (- 0) with 0.
    destruct (m !! 0) eqn:E; [|done]. exfalso.
    assert (0 < 0); [|lia]. eapply arep_pos; eauto.
  - rewrite <-(ar_val _ _ R) by lia. rewrite <-(awf_neg _ (ar_wf _ _ R)). f_equal. lia.
Qed.

Lemma arep_seen a m : ARep a m → a_seen a = dom m.
Proof.
  intros R. apply set_eq. intros k. by rewrite (ar_dom _ _ R), elem_of_dom.
Qed.

Lemma arep_assigned a m k : ARep a m → k ∈ a_assigned a ↔ ∃ b, m !! k = Some (Some b).
Proof.
  intros R. rewrite (awf_assigned _ (ar_wf _ _ R)). split.
  - intros [Hk [b Hb]]. rewrite (ar_val _ _ R) in Hb by done. unfold amap_val in Hb.
    exists b. destruct (m !! k); cbn in Hb; [|done]. by subst.
  - intros [b Hb]. assert (0 < k) by (eapply arep_pos; eauto).
    split; [done|]. rewrite (ar_val _ _ R) by done. unfold amap_val. rewrite Hb. eauto.
Qed.

Lemma arep_items a m : ARep a m →
  StronglySorted Z.lt (aset_items a).*1 ∧
  ∀ k v, (k, v) ∈ aset_items a ↔ m !! k = Some v.
Proof.
  intros R. unfold aset_items. split.
  - rewrite <-list_fmap_compose. cbn.
    assert (E : ((fst ∘ λ k : Z, (k, a_data a !! k)) <$> merge_sort Z.le (elements (a_seen a)))
                = merge_sort Z.le (elements (a_seen a))) by apply list_fmap_id.
    rewrite E. clear E.
    assert (Hn : NoDup (merge_sort Z.le (elements (a_seen a)))).
    { rewrite merge_sort_Permutation. apply NoDup_elements. }
    assert (Hs : StronglySorted Z.le (merge_sort Z.le (elements (a_seen a)))).
    { apply StronglySorted_merge_sort; [|exact _]. intros x y z. lia. }
    revert Hn. induction Hs as [|x l _ IH Hx]; [constructor|]. intros [Hn1 Hn2]%NoDup_cons.
    constructor; [by apply IH|]. rewrite Forall_forall in *. intros y Hy.
    assert (x ≤ y) by by apply Hx. assert (x ≠ y) by congruence. lia.
  - intros k v. rewrite elem_of_list_fmap. setoid_rewrite merge_sort_Permutation.
    setoid_rewrite elem_of_elements. split.
    + intros (k' & [= -> ->] & Hk). rewrite (ar_val _ _ R).
      * unfold amap_val. apply (ar_dom _ _ R) in Hk as [w ->]. done.
      * by apply (awf_pos _ (ar_wf _ _ R)).
    + intros Hm. exists k. assert (0 < k) by (eapply arep_pos; eauto). split.
      * rewrite (ar_val _ _ R) by done. unfold amap_val. by rewrite Hm.
      * apply (ar_dom _ _ R). eauto.
Qed.

(** ** The changelog. *)
Definition cop_run (a : aset) (o : cop) : res aset :=
  match o with
  | Plain o => aop_run a o
  | Consume => Ok (snd (consume_changelog a))
  | Peek => Ok (snd (get_changelog a))
  | Copy => Ok (aset_copy a)
  end.

Definition is_changelog (now base : Z → option bool) (c : gmap Z (option bool * option bool)) :=
  ∀ k old new, c !! k = Some (old, new) ↔ old = base k ∧ new = now k ∧ old ≠ new.

Record CRep (a : aset) (h : chist) : Prop := {
  cr_rep : ARep a (ch_now h);
  cr_new : a_new a = ch_new h;
  cr_orig : ∀ k o, a_orig a !! k = Some o → o = amap_val (ch_base h) k ∧ 0 < k;
  cr_orig' : ∀ k, a_orig a !! k = None → amap_val (ch_base h) k = amap_val (ch_now h) k;
  cr_cached : ∀ c, a_cached a = Some c → changelog_ok h c }.

Lemma compute_changelog_ok a h : CRep a h → changelog_ok h (compute_changelog a).
Proof.
  intros C k old new. unfold compute_changelog.
  rewrite lookup_omap, map_lookup_imap.
  destruct (a_orig a !! k) as [o|] eqn:Ho; cbn.
  - destruct (cr_orig _ _ C _ _ Ho) as [-> Hk].
    rewrite (ar_val _ _ (cr_rep _ _ C)) by done.
    case_decide as E; cbn in *; naive_solver.
  - split; [done|]. pose proof (cr_orig' _ _ C _ Ho). naive_solver congruence.
Qed.

Lemma get_changelog_ok a h : CRep a h → changelog_ok h (fst (get_changelog a)).
Proof.
  intros C. unfold get_changelog. destruct (a_cached a) eqn:E; cbn.
  - by apply (cr_cached _ _ C).
  - by apply compute_changelog_ok.
Qed.

Lemma crep_get a h : CRep a h → CRep (snd (get_changelog a)) h.
Proof.
  intros C. unfold get_changelog. destruct (a_cached a) eqn:E; cbn; [done|].
  pose proof (compute_changelog_ok _ _ C).
  destruct C as [[[] ? ?] ? ? ? ?]. split; cbn; try done.
  intros c [= <-]. done.
Qed.

Lemma crep_consume a h : CRep a h →
  CRep (snd (consume_changelog a)) (CHist (ch_now h) (ch_now h) ∅).
Proof.
  intros C. apply crep_get in C. unfold consume_changelog.
  destruct (get_changelog a) as [c a']. cbn in *.
  destruct C as [[[] ? ?] ? ? ? ?]. split; cbn; try done.
  intros c' [= <-]. intros k old new. rewrite lookup_empty. cbn.
  split; [done|]. intros (-> & -> & ?). done.
Qed.

Lemma crep_copy a h : CRep a h → CRep (aset_copy a) h.
Proof. intros C. destruct C as [[[] ? ?] ? ? ? ?]. by split; cbn. Qed.

Lemma crep_step a h o : CRep a h → cop_ok o →
  ∃ a', cop_run a o = Ok a' ∧ CRep a' (chist_step h o).
Proof.
  intros C Ho. destruct o as [o| | |]; cbn [cop_run chist_step].
  2:{ eexists. split; [done|]. by apply crep_consume. }
  2:{ eexists. split; [done|]. by apply crep_get. }
  2:{ eexists. split; [done|]. by apply crep_copy. }
  assert (Hk : aop_key o ≠ 0) by (destruct o as [k [v|]|k]; cbn in *; lia).
  destruct (arep_step a _ o (cr_rep _ _ C) Hk) as (a' & E & R').
  exists a'. split; [done|].
  pose proof (ar_wf _ _ (cr_rep _ _ C)) as W.
  pose proof (ar_val _ _ (cr_rep _ _ C)) as Hval.
  pose proof (ar_dom _ _ (cr_rep _ _ C)) as Hdom.
  destruct o as [k v|k]; cbn in E, Hk.
  - destruct (aset_set_spec a k v W Hk) as (a2 & E2 & W2 & Hd & Hs & Ha & Hn & Horig & Hc).
    rewrite E in E2. injection E2 as <-.
    split; cbn [ch_now ch_base ch_new]; [done|..].
    + rewrite Hn, (cr_new _ _ C). specialize (Hdom (Z.abs k)). repeat case_decide; naive_solver.
    + intros j ob. rewrite Horig. destruct v as [b|].
      * destruct (a_orig a !! Z.abs k) eqn:Eo; [apply (cr_orig _ _ C)|].
        rewrite lookup_insert_Some. intros [[<- <-]|[_ Hj]]; [|by apply (cr_orig _ _ C)].
        split; [|lia]. rewrite Hval by lia. symmetry. by apply (cr_orig' _ _ C).
      * destruct (a_data a !! k) eqn:Ed; [|apply (cr_orig _ _ C)].
        destruct (a_orig a !! k) eqn:Eo; [apply (cr_orig _ _ C)|].
        rewrite lookup_insert_Some. intros [[<- <-]|[_ Hj]]; [|by apply (cr_orig _ _ C)].
        cbn in Ho. split; [|lia]. rewrite <-Ed, Hval by lia. symmetry. by apply (cr_orig' _ _ C).
    + intros j. rewrite Horig. unfold amap_val, amap_step.
      destruct v as [b|].
      * destruct (a_orig a !! Z.abs k) eqn:Eo.
        -- intros Hj. destruct (decide (j = Z.abs k)) as [->|]; [congruence|].
           rewrite lookup_insert_ne by done. by apply (cr_orig' _ _ C).
        -- intros [Hj ?]%lookup_insert_None.
           rewrite lookup_insert_ne by done. by apply (cr_orig' _ _ C).
      * cbn in Ho. rewrite Z.abs_eq in * by lia. rewrite decide_True by lia.
        destruct (a_data a !! k) eqn:Ed.
        -- destruct (a_orig a !! k) eqn:Eo.
           ++ intros Hj. destruct (decide (j = k)) as [->|]; [congruence|].
              rewrite lookup_insert_ne by done. by apply (cr_orig' _ _ C).
           ++ intros [Hj ?]%lookup_insert_None.
              rewrite lookup_insert_ne by done. by apply (cr_orig' _ _ C).
        -- intros Hj. pose proof (cr_orig' _ _ C _ Hj) as Hj'.
           destruct (decide (j = k)) as [->|].
           ++ rewrite lookup_insert. cbn. rewrite Hval in Ed by done.
              unfold amap_val in *. congruence.
           ++ rewrite lookup_insert_ne by done. done.
    + rewrite Hc. destruct v as [b|]; [done|].
      destruct (a_data a !! k) eqn:Ed; [done|]. intros c Hcc.
      pose proof (cr_cached _ _ C _ Hcc) as Hch. intros j old new. rewrite (Hch j).
      cbn in Ho. cbn. rewrite Z.abs_eq by lia. rewrite decide_True by lia.
      unfold amap_val. destruct (decide (j = k)) as [->|].
      * rewrite lookup_insert. cbn. rewrite Hval in Ed by done. unfold amap_val in Ed.
        by rewrite Ed.
      * by rewrite lookup_insert_ne.
  - cbn in Ho.
    destruct (aset_del_spec a k W Hk) as (a2 & E2 & Hd & Hs & Ha & Hn & Horig & Hc).
    rewrite E in E2. injection E2 as <-.
    split; cbn [ch_now ch_base ch_new]; [done|..].
    + by rewrite Hn, (cr_new _ _ C).
    + intros j ob. rewrite Horig.
      destruct (a_data a !! k) eqn:Ed; [|apply (cr_orig _ _ C)].
      destruct (a_orig a !! k) eqn:Eo; [apply (cr_orig _ _ C)|].
      rewrite lookup_insert_Some. intros [[<- <-]|[_ Hj]]; [|by apply (cr_orig _ _ C)].
      split; [|lia]. rewrite <-Ed, Hval by lia. symmetry. by apply (cr_orig' _ _ C).
    + intros j. rewrite Horig. unfold amap_val, amap_step. rewrite Z.abs_eq by lia.
      destruct (a_data a !! k) eqn:Ed.
      * destruct (a_orig a !! k) eqn:Eo.
        -- intros Hj. destruct (decide (j = k)) as [->|]; [congruence|].
           rewrite lookup_delete_ne by done. by apply (cr_orig' _ _ C).
        -- intros [Hj ?]%lookup_insert_None.
           rewrite lookup_delete_ne by done. by apply (cr_orig' _ _ C).
      * intros Hj. pose proof (cr_orig' _ _ C _ Hj) as Hj'.
        destruct (decide (j = k)) as [->|].
        -- rewrite lookup_delete. cbn. rewrite Hval in Ed by done.
           unfold amap_val in *. congruence.
        -- rewrite lookup_delete_ne by done. done.
    + rewrite Hc. destruct (a_data a !! k) eqn:Ed; [done|]. intros c Hcc.
      pose proof (cr_cached _ _ C _ Hcc) as Hch. intros j old new. rewrite (Hch j).
      cbn. rewrite Z.abs_eq by lia.
      unfold amap_val. destruct (decide (j = k)) as [->|].
      * rewrite lookup_delete. cbn. rewrite Hval in Ed by done. unfold amap_val in Ed.
        by rewrite Ed.
      * by rewrite lookup_delete_ne.
Qed.

Lemma crep_empty : CRep aset_empty (CHist ∅ ∅ ∅).
Proof. split; try done; [apply arep_empty]. Qed.

Lemma crep_run ops : Forall cop_ok ops → ∀ a h, CRep a h →
  ∃ a', foldM cop_run ops a = Ok a' ∧ CRep a' (foldl chist_step h ops).
Proof.
  induction 1 as [|o ops Ho _ IH]; intros a h R; cbn; [eauto|].
  destruct (crep_step a h o R Ho) as (a' & -> & R'). cbn. by apply IH.
Qed.

(** Reading the changelog and copying do not disturb the map, whatever the keys. *)
Lemma arep_get a m : ARep a m → ARep (snd (get_changelog a)) m.
Proof. intros R. unfold get_changelog. destruct (a_cached a); cbn; [done|]. by destruct R as [[] ? ?]. Qed.
Lemma arep_cstep a h o : ARep a (ch_now h) → cop_nonzero o → ∃ a', cop_run a o = Ok a' ∧ ARep a' (ch_now (chist_step h o)).
Proof.
  intros R Ho. destruct o as [o| | |]; cbn [cop_run chist_step ch_now].
  - by apply arep_step.
  - eexists. split; [done|]. apply arep_get in R. unfold consume_changelog. destruct (get_changelog a) as [c a']. cbn in *. by destruct R as [[] ? ?].
  - eexists. split; [done|]. by apply arep_get.
  - eexists. split; [done|]. by destruct R as [[] ? ?].
Qed.
Lemma arep_crun ops : Forall cop_nonzero ops → ∀ a h, ARep a (ch_now h) →
  ∃ a', foldM cop_run ops a = Ok a' ∧ ARep a' (ch_now (foldl chist_step h ops)).
Proof.
  induction 1 as [|o ops Ho _ IH]; intros a h R; cbn; [eauto|].
  destruct (arep_cstep a h o R Ho) as (a' & -> & R'). cbn. by apply IH.
Qed.
