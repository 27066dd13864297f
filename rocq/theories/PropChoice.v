(** * Property C89: which package UndeterminedClausePolicy suggests. *)
From Verif Require Import SpecChoice PolicyProofs ConstraintProofs.

Lemma leb_not_vlt a b : ver_leb a b = true → ¬ vlt b a.
Proof. rewrite ver_leb_le. unfold vlt. lia. Qed.
Lemma awf_keeps a : AWf a → keeps_account a.
Proof. intros W k. by apply awf_abs. Qed.

Section choice.
  Context (env : uc_env) (Hord : ∀ n X, uc_order env n X ≡ₚ elements X).
  Context (Hpref : ∀ x, x ∈ uc_prefer env → 0 < x ∧ is_Some (uc_version env x)).

  Lemma open_iff a x : keeps_account a → 0 < x → open a x ↔ x ∉ a_assigned a.
  Proof. intros H Hx. specialize (H x). rewrite Z.abs_eq in H by lia. unfold open. by rewrite <-H, eq_None_not_Some. Qed.
  Definition good_ids (ids : gset Z) : Prop := ∀ x, x ∈ ids → 0 < x ∧ is_Some (uc_version env x).
  Lemma candidate n ids a : good_ids ids → keeps_account a →
    (best_candidate env n ids a = Ok (None, ids ∖ a_assigned a) ∧ ∀ x, x ∈ ids → ¬ open a x) ∨
    ∃ v, best_candidate env n ids a = Ok (Some v, ids ∖ a_assigned a) ∧ newest_of (uc_version env) (λ u, u ∈ ids ∧ open a u) v.
  Proof.
    intros Hids Hk. unfold best_candidate.
    assert (Ho : ∀ x, x ∈ uc_order env n (ids ∖ a_assigned a) ↔ x ∈ ids ∧ open a x).
    { intros x. rewrite Hord, elem_of_elements, elem_of_difference. split; intros [H1 H2]; (split; [done|]); apply (open_iff a x Hk); try done; by apply Hids. }
    destruct (max_by_version_spec (uc_version env) (uc_order env n (ids ∖ a_assigned a))) as [[E ->]|(m & mv & -> & Hm & Hmv & Hall)].
    - intros x [Hx _]%Ho. by apply Hids.
    - left. split; [done|]. intros x Hx Hox. assert (x ∈ @nil Z) as H by (rewrite <-E; by apply Ho). by apply elem_of_nil in H.
    - right. exists m. split; [done|]. split; [by apply Ho|]. intros u Hu. assert (Hu' := proj2 (Ho u) Hu). destruct (Hids u (proj1 Hu)) as [_ [uv Huv]].
      exists uv, mv. split; [done|]. split; [done|]. apply leb_not_vlt. by apply (Hall u).
  Qed.
  Lemma refreshed a cls p q a' : keeps_account a → known_vars env cls → refresh env a cls p = (q, a') →
    (∀ k, aset_value a' k = aset_value a k) ∧ keeps_account a' ∧ uc_clock q = uc_clock p ∧ uc_requirements q = uc_requirements p ∧
    (∀ x, x ∈ uc_decision q ↔ undetermined a cls x) ∧
    (∀ x, x ∈ uc_all q ↔ (∃ c l, c ∈ cls ∧ l ∈ c ∧ x = Z.abs l) ∨ x ∈ uc_prefer env).
  Proof.
    intros Hk Hv. unfold refresh. destruct (consume_fields a) as (E1 & E2 & E3). destruct (consume_changelog a) as [ch b]. cbn [snd] in E1, E2, E3.
    intros [= <- <-]. assert (Hval : ∀ k, aset_value b k = aset_value a k) by (intros k; unfold aset_value; by rewrite E1).
    split; [done|]. split; [intros k; rewrite Hval, E3; apply Hk|]. split; [done|]. split; [done|].
    split; intros x; cbn [uc_decision uc_all].
    - rewrite elem_of_difference, elem_of_list_to_set, elem_of_list_fmap, E3. setoid_rewrite elem_of_list_join. setoid_rewrite elem_of_list_filter.
      assert (Hc : ∀ c, Forall (λ l, aset_value b l ≠ Some true) c ↔ not_yet_true a c).
      { intros c. rewrite Forall_forall. unfold not_yet_true. by setoid_rewrite Hval. }
      setoid_rewrite Hc. split.
      + intros [(l & -> & c & Hl & Hn & Hc') Hx]. destruct (Hv c l Hc' Hl) as [Hl0 _]. split; [apply open_iff; [done|lia|done]|]. by exists c, l.
      + intros [Ho (c & l & Hc' & Hn & Hl & ->)]. destruct (Hv c l Hc' Hl) as [Hl0 _]. split; [by exists l; split; [|exists c]|]. apply open_iff; [done|lia|done].
    - rewrite elem_of_union, !elem_of_list_to_set, elem_of_list_fmap. setoid_rewrite elem_of_list_join. naive_solver.
  Qed.

  (** The decision set of a policy object with a history. *)
  Definition since (calls : list (aset * list (list Z))) (D : gset Z) (strict : bool) : Prop :=
    ∃ earlier b cls later, calls = earlier ++ (b, cls) :: later ∧ (strict = true → later = []) ∧ known_vars env cls ∧ keeps_account b ∧
      (∀ x, x ∈ D → undetermined b cls x) ∧ ∀ u, undetermined b cls u → (∀ a, a ∈ later.*1 → open a u) → u ∈ D.
  Definition memory (calls : list (aset * list (list Z))) (req : list Z) (p : uc_state) : Prop :=
    (uc_decision p = ∅ ∨ since calls (uc_decision p) false) ∧ good_ids (uc_decision p) ∧ good_ids (uc_requirements p) ∧
    ∀ x, x ∈ uc_requirements p ↔ x ∈ req.
  Lemma undetermined_good a cls x : known_vars env cls → undetermined a cls x → 0 < x ∧ is_Some (uc_version env x).
  Proof. intros Hv (_ & c & l & Hc & _ & Hl & ->). destruct (Hv c l Hc Hl) as [? ?]. split; [lia|done]. Qed.

  Lemma first_open_spec a v : keeps_account a → best_sorted env a = Some v → first_open a (uc_prefer env) v.
  Proof.
    intros Hk. unfold best_sorted, first_open. assert (Hp : ∀ x, x ∈ uc_prefer env → 0 < x) by (intros x Hx; by apply Hpref). clear Hpref Hord.
    induction (uc_prefer env) as [|x l IH]; [done|]. rewrite filter_cons. assert (Hx0 : 0 < x) by (apply Hp; left). case_decide as Hx.
    - intros [= ->]. exists [], l. split; [done|]. split; [by apply open_iff|]. by intros ? ?%elem_of_nil.
    - intros E. destruct IH as (b & r & -> & Ho & Hb); [intros; apply Hp; by right|done|]. exists (x :: b), r. split; [done|]. split; [done|].
      intros u [->|Hu]%elem_of_cons; [|by apply Hb]. intros Hu%open_iff; done.
  Qed.
  Lemma first_open_none a : keeps_account a → best_sorted env a = None → none_open a (λ u, u ∈ uc_prefer env).
  Proof.
    intros Hk E u Hu. unfold best_sorted in E. destruct (Hpref u Hu) as [H0 _]. rewrite open_iff by done. intros Hn.
    assert (H : u ∈ filter (λ v, v ∉ a_assigned a) (uc_prefer env)) by (by apply elem_of_list_filter).
    destruct (filter _ _); [by apply elem_of_nil in H|done].
  Qed.
  Lemma return_some c p a v p' a' : uc_return c p a = Ok (v, p', a') → c = Some v ∧ open a v ∧ p' = p ∧ a' = a.
  Proof. unfold uc_return, open. destruct c as [w|]; [|done]. destruct (aset_value a w) eqn:E; [done|]. intros [= -> -> ->]. done. Qed.

  Lemma since_call calls a cls D : since calls D false → a_new a = ∅ → since (calls ++ [(a, cls)]) D (bool_decide (a_new a ≠ ∅)).
  Proof.
    intros (e & b & cls' & later & -> & _ & Hv & Hk & H1 & H2) Hn. exists e, b, cls', (later ++ [(a, cls)]).
    split; [by rewrite <-(assoc_L (++))|]. split; [intros H%bool_decide_eq_true; by rewrite Hn in H|]. split; [done|]. split; [done|]. split; [done|].
    intros u Hu Hl. apply H2; [done|]. intros a' Ha. apply Hl. rewrite fmap_app, elem_of_app. by left.
  Qed.
  (** One call. *)
  Lemma call_spec calls req p a cls v p' a' : memory calls req p → keeps_account a → known_vars env cls →
    uc_policy env p a cls = Ok (v, p', a') → open a v ∧ right_choice env calls req a cls v ∧ memory (calls ++ [(a, cls)]) req p'.
  Proof.
    intros (HD & HDg & HRg & HR) Hk Hv H. unfold uc_policy in H.
    set (pa := if decide (a_new a = ∅) then (p, a) else refresh env a cls p) in H.
    assert (Hpa : ∃ q b, pa = (q, b) ∧ (∀ k, aset_value b k = aset_value a k) ∧ keeps_account b ∧ uc_requirements q = uc_requirements p ∧
      ((a_new a = ∅ ∧ uc_decision q = ∅) ∨ since (calls ++ [(a, cls)]) (uc_decision q) (bool_decide (a_new a ≠ ∅))) ∧ good_ids (uc_decision q)).
    { unfold pa. case_decide as Hn.
      - exists p, a. do 4 (split; [done|]). split; [|done]. destruct HD as [HD|HD]; [by left|right; by apply since_call].
      - destruct (refresh env a cls p) as [q b] eqn:Er. destruct (refreshed _ _ _ _ _ Hk Hv Er) as (Hval & Hkb & _ & Hreq & Hdec & _).
        exists q, b. do 4 (split; [done|]). split; [|intros x Hx; apply Hdec in Hx; by apply (undetermined_good a cls)]. right. exists calls, a, cls, [].
        split; [done|]. do 3 (split; [done|]). split; [apply Hdec|]. intros u Hu _. by apply Hdec. }
    destruct Hpa as (q & b & -> & Hval & Hkb & Hreq & Hsince & Hqg). cbn [fst snd] in H.
    assert (Hob : ∀ x, open b x ↔ open a x) by (intros x; unfold open; by rewrite Hval).
    assert (Hweak : (a_new a = ∅ ∧ uc_decision q = ∅) ∨ since (calls ++ [(a, cls)]) (uc_decision q) (bool_decide (a_new a ≠ ∅)) →
      uc_decision q = ∅ ∨ since (calls ++ [(a, cls)]) (uc_decision q) false).
    { intros [[_ ?]|(e & b' & c' & l & ? & ? & Hs)]; [by left|right]. exists e, b', c', l. split; [done|]. split; [done|]. exact Hs. }
    assert (Hmem : ∀ c, memory (calls ++ [(a, cls)]) req (UcState c (uc_decision q) (uc_requirements q) (uc_all q))).
    { intros c. split; [by apply Hweak|]. rewrite Hreq. done. }
    destruct (best_sorted env b) as [w|] eqn:Eb.
    { apply return_some in H as ([= ->] & Ho & -> & ->). split; [by apply Hob|]. split; [|destruct q; apply Hmem].
      left. destruct (first_open_spec b v Hkb Eb) as (x & y & E1 & E2 & E3). exists x, y. split; [done|]. split; [by apply Hob|]. intros u Hu. rewrite <-Hob. by apply E3. }
    assert (Hnp : none_open a (λ u, u ∈ uc_prefer env)).
    { intros u Hu. rewrite <-Hob. by apply (first_open_none b Hkb Eb). }
    destruct (candidate (uc_clock q) (uc_requirements q) b) as [[E Hno]|(w & E & Hw)]; [by rewrite Hreq|done|..]; rewrite E in H; cbn [mbind res_bind fst snd] in H.
    2:{ apply return_some in H as ([= ->] & Ho & -> & ->). split; [by apply Hob|]. split; [|apply Hmem].
        right. split; [done|]. left. destruct Hw as [[Hw1 Hw2] Hw]. rewrite Hreq in Hw1. split; [split; [by apply HR|by apply Hob]|].
        intros u [Hu1 Hu2]. apply Hw. rewrite Hreq. split; [by apply HR|by apply Hob]. }
    assert (Hnr : none_open a (λ u, u ∈ req)).
    { intros u Hu. rewrite <-Hob. apply Hno. rewrite Hreq. by apply HR. }
    set (p2 := tick q) in H. change (uc_decision p2) with (uc_decision q) in H.
    destruct (candidate (uc_clock p2) (uc_decision q) b) as [[E2 Hno2]|(w & E2 & Hw)]; [done|done|..]; rewrite E2 in H; cbn [mbind res_bind fst snd] in H.
    2:{ apply return_some in H as ([= ->] & Ho & -> & ->). destruct Hw as [[Hw1 Hw2] Hw]. destruct Hsince as [[_ HE]|(e & b' & c' & later & Ec & Hst & Hv' & Hk' & HD1 & HD2)]; [rewrite HE in Hw1; set_solver|].
        split; [by apply Hob|]. split.
        - right. split; [done|]. right. split; [done|]. left. exists e, b', c', later. split; [done|]. split; [intros Hn; apply Hst; by apply bool_decide_eq_true|].
          split; [by apply HD1|]. split; [by apply Hob|]. intros u Hu Hl. apply Hw. split; [by apply HD2|]. apply Hob.
          assert (later = [] ∨ a ∈ later.*1) as [->|Hla].
          { destruct later as [|z later] using rev_ind; [by left|right]. clear IHlater. rewrite app_comm_cons, (assoc_L (++)) in Ec. apply app_inj_tail in Ec as [_ <-].
            rewrite fmap_app, elem_of_app. right. left. }
          + apply (app_inj_tail calls e (a, cls) (b', c')) in Ec as [_ [= <- <-]]. by destruct Hu.
          + by apply Hl.
        - split; [|split; [|split; [rewrite <-Hreq in HRg; exact HRg|cbn; rewrite Hreq; exact HR]]].
          + right. cbn [uc_decision set_decision]. exists e, b', c', later. split; [done|]. split; [done|]. split; [done|]. split; [done|]. split; [intros x [Hx _]%elem_of_difference; by apply HD1|].
            intros u Hu Hl. apply elem_of_difference. split; [by apply HD2|]. assert (Hg := undetermined_good _ _ _ Hv' Hu).
            rewrite <-(open_iff b u) by (done || apply Hg). apply Hob.
            assert (later = [] ∨ a ∈ later.*1) as [->|Hla].
            { destruct later as [|z later] using rev_ind; [by left|right]. clear IHlater. rewrite app_comm_cons, (assoc_L (++)) in Ec. apply app_inj_tail in Ec as [_ <-].
              rewrite fmap_app, elem_of_app. right. left. }
            * apply (app_inj_tail calls e (a, cls) (b', c')) in Ec as [_ [= <- <-]]. by destruct Hu.
            * by apply Hl.
          + cbn [uc_decision set_decision]. intros x [Hx _]%elem_of_difference. by apply Hqg. }
    (* the decision set is exhausted *)
    set (p3 := set_decision _ (tick p2)) in H. destruct (refresh env b cls p3) as [q4 b4] eqn:Er.
    destruct (refreshed _ _ _ _ _ Hkb Hv Er) as (Hval4 & Hk4 & _ & Hreq4 & Hdec4 & Hall4).
    assert (Hund : ∀ x, undetermined b cls x ↔ undetermined a cls x).
    { intros x. unfold undetermined, not_yet_true. rewrite Hob. by setoid_rewrite Hval. }
    assert (Ho4 : ∀ x, open b4 x ↔ open a x) by (intros x; rewrite <-Hob; unfold open; by rewrite Hval4).
    assert (Hg4 : good_ids (uc_decision q4)) by (intros x Hx%Hdec4; by apply (undetermined_good b cls)).
    assert (Hs4 : ∀ c al, memory (calls ++ [(a, cls)]) req (UcState c (uc_decision q4) (uc_requirements q4) al)).
    { intros c al. assert (Er4 : uc_requirements q4 = uc_requirements p) by (rewrite Hreq4; exact Hreq). split; [|split; [exact Hg4|cbn; rewrite Er4; done]]. right. exists calls, a, cls, []. do 4 (split; [done|]).
      split; [intros x Hx%Hdec4; by apply Hund|]. intros u Hu _. by apply Hdec4, Hund. }
    destruct (candidate (uc_clock q4) (uc_decision q4) b4) as [[E4 Hno4]|(w & E4 & Hw)]; [done|done|..]; rewrite E4 in H; cbn [mbind res_bind fst snd] in H.
    2:{ apply return_some in H as ([= ->] & Ho & -> & ->). destruct Hw as [[Hw1 Hw2] Hw]. split; [by apply Ho4|]. split; [|apply Hs4].
        right. split; [done|]. right. split; [done|]. left. exists calls, a, cls, []. do 2 (split; [done|]). split; [by apply Hund, Hdec4|]. split; [by apply Ho4|].
        intros u Hu _. apply Hw. split; [by apply Hdec4, Hund|apply Ho4; by destruct Hu]. }
    destruct (candidate (uc_clock (tick q4)) (uc_all (tick q4)) b4) as [[E5 Hno5]|(w & E5 & Hw)]; [|done|..].
    { intros x [(c & l & Hc & Hl & ->)|Hx]%Hall4; [|by apply Hpref]. destruct (Hv c l Hc Hl). split; [lia|done]. }
    { rewrite E5 in H. cbn [mbind res_bind fst snd] in H. done. }
    rewrite E5 in H. cbn [mbind res_bind fst snd] in H. apply return_some in H as ([= ->] & Ho & -> & ->). split; [by apply Ho4|]. split; [|apply Hs4].
    right. split; [done|]. right. split; [done|]. right. split.
    - intros u Hu. apply (Hno4 u); [by apply Hdec4, Hund|apply Ho4; by destruct Hu].
    - destruct Hw as [[Hw1 Hw2] Hw]. split.
      + split; [by apply Ho4|]. apply Hall4 in Hw1 as [?|Hp]; [done|]. exfalso. apply (Hnp v Hp). by apply Ho4.
      + intros u [Hu (c & l & Hc & Hl & ->)]. apply Hw. split; [apply Hall4; left; by exists c, l|by apply Ho4].
  Qed.
  Lemma asked_memory calls req p : asked env calls req p → memory calls req p.
  Proof.
    induction 1 as [|calls req p ids H IH Hi|calls req p a cls v p' a' H IH Hk Hv E].
    - split; [by left|]. split; [intros x Hx; set_solver|]. split; [intros x Hx; set_solver|]. intros x. rewrite elem_of_nil. set_solver.
    - destruct IH as (H1 & H2 & H3 & H4). split; [exact H1|]. split; [exact H2|]. cbn [uc_requirements uc_add_requirements]. split.
      + intros x [Hx|Hx%elem_of_list_to_set]%elem_of_union; [by apply H3|by apply Hi].
      + intros x. rewrite elem_of_union, elem_of_list_to_set, elem_of_app, H4. done.
    - by eapply call_spec.
  Qed.
End choice.

(** ** The theorems *)
(** At every call, after any history of one policy object with any assignments and clauses, the suggested variable is open and is the one that
    the priorities and the versions single out.  The iteration order of the sets is arbitrary. *)
Theorem C89_choice : ∀ env, (∀ n X, uc_order env n X ≡ₚ elements X) → (∀ x, x ∈ uc_prefer env → 0 < x ∧ is_Some (uc_version env x)) →
  ∀ calls req p a cls v p' a', asked env calls req p → keeps_account a → known_vars env cls →
  uc_policy env p a cls = Ok (v, p', a') → open a v ∧ right_choice env calls req a cls v.
Proof.
  intros env Hord Hpref calls req p a cls v p' a' H Hk Hv E. assert (Hm := asked_memory env Hord Hpref _ _ _ H).
  destruct (call_spec env Hord Hpref _ _ _ _ _ _ _ _ Hm Hk Hv E) as (H1 & H2 & _). done.
Qed.
(** The assignments objects that are built by assigning and unassigning variables keep account. *)
Theorem C89_keeps_account : ∀ items a, (∀ k b, (k, b) ∈ items → k ≠ 0) → aset_of items = Ok a → keeps_account a.
Proof.
  intros items a Hi E. apply awf_keeps. unfold aset_of in E. assert (W := awf_empty). revert Hi W E. generalize aset_empty.
  induction items as [|[k b] items IH]; intros a0 Hi W E; [by injection E as <-|]. cbn [foldM mbind res_bind fst snd] in E.
  destruct (aset_set_spec a0 k b W) as (a1 & E1 & W1 & _); [apply (Hi k b); left|]. rewrite E1 in E. cbn [mbind res_bind] in E.
  apply (IH a1); [|done|done]. intros k' b' H. apply (Hi k' b'). by right.
Qed.
(** Right after a refresh, that is, when a new key was assigned, the documented choice is made: without installed packages and
    requirements left, the suggestion is a newest undetermined variable as long as there is one. *)
Theorem C89_fresh : ∀ env, (∀ n X, uc_order env n X ≡ₚ elements X) → (∀ x, x ∈ uc_prefer env → 0 < x ∧ is_Some (uc_version env x)) →
  ∀ calls req p a cls v p' a', asked env calls req p → keeps_account a → known_vars env cls → a_new a ≠ ∅ →
  none_open a (λ u, u ∈ uc_prefer env) → none_open a (λ u, u ∈ req) → (∃ u, undetermined a cls u) →
  uc_policy env p a cls = Ok (v, p', a') → newest_of (uc_version env) (undetermined a cls) v.
Proof.
  intros env Hord Hpref calls req p a cls v p' a' H Hk Hv Hn Hp Hr [u Hu] E.
  destruct (C89_choice env Hord Hpref _ _ _ _ _ _ _ _ H Hk Hv E) as (Ho & [(b & c & E1 & H1 & _)|[_ [[[H1 _] _]|[_ [(e & b & cls' & later & E1 & Hl & Hv' & _ & Hm)|[H1 _]]]]]]).
  - exfalso. apply (Hp v); [|done]. rewrite E1. set_solver.
  - exfalso. by apply (Hr v).
  - rewrite (Hl Hn) in *. apply app_inj_tail in E1 as [_ [= <- <-]]. split; [done|]. intros w Hw. apply Hm; [done|]. by intros ? ?%elem_of_nil.
  - exfalso. by apply (H1 u).
Qed.

(** ** The documentation promises more *)
(** "Gathers all undetermined packages from clauses whose truth value is not yet known": the gathered set is refreshed only when a new key
    appears in the assignments or the set is used up, so that variables of clauses which have become true since are suggested before
    undetermined ones. *)
Definition undeterminedb (a : aset) (cls : list (list Z)) (x : Z) : bool :=
  bool_decide (aset_value a x = None) &&
  existsb (λ c, forallb (λ l, negb (bool_decide (aset_value a l = Some true))) c && bool_decide (x ∈ Z.abs <$> c)) cls.
Lemma undeterminedb_spec a cls x : undeterminedb a cls x = true ↔ undetermined a cls x.
Proof.
  unfold undeterminedb, undetermined, not_yet_true, open. rewrite andb_true_iff, bool_decide_eq_true, existsb_exists. apply and_iff_compat_l. split.
  - intros (c & Hc & [Hf Hx%bool_decide_eq_true]%andb_true_iff). apply elem_of_list_fmap in Hx as (l & -> & Hl). rewrite forallb_forall in Hf.
    exists c, l. split; [by apply elem_of_list_In|]. split; [|done]. intros l' Hl' E. specialize (Hf l' (proj1 (elem_of_list_In _ _) Hl')).
    by rewrite bool_decide_eq_true_2 in Hf.
  - intros (c & l & Hc & Hn & Hl & ->). exists c. split; [by apply elem_of_list_In|]. apply andb_true_iff. split.
    + apply forallb_forall. intros l' Hl'%elem_of_list_In. by rewrite bool_decide_eq_false_2 by (by apply Hn).
    + apply bool_decide_eq_true. apply elem_of_list_fmap. eauto.
Qed.
(** A policy that stops as soon as a variable outside the undetermined ones is suggested although there is an undetermined one. *)
Definition insisting {P} (pol : policy P) : policy P := λ p a cls,
  '(v, p', a') ← pol p a cls;
  if negb (undeterminedb a cls v) && existsb (undeterminedb a cls) (Z.abs <$> mjoin cls) then Raise AssertionError else Ok (v, p', a').
Definition plain_env : uc_env := UcEnv (λ v, Some (V v 0)) (λ _ X, elements X) [].
Definition two_clauses : list (list Z * option rule) := [([1; 2], None); ([3; 4], None)].
Theorem C89_stale_refuted : ∃ a,
  solve_clauses (uc_policy plain_env) 20 uc_new two_clauses = Ok (Normal a) ∧
  solve_clauses (insisting (uc_policy plain_env)) 20 uc_new two_clauses = Raise AssertionError.
Proof. eexists. split; vm_compute; reflexivity. Qed.
(** ** Non-vacuity *)
Example plain_ok : (∀ n X, uc_order plain_env n X ≡ₚ elements X) ∧ (∀ x, x ∈ uc_prefer plain_env → 0 < x ∧ is_Some (uc_version plain_env x)).
Proof. split; [done|]. intros x Hx. by apply elem_of_nil in Hx. Qed.
Definition table (items : list (Z * option bool)) : aset := match aset_of items with Ok a => a | Raise _ => aset_empty end.
Definition nothing_yet : aset := table [(1, None); (2, None); (3, None); (4, None)].
Definition with_four : aset := snd (consume_changelog (table [(1, None); (2, None); (3, None); (4, Some true)])).
Definition choice_of (p : uc_state) (a : aset) : option (Z * uc_state) :=
  match uc_policy plain_env p a two_clauses.*1 with Ok (v, p', _) => Some (v, p') | Raise _ => None end.
Lemma choice_of_ok p a v p' : choice_of p a = Some (v, p') → ∃ a', uc_policy plain_env p a two_clauses.*1 = Ok (v, p', a').
Proof. unfold choice_of. destruct (uc_policy _ _ _ _) as [[[w q] b]|]; [|done]. intros [= -> ->]. eauto. Qed.
Lemma table_keeps items a : forallb (λ kb, bool_decide (fst kb ≠ 0)) items = true → aset_of items = Ok a → keeps_account a.
Proof.
  intros H. apply C89_keeps_account. intros k b Hkb%elem_of_list_In. rewrite forallb_forall in H. by apply H, bool_decide_eq_true in Hkb.
Qed.
Lemma table_eq items : match aset_of items with Ok _ => true | Raise _ => false end = true → aset_of items = Ok (table items).
Proof. unfold table. by destruct (aset_of items). Qed.
(* the first call suggests 4; then 4 is assigned, [3; 4] is true, 2 is undetermined, and 3 is suggested *)
Example choice_example : ∃ p1 a1 p2 a2, uc_policy plain_env uc_new nothing_yet two_clauses.*1 = Ok (4, p1, a1) ∧ a_new nothing_yet ≠ ∅ ∧
  asked plain_env [(nothing_yet, two_clauses.*1)] [] p1 ∧
  keeps_account with_four ∧ known_vars plain_env two_clauses.*1 ∧ uc_policy plain_env p1 with_four two_clauses.*1 = Ok (3, p2, a2) ∧
  ¬ undetermined with_four two_clauses.*1 3 ∧ undetermined with_four two_clauses.*1 2.
Proof.
  assert (Hk : known_vars plain_env two_clauses.*1).
  { assert (H : Forall (Forall (λ l : Z, l ≠ 0)) two_clauses.*1) by (repeat constructor; discriminate).
    intros c l Hc Hl. rewrite Forall_forall in H. specialize (H c Hc). rewrite Forall_forall in H. split; [by apply H|]. by eexists. }
  assert (Ha : keeps_account nothing_yet) by (eapply table_keeps; [|apply table_eq]; vm_compute; reflexivity).
  assert (Hw : keeps_account with_four).
  { assert (H : keeps_account (table [(1, None); (2, None); (3, None); (4, Some true)])) by (eapply table_keeps; [|apply table_eq]; vm_compute; reflexivity).
    intros k. unfold with_four. destruct (consume_fields (table [(1, None); (2, None); (3, None); (4, Some true)])) as (E1 & _ & E3).
    unfold aset_value. rewrite E1, E3. apply H. }
  destruct (choice_of uc_new nothing_yet) as [[v p1]|] eqn:E1; [|vm_compute in E1; discriminate].
  assert (v = 4) as -> by (vm_compute in E1; congruence). assert (E1' := E1). apply choice_of_ok in E1 as [a1 E1].
  destruct (choice_of p1 with_four) as [[v p2]|] eqn:E2.
  - assert (v = 3) as ->.
    { assert (H : match choice_of uc_new nothing_yet with Some (_, q) => fst <$> choice_of q with_four | None => None end = Some 3) by (vm_compute; reflexivity).
      rewrite E1' in H. rewrite E2 in H. cbn in H. congruence. }
    apply choice_of_ok in E2 as [a2 E2]. exists p1, a1, p2, a2. split; [done|]. split; [intros H%(f_equal elements); vm_compute in H; discriminate|].
    split; [eapply (asked_call _ [] []); [constructor|done|done|exact E1]|]. do 3 (split; [done|]).
    rewrite <-!undeterminedb_spec. split; [apply not_true_iff_false|]; vm_compute; reflexivity.
  - exfalso. assert (H : match choice_of uc_new nothing_yet with Some (_, q) => fst <$> choice_of q with_four | None => None end = Some 3) by (vm_compute; reflexivity).
    rewrite E1', E2 in H. done.
Qed.
Print Assumptions C89_choice.
Print Assumptions C89_fresh.
Print Assumptions C89_keeps_account.
Print Assumptions C89_stale_refuted.
