(** * Scenario files: the loader does what the specification says. *)
From Verif Require Import ReqProofs PropParser PropPretty PoolProofs RulesProofs PrettyProofs.
From Verif Require Export SpecScenario.
From Coq Require Import Ascii String.
Open Scope list_scope.

Lemma bind_ok {A B} (m : res A) (f : A → res B) b : (m ≫= f) = Ok b ↔ ∃ a, m = Ok a ∧ f a = Ok b.
Proof. split; [apply mbind_ok|]. by intros (a & -> & H). Qed.
Lemma of_option_ok {A} e (o : option A) a : of_option e o = Ok a ↔ o = Some a.
Proof. destruct o; cbn; split; congruence. Qed.
Lemma mapM_res_iff {A B} (f : A → res B) l r : mapM_res f l = Ok r ↔ Forall2 (λ x y, f x = Ok y) l r.
Proof.
  split; [apply mapM_res_inv|]. induction 1 as [|x y l r E H IH]; [done|]. cbn. rewrite E. cbn. by rewrite IH.
Qed.
Lemma Forall2_iff {A B} (P Q : A → B → Prop) l r : (∀ x y, P x y ↔ Q x y) → Forall2 P l r ↔ Forall2 Q l r.
Proof. intros H. split; intros F; (eapply Forall2_impl; [exact F|]); intros; by apply H. Qed.

(** ** Package lines *)
Section lines.
  Context (vparse : text → res version) (vtext : text → text).
  Lemma version_of_line_spec s v :
    version_of_line s v ↔ ∃ n, parse_preamble (split_first ";" (strip s)).1 = Ok (n, v).
  Proof.
    split.
    - intros (b & pre & rest & n & -> & Hb & Hrest & Hp). exists n. destruct (preamble_chars _ _ _ Hp) as (Hs & Ht & Hne).
      destruct Hrest as [Hrest|(r & ->)].
      + rewrite (strip_trimmed b pre rest) by done. rewrite (split_first_none _ _ Hs). by apply preamble_spec.
      + assert (E0 := strip_pad b (pre ++ ";"%char :: r) [] Hb ltac:(constructor)). rewrite app_nil_r in E0. rewrite E0. clear E0.
        destruct (strip_spec (pre ++ ";"%char :: r)) as (x & y & E & Hx & Hy).
        assert (x = []) as ->.
        { destruct x as [|c x]; [done|]. destruct pre as [|c' pre]; [done|]. cbn in E. injection E as -> _.
          apply Forall_cons in Hx as [Hx _]. destruct Ht as [Ht _]. by rewrite (Ht c pre eq_refl) in Hx. }
        cbn [app] in E.
        assert (∃ r', strip (pre ++ ";"%char :: r) = pre ++ ";"%char :: r') as (r' & ->).
        { apply app_eq_inv in E as [(k & E1 & E2)|(k & E1 & E2)].
          - exfalso. subst y. apply Forall_app in Hy as [_ Hy]. apply Forall_cons in Hy as [Hy _]. discriminate Hy.
          - destruct k as [|c k]; [exfalso; cbn in E2; subst y; apply Forall_cons in Hy as [Hy _]; discriminate Hy|].
            injection E2 as <- E2. rewrite E1. eauto. }
        rewrite (split_first_at _ _ _ Hs). by apply preamble_spec.
    - intros (n & H). destruct (split_first ";" (strip s)) as [pre blocks] eqn:E. cbn [fst] in H.
      destruct (strip_spec s) as (b & b' & Hs & Hb & Hb'). apply split_first_inv in E as [Hn E]. apply preamble_spec in H.
      destruct blocks as [r|].
      + exists b, pre, (";"%char :: r ++ b'), n. split; [|eauto 10]. rewrite Hs, E. by rewrite <-!app_assoc.
      + exists b, pre, b', n. split; [|eauto 10]. by rewrite Hs, E.
  Qed.
  Lemma version_of_line_unique s v v' : version_of_line s v → version_of_line s v' → v = v'.
  Proof. intros (n & H)%version_of_line_spec (n' & H')%version_of_line_spec. congruence. Qed.

  Lemma parse_named_spec s f m : parse_named vparse vtext s = Ok (f, m) ↔ describes vparse vtext s f m.
  Proof.
    unfold parse_named, describes. rewrite bind_ok. split.
    - intros (m' & Hm & H). apply bind_ok in H as ([n v] & Hv & [= <- <-]). split; [done|]. exists v. split; [|done].
      apply version_of_line_spec. eauto.
    - intros (Hm & v & Hv & ->). exists m. split; [done|]. apply version_of_line_spec in Hv as (n & ->). done.
  Qed.
  Lemma describes_unique s f m f' m' : describes vparse vtext s f m → describes vparse vtext s f' m' → f = f' ∧ m = m'.
  Proof. intros H%parse_named_spec H'%parse_named_spec. rewrite H in H'. by injection H'. Qed.

  (** ** The dictionary *)
  Lemma odict_keys {A} (d : list (text * A)) k v : (odict_set d k v).*1 = if decide (k ∈ d.*1) then d.*1 else d.*1 ++ [k].
  Proof.
    induction d as [|[k' v'] d IH]; [done|]. cbn [odict_set]. destruct (decide (k' = k)) as [->|E].
    - rewrite decide_True by left. done.
    - rewrite fmap_cons, IH. cbn [fst fmap list_fmap]. destruct (decide (k ∈ d.*1)) as [H|H].
      + rewrite decide_True by (by right). done.
      + rewrite decide_False; [done|]. intros [->|?]%elem_of_cons; done.
  Qed.
  Lemma odict_elem {A} (d : list (text * A)) k v : NoDup d.*1 → ∀ k' v', (k', v') ∈ odict_set d k v ↔
    (k' = k ∧ v' = v) ∨ (k' ≠ k ∧ (k', v') ∈ d).
  Proof.
    induction d as [|[k0 v0] d IH]; intros Hd k' v'; cbn [odict_set].
    - rewrite elem_of_list_singleton. split; [intros [= -> ->]; by left|]. intros [[-> ->]|[_ H]]; [done|]. by apply elem_of_nil in H.
    - apply NoDup_cons in Hd as [Hn Hd]. destruct (decide (k0 = k)) as [->|E].
      + rewrite !elem_of_cons. split.
        * intros [[= -> ->]|H]; [by left|]. right. split; [|by right]. intros ->. apply Hn. apply elem_of_list_fmap. by exists (k, v').
        * intros [[-> ->]|[Hk [[= -> ->]|H]]]; [by left|done|by right].
      + rewrite !elem_of_cons, IH by done. split.
        * intros [[= -> ->]|[H|[H1 H2]]]; [|by left|]; right; auto.
        * intros [H|[H1 [H2|H2]]]; auto.
  Qed.
  Lemma remove_dups_snoc_rev (l : list text) x :
    rev (remove_dups (rev (l ++ [x]))) = if decide (x ∈ l) then rev (remove_dups (rev l)) else rev (remove_dups (rev l)) ++ [x].
  Proof.
    rewrite rev_app_distr. cbn [rev app remove_dups].
    destruct (decide (x ∈ l)) as [H|H].
    - destruct (decide_rel elem_of x (rev l)) as [H'|H']; [done|]. destruct H'. apply elem_of_list_In. rewrite <-in_rev. by apply elem_of_list_In.
    - destruct (decide_rel elem_of x (rev l)) as [H'|H']; [|done]. destruct H. apply elem_of_list_In. rewrite in_rev. by apply elem_of_list_In.
  Qed.
  Lemma elem_of_first_names (l : list text) x : x ∈ rev (remove_dups (rev l)) ↔ x ∈ l.
  Proof. rewrite elem_of_list_In, <-in_rev, <-elem_of_list_In, elem_of_remove_dups, elem_of_list_In, <-in_rev, <-elem_of_list_In. done. Qed.
  Lemma nodup_first_names (l : list text) : NoDup (rev (remove_dups (rev l))).
  Proof. rewrite <-Permutation_rev. apply NoDup_remove_dups. Qed.

  Definition dict_ok (lines : list text) (d : list (text * metadata)) : Prop :=
    all_names vparse vtext lines d.*1 ∧ ∀ f m, (f, m) ∈ d → known vparse vtext lines f m.
  Lemma all_names_snoc lines s f m names : describes vparse vtext s f m → all_names vparse vtext lines names →
    all_names vparse vtext (lines ++ [s]) (if decide (f ∈ names) then names else names ++ [f]).
  Proof.
    intros Hs (fulls & HF & ->). exists (fulls ++ [f]). split; [apply Forall2_app; [done|]; repeat constructor; eauto|].
    rewrite remove_dups_snoc_rev. destruct (decide (f ∈ fulls)) as [H|H].
    - rewrite decide_True; [done|]. by apply elem_of_first_names.
    - rewrite decide_False; [done|]. by rewrite elem_of_first_names.
  Qed.
  Lemma all_names_elem lines names f : all_names vparse vtext lines names →
    f ∈ names ↔ ∃ s m, s ∈ lines ∧ describes vparse vtext s f m.
  Proof.
    intros (fulls & HF & ->). rewrite elem_of_first_names. split.
    - intros (i & Hi)%elem_of_list_lookup. destruct (Forall2_lookup_r _ _ _ _ _ HF Hi) as (s & Hs & m & Hm).
      exists s, m. split; [|done]. by eapply elem_of_list_lookup_2.
    - intros (s & m & (i & Hi)%elem_of_list_lookup & Hm). destruct (Forall2_lookup_l _ _ _ _ _ HF Hi) as (g & Hg & m' & Hm').
      destruct (describes_unique _ _ _ _ _ Hm Hm') as [-> _]. by eapply elem_of_list_lookup_2.
  Qed.
  Lemma known_unique lines f m m' : known vparse vtext lines f m → known vparse vtext lines f m' → m = m'.
  Proof.
    intros (l1 & s & l2 & E & Hs & Hl) (k1 & t & k2 & E' & Ht & Hk). rewrite E in E'.
    destruct (decide (List.length l1 = List.length k1)) as [H|H].
    - apply app_inj_1 in E' as [_ [= -> _]]; [|done]. by destruct (describes_unique _ _ _ _ _ Hs Ht).
    - exfalso. apply app_eq_inv in E' as [(x & E1 & E2)|(x & E1 & E2)]; destruct x as [|y x];
        [rewrite app_nil_r in E1; by subst| |rewrite app_nil_r in E1; by subst|];
        cbn in E2; injection E2 as Ey E2; subst y.
      + apply (Hk s m); [|done]. rewrite E2. apply elem_of_app. right. left.
      + apply (Hl t m'); [|done]. rewrite E2. apply elem_of_app. right. left.
  Qed.
  Lemma known_elem lines f : (∃ m, known vparse vtext lines f m) ↔ ∃ s m, s ∈ lines ∧ describes vparse vtext s f m.
  Proof.
    split.
    - intros (m & l1 & s & l2 & -> & Hs & _). exists s, m. split; [|done]. apply elem_of_app. right. left.
    - intros (s & m & Hs & Hm). induction lines as [|t lines IH] using rev_ind; [by apply elem_of_nil in Hs|].
      destruct (parse_named vparse vtext t) as [[g x]|] eqn:Et.
      + apply parse_named_spec in Et. destruct (decide (g = f)) as [->|Hg].
        * exists x, lines, t, []. split; [done|]. split; [done|]. by intros ?? ?%elem_of_nil.
        * assert (s ∈ lines) as Hs'.
          { apply elem_of_app in Hs as [?|Hs]; [done|]. apply elem_of_list_singleton in Hs as ->. by destruct (describes_unique _ _ _ _ _ Hm Et). }
          destruct (IH Hs') as (m' & l1 & u & l2 & -> & Hu & Hl). exists m', l1, u, (l2 ++ [t]). rewrite <-app_assoc. split; [done|]. split; [done|].
          intros v y [Hv|Hv]%elem_of_app; [by apply Hl|]. apply elem_of_list_singleton in Hv as ->. intros Hy. by destruct (describes_unique _ _ _ _ _ Hy Et).
      + assert (s ∈ lines) as Hs'.
        { apply elem_of_app in Hs as [?|Hs]; [done|]. apply elem_of_list_singleton in Hs as ->. apply parse_named_spec in Hm. congruence. }
        destruct (IH Hs') as (m' & l1 & u & l2 & -> & Hu & Hl). exists m', l1, u, (l2 ++ [t]). rewrite <-app_assoc. split; [done|]. split; [done|].
        intros v y [Hv|Hv]%elem_of_app; [by apply Hl|]. apply elem_of_list_singleton in Hv as ->. intros Hy%parse_named_spec. congruence.
  Qed.
  Lemma all_names_unique lines n n' : all_names vparse vtext lines n → all_names vparse vtext lines n' → n = n'.
  Proof.
    intros (k & Hk & ->) (k' & Hk' & ->). assert (k = k') as ->; [|done]. revert k' Hk'. induction Hk as [|s f lines k [m Hm] Hk IH]; intros k' Hk'.
    - by inversion Hk'.
    - apply Forall2_cons_inv_l in Hk' as (f' & k'' & [m' Hm'] & Hk' & ->). destruct (describes_unique _ _ _ _ _ Hm Hm') as [-> _]. f_equal. by apply IH.
  Qed.

  Lemma parse_packages_sound lines d : parse_packages vparse vtext lines = Ok d → dict_ok lines d.
  Proof.
    unfold parse_packages. revert d. induction lines as [|s lines IH] using rev_ind; intros d H.
    - injection H as <-. split; [exists []; by split; [constructor|]|]. by intros ?? ?%elem_of_nil.
    - apply foldM_snoc_inv in H as (d0 & H0 & H). apply bind_ok in H as ([k m] & Hs & [= <-]).
      apply parse_named_spec in Hs. destruct (IH _ H0) as [Hn Hd]. split.
      + rewrite odict_keys. by eapply all_names_snoc.
      + intros f m'. rewrite odict_elem by (destruct Hn as (fulls & _ & ->); apply nodup_first_names).
        intros [[-> ->]|[Hf Hin]].
        * exists lines, s, []. split; [done|]. split; [done|]. by intros ?? ?%elem_of_nil.
        * destruct (Hd _ _ Hin) as (l1 & t & l2 & -> & Ht & Hl). exists l1, t, (l2 ++ [s]). split; [by rewrite <-app_assoc|]. split; [done|].
          intros s' x [Hs'|Hs']%elem_of_app; [by apply Hl|]. apply elem_of_list_singleton in Hs' as ->. intros Hx. by destruct (describes_unique _ _ _ _ _ Hs Hx).
  Qed.
  Lemma dict_ok_unique lines d d' : dict_ok lines d → dict_ok lines d' → d = d'.
  Proof.
    intros [Hn Hd] [Hn' Hd']. assert (E := all_names_unique _ _ _ Hn Hn'). clear Hn Hn'. revert d' E Hd'.
    induction d as [|[f m] d IH]; intros [|[f' m'] d'] E Hd'; try done. injection E as -> E. f_equal.
    - f_equal. apply (known_unique lines f'); [apply Hd|apply Hd']; left.
    - apply IH; [|done|]; intros ???; [apply Hd|apply Hd']; by right.
  Qed.
  Lemma parse_packages_spec lines d : parse_packages vparse vtext lines = Ok d ↔ dict_ok lines d.
  Proof.
    split; [apply parse_packages_sound|]. intros Hd.
    assert (∃ d', parse_packages vparse vtext lines = Ok d') as [d' Hd'].
    { destruct Hd as [(fulls & HF & _) _]. clear d. unfold parse_packages. generalize (@nil (text * metadata)).
      induction HF as [|s f lines fulls [m Hm] HF IH]; intros d; [by eexists|]. cbn. apply parse_named_spec in Hm. rewrite Hm. cbn. apply IH. }
    rewrite Hd'. f_equal. apply (dict_ok_unique lines); [|done]. by apply parse_packages_sound.
  Qed.
  Lemma odict_get_ok {A} (d : list (text * A)) k v : NoDup d.*1 → odict_get d k = Ok v ↔ (k, v) ∈ d.
  Proof.
    intros Hd. unfold odict_get. destruct (list_find _ d) as [[i [k' v']]|] eqn:E.
    - apply list_find_Some in E as (Hi & Hk & _). cbn in Hk. subst k'. split.
      + intros [= <-]. by eapply elem_of_list_lookup_2.
      + intros (j & Hj)%elem_of_list_lookup. assert (i = j) as <-; [|rewrite Hi in Hj; by injection Hj as ->].
        apply (NoDup_lookup d.*1 i j k); [done|by rewrite list_lookup_fmap, Hi|by rewrite list_lookup_fmap, Hj].
    - apply list_find_None in E. split; [done|]. intros H. rewrite Forall_forall in E. by destruct (E _ H).
  Qed.
  Lemma dict_get lines d f m : dict_ok lines d → odict_get d f = Ok m ↔ known vparse vtext lines f m.
  Proof.
    intros [Hn Hd]. rewrite odict_get_ok by (destruct Hn as (fulls & _ & ->); apply nodup_first_names). split; [apply Hd|].
    intros Hk. assert (f ∈ d.*1) as H. { apply (all_names_elem _ _ _ Hn). apply known_elem. eauto. }
    apply elem_of_list_fmap in H as ([f' m'] & -> & H). cbn in *. by rewrite (known_unique _ _ _ _ Hk (Hd _ _ H)).
  Qed.
  Lemma factory_spec lines d names ms : dict_ok lines d →
    repository_factory names d = Ok ms ↔ Forall2 (known vparse vtext lines) names ms.
  Proof. intros Hd. unfold repository_factory. rewrite mapM_res_iff. apply Forall2_iff. intros x y. by apply dict_get. Qed.
  Lemma factory_all d : NoDup d.*1 → repository_factory d.*1 d = Ok d.*2.
  Proof.
    intros Hd. unfold repository_factory. apply mapM_res_iff. apply Forall2_fmap_2. apply Forall_Forall2_diag. apply Forall_forall.
    intros [k v] H. by apply odict_get_ok.
  Qed.

  (** ** Expected operations *)
  Lemma P_spec s m : P vparse vtext s = Ok m ↔ says_package vparse vtext s m.
  Proof.
    unfold P, says_package. rewrite bind_ok. split.
    - intros (t & Ht%of_option_ok & H). apply bind_ok in H as ([f m'] & Hf & [= <-]). exists t, f. split; [done|]. by apply parse_named_spec.
    - intros (t & f & -> & H%parse_named_spec). exists t. split; [done|]. by rewrite H.
  Qed.
  Lemma one_operation_spec o x : one_operation vparse vtext o = Ok x ↔ op_says vparse vtext o x.
  Proof.
    unfold one_operation, op_says. rewrite bind_ok. split.
    - intros (k & Hk%of_option_ok & H). repeat case_decide; subst; [left|right; left|right; right|done].
      + apply bind_ok in H as (p & Hp%P_spec & [= <-]). eauto.
      + apply bind_ok in H as (p & Hp%P_spec & H). apply bind_ok in H as (q & Hq%P_spec & [= <-]). eauto 10.
      + apply bind_ok in H as (p & Hp%P_spec & [= <-]). eauto.
    - intros [(-> & p & Hp%P_spec & ->)|[(-> & p & q & Hp%P_spec & Hq%P_spec & ->)|(-> & p & Hp%P_spec & ->)]]; eexists; (split; [reflexivity|]);
        repeat case_decide; try done; rewrite Hp; cbn; [done| |done]. by rewrite Hq.
  Qed.
End lines.

(** ** Modifiers *)
Definition mod_pairs (ms : list (string * list string)) : list (string * string) := kv ← ms; n ← kv.2; [(kv.1, n)].
Definition mod_step (rq : request) (kn : string * string) : res request :=
  a ← request_attribute kn.1; call_with_name rq a kn.2.
Lemma load_modifiers_flat ms : ∀ rq, load_modifiers rq ms = foldM mod_step (mod_pairs ms) rq.
Proof.
  unfold load_modifiers. induction ms as [|[k ns] ms IH]; intros rq; [done|].
  change (mod_pairs ((k, ns) :: ms)) with ((n ← ns; [(k, n)]) ++ mod_pairs ms). rewrite foldM_app. cbn [foldM fst snd].
  assert (E : ∀ rq, foldM (λ rq n, a ← request_attribute k; call_with_name rq a n) ns rq = foldM mod_step (n ← ns; [(k, n)]) rq).
  { clear. induction ns as [|n ns IH]; intros rq; [done|].
    change (foldM mod_step (n0 ← n :: ns; [(k, n0)]) rq) with (b ← mod_step rq (k, n); foldM mod_step (n0 ← ns; [(k, n0)]) b).
    rewrite foldM_cons. change (mod_step rq (k, n)) with (a ← request_attribute k; call_with_name rq a n).
    destruct (a ← request_attribute k; call_with_name rq a n); cbn [mbind res_bind]; [apply IH|done]. }
  rewrite E. destruct (foldM mod_step _ rq); cbn; [apply IH|done].
Qed.
Lemma elem_of_mod_pairs ms k n : (k, n) ∈ mod_pairs ms ↔ ∃ ns, (k, ns) ∈ ms ∧ n ∈ ns.
Proof.
  unfold mod_pairs. rewrite elem_of_list_bind. split.
  - intros ([k' ns] & H & Hin). apply elem_of_list_bind in H as (n' & H & Hn). apply elem_of_list_singleton in H as [= -> ->]. eauto.
  - intros (ns & Hin & Hn). exists (k, ns). split; [|done]. apply elem_of_list_bind. exists n. split; [|done]. by apply elem_of_list_singleton.
Qed.
Definition mods_like (ps : list (string * string)) (rq0 rq : request) : Prop :=
  rq_jobs rq = rq_jobs rq0 ∧
  (∀ n, n ∈ allow_newer (rq_mods rq) ↔ n ∈ allow_newer (rq_mods rq0) ∨ ("allow_newer", n) ∈ ps) ∧
  (∀ n, n ∈ allow_any (rq_mods rq) ↔ n ∈ allow_any (rq_mods rq0) ∨ ("allow_any", n) ∈ ps) ∧
  (∀ n, n ∈ allow_older (rq_mods rq) ↔ n ∈ allow_older (rq_mods rq0) ∨ ("allow_older", n) ∈ ps) ∧
  (∀ k n, (k, n) ∈ ps → k = "allow_newer" ∨ k = "allow_any" ∨ k = "allow_older").
Lemma mods_like_unique ps rq0 rq rq' : mods_like ps rq0 rq → mods_like ps rq0 rq' → rq = rq'.
Proof.
  intros (J & N & A & O & _) (J' & N' & A' & O' & _). destruct rq as [[n a o] j], rq' as [[n' a' o'] j']. cbn in *. subst j j'.
  assert (n = n') as -> by (apply set_eq; intros x; by rewrite N, N').
  assert (a = a') as -> by (apply set_eq; intros x; by rewrite A, A').
  assert (o = o') as -> by (apply set_eq; intros x; by rewrite O, O'). done.
Qed.
Lemma mod_step_ok rq k n rq' : mod_step rq (k, n) = Ok rq' → mods_like [(k, n)] rq rq'.
Proof.
  unfold mod_step, request_attribute. cbn [fst snd].
  assert (U : ∀ (x y : string) (X : gset string) (a : string), x ∈ ({[y]} ∪ X : gset string) ↔ x ∈ X ∨ (a, x) ∈ [(a, y)]).
  { intros x y X a. rewrite elem_of_union, elem_of_singleton, elem_of_list_singleton. split; [intros [->|?]; auto|].
    intros [?|[= ->]]; auto. }
  assert (W : ∀ (x y : string) (X : gset string) (a b : string), a ≠ b → x ∈ X ↔ x ∈ X ∨ (a, x) ∈ [(b, y)]).
  { intros x y X a b Hab. rewrite elem_of_list_singleton. split; [by left|]. by intros [?|[= ? _]]. }
  assert (K : ∀ k n : string, k = "allow_newer" ∨ k = "allow_any" ∨ k = "allow_older" → ∀ k' n' : string, (k', n') ∈ [(k, n)] →
    k' = "allow_newer" ∨ k' = "allow_any" ∨ k' = "allow_older").
  { intros ?? H ?? E. by apply elem_of_list_singleton in E as [= -> ->]. }
  repeat case_decide; subst; cbn [mbind res_bind call_with_name do_call]; try done; intros [= <-]; (split; [done|]); cbn;
    (split; [|split; [|split]]); first [by apply K; auto|intros x; by apply U|intros x; by apply W].
Qed.
Lemma mod_steps_ok ps : ∀ rq rq', foldM mod_step ps rq = Ok rq' → mods_like ps rq rq'.
Proof.
  induction ps as [|[k n] ps IH]; intros rq rq' H.
  - injection H as <-. repeat split; try by left. 1-3: intros [?|?%elem_of_nil]; done. by intros ?? ?%elem_of_nil.
  - cbn [foldM] in H. apply bind_ok in H as (rq1 & H1 & H2). apply mod_step_ok in H1. apply IH in H2.
    destruct H1 as (J & N & A & O & K), H2 as (J' & N' & A' & O' & K').
    split; [by rewrite J'|]. split; [|split; [|split]].
    + intros x. rewrite N', N, elem_of_list_singleton, elem_of_cons. tauto.
    + intros x. rewrite A', A, elem_of_list_singleton, elem_of_cons. tauto.
    + intros x. rewrite O', O, elem_of_list_singleton, elem_of_cons. tauto.
    + intros k' n' [H|H]%elem_of_cons; [apply (K k' n'); by apply elem_of_list_singleton|by eapply K'].
Qed.
Lemma mod_steps_total ps : (∀ k n, (k, n) ∈ ps → k = "allow_newer" ∨ k = "allow_any" ∨ k = "allow_older") →
  ∀ rq, ∃ rq', foldM mod_step ps rq = Ok rq'.
Proof.
  induction ps as [|[k n] ps IH]; intros K rq; [by eexists|]. cbn [foldM].
  assert (∃ rq1, mod_step rq (k, n) = Ok rq1) as [rq1 ->].
  { destruct (K k n) as [H|[H|H]]; [left|subst k; by eexists..]. }
  cbn. apply IH. intros k' n' H. apply (K k' n'). by right.
Qed.
Definition mods_loaded (ms : list (string * list string)) (m : modifiers) : Prop :=
  (∀ n, n ∈ allow_newer m ↔ ∃ ns, ("allow_newer", ns) ∈ ms ∧ n ∈ ns) ∧
  (∀ n, n ∈ allow_any m ↔ ∃ ns, ("allow_any", ns) ∈ ms ∧ n ∈ ns) ∧
  (∀ n, n ∈ allow_older m ↔ ∃ ns, ("allow_older", ns) ∈ ms ∧ n ∈ ns) ∧
  (∀ k ns, (k, ns) ∈ ms → ns ≠ [] → k = "allow_newer" ∨ k = "allow_any" ∨ k = "allow_older").
Lemma mods_loaded_like ms rq : mods_like (mod_pairs ms) (request_new no_mods) rq ↔ rq_jobs rq = [] ∧ mods_loaded ms (rq_mods rq).
Proof.
  unfold mods_like, mods_loaded. cbn [rq_jobs rq_mods request_new no_mods allow_newer allow_any allow_older].
  split; intros (J & N & A & O & K); (split; [done|]).
  - split; [|split; [|split]].
    + intros n. rewrite N, elem_of_mod_pairs. split; [intros [?%not_elem_of_empty|?]; done|by right].
    + intros n. rewrite A, elem_of_mod_pairs. split; [intros [?%not_elem_of_empty|?]; done|by right].
    + intros n. rewrite O, elem_of_mod_pairs. split; [intros [?%not_elem_of_empty|?]; done|by right].
    + intros k [|n ns] Hin Hne; [done|]. apply (K k n). apply elem_of_mod_pairs. exists (n :: ns). split; [done|left].
  - split; [|split; [|split]].
    + intros n. rewrite N, elem_of_mod_pairs. split; [by right|intros [?%not_elem_of_empty|?]; done].
    + intros n. rewrite A, elem_of_mod_pairs. split; [by right|intros [?%not_elem_of_empty|?]; done].
    + intros n. rewrite O, elem_of_mod_pairs. split; [by right|intros [?%not_elem_of_empty|?]; done].
    + intros k n (ns & Hin & Hn)%elem_of_mod_pairs. apply (K k ns Hin). intros ->. by apply elem_of_nil in Hn.
Qed.
Lemma load_modifiers_spec ms rq : load_modifiers (request_new no_mods) ms = Ok rq ↔ rq_jobs rq = [] ∧ mods_loaded ms (rq_mods rq).
Proof.
  rewrite load_modifiers_flat, <-mods_loaded_like. split; [apply mod_steps_ok|].
  intros H. destruct (mod_steps_total (mod_pairs ms) (proj2 (proj2 (proj2 (proj2 H)))) (request_new no_mods)) as [rq' Hrq'].
  rewrite Hrq'. f_equal. eapply mods_like_unique; [by apply mod_steps_ok|done].
Qed.

(** ** Jobs *)
Definition no_upgrade (rq : request) : Prop := ∀ j, j ∈ rq_jobs rq → j_kind j ≠ JUpgrade.
Lemma add_job_plain rq r k : no_upgrade rq → k ≠ JUpgrade →
  add_job rq (Some r) k = Ok (Request (rq_mods rq) (rq_jobs rq ++ [Job (Some r) k])).
Proof.
  intros Hn Hk. unfold add_job. rewrite (bool_decide_eq_false_2 (k = JUpgrade)) by done. rewrite orb_false_r.
  replace (existsb _ (rq_jobs rq)) with false; [by rewrite andb_false_r|]. symmetry. apply not_true_iff_false.
  rewrite existsb_exists. intros (j & Hj & H). apply bool_decide_eq_true in H. apply (Hn j); [by apply elem_of_list_In|done].
Qed.
Lemma no_upgrade_snoc rq m r k : no_upgrade rq → k ≠ JUpgrade → no_upgrade (Request m (rq_jobs rq ++ [Job (Some r) k])).
Proof. intros Hn Hk j [H|H]%elem_of_app; [by apply Hn|]. by apply elem_of_list_singleton in H as ->. Qed.
Lemma operation_kind_not op k : operation_kind op k → k ≠ JUpgrade ∧ op ≠ "update_all".
Proof. intros [[-> ->]|[[-> ->]|[[-> ->]|[-> ->]]]]; done. Qed.
Lemma call_operation rq op r rq' : no_upgrade rq →
  (a ← request_attribute op; call_with_requirement rq a r) = Ok rq' ↔
  ∃ k, operation_kind op k ∧ rq' = Request (rq_mods rq) (rq_jobs rq ++ [Job (Some r) k]).
Proof.
  intros Hn. split.
  - unfold request_attribute. unfold operation_kind. repeat case_decide; subst; cbn [mbind res_bind call_with_requirement do_call]; try done;
      rewrite add_job_plain by done; intros [= <-]; eauto 10.
  - intros (k & [[-> ->]|[[-> ->]|[[-> ->]|[-> ->]]]] & ->); cbn [call_with_requirement do_call mbind res_bind request_attribute];
      unfold request_attribute; repeat case_decide; try done; cbn [call_with_requirement do_call mbind res_bind]; by rewrite add_job_plain.
Qed.
Definition entries_loaded (vparse : text → res version) (es : list request_data) (asked : list job) : Prop :=
  Forall2 (entry_job vparse) (filter (λ rd, ¬ is_update_all rd) es) asked.
Lemma load_entries vparse es : ∀ marked rq ua left rq' ua', no_upgrade rq →
  foldM (load_entry vparse) es (marked, rq, ua) = Ok (left, rq', ua') ↔
  ∃ asked, entries_loaded vparse es asked ∧ rq' = Request (rq_mods rq) (rq_jobs rq ++ asked) ∧
    left = foldl (λ l j, remove_first (asked_name j) l) marked asked ∧ ua' = ua || bool_decide (Exists is_update_all es).
Proof.
  unfold entries_loaded. induction es as [|e es IH]; intros marked rq ua left rq' ua' Hn.
  - cbn [foldM filter list_filter]. split.
    + intros [= <- <- <-]. exists []. split; [done|]. rewrite app_nil_r. split; [by destruct rq|]. split; [done|].
      rewrite bool_decide_eq_false_2, orb_false_r by (by intros ?%Exists_nil). done.
    + intros (asked & H & -> & -> & ->). apply Forall2_nil_inv_l in H as ->. rewrite app_nil_r.
      rewrite bool_decide_eq_false_2, orb_false_r by (by intros ?%Exists_nil). by destruct rq.
  - rewrite foldM_cons, bind_ok. destruct (decide (is_update_all e)) as [He|He].
    + rewrite (filter_cons_False _ e) by (intros H; by apply H). unfold load_entry at 1. rewrite He. cbn [of_option mbind res_bind].
      rewrite decide_True by done. split.
      * intros (st & [= <-] & H). apply IH in H as (asked & H1 & H2 & H3 & H4); [|done]. exists asked. split; [done|]. split; [done|]. split; [done|].
        rewrite H4. rewrite (bool_decide_eq_true_2 (Exists _ (e :: es))) by (by left). by rewrite orb_true_r.
      * intros (asked & H1 & H2 & H3 & H4). eexists. split; [reflexivity|]. apply IH; [done|]. exists asked. split; [done|]. split; [done|]. split; [done|].
        rewrite H4. rewrite (bool_decide_eq_true_2 (Exists _ (e :: es))) by (by left). by rewrite orb_true_r.
    + rewrite filter_cons_True by done.
      assert (EX : bool_decide (Exists is_update_all (e :: es)) = bool_decide (Exists is_update_all es)).
      { apply bool_decide_ext. rewrite Exists_cons. tauto. }
      rewrite EX. split.
      * intros ([[l1 rq1] ua1] & H1 & H). unfold load_entry in H1. apply bind_ok in H1 as (op & Hop%of_option_ok & H1).
        rewrite decide_False in H1 by (intros ->; done).
        apply bind_ok in H1 as (s & Hs%of_option_ok & H1). apply bind_ok in H1 as (r & Hr & H1).
        assert (∃ rq2, (a ← request_attribute op; call_with_requirement rq a r) = Ok rq2 ∧
                  Ok (remove_first (of_s (r_name r)) marked, rq2, ua) = Ok (l1, rq1, ua1)) as (rq2 & Hc & [= <- <- <-]).
        { apply bind_ok in H1 as (a & Ha & H1). apply bind_ok in H1 as (rq2 & H2 & H3). exists rq2. rewrite Ha. cbn. split; [done|]. done. }
        apply call_operation in Hc as (k & Hk & ->); [|done]. destruct (operation_kind_not _ _ Hk) as [Hk1 _].
        apply IH in H as (asked & H1' & H2 & H3 & H4); [|by apply no_upgrade_snoc]. exists (Job (Some r) k :: asked). split.
        { constructor; [|done]. exists op, s, r, k. auto. }
        split; [rewrite H2; cbn; by rewrite <-app_assoc|]. split; [by rewrite H3|]. done.
      * intros (asked & H1 & H2 & H3 & H4). apply Forall2_cons_inv_l in H1 as (j & asked' & (op & s & r & k & Hop & Hs & Hr & Hk & ->) & H1 & ->).
        destruct (operation_kind_not _ _ Hk) as [Hk1 Hk2]. exists (remove_first (of_s (r_name r)) marked, Request (rq_mods rq) (rq_jobs rq ++ [Job (Some r) k]), ua).
        split.
        -- unfold load_entry. rewrite Hop. cbn [of_option mbind res_bind]. rewrite decide_False by done. rewrite Hs. cbn [of_option mbind res_bind].
           rewrite Hr. cbn [mbind res_bind].
           assert (E := proj2 (call_operation rq op r _ Hn) (ex_intro _ k (Logic.conj Hk eq_refl))).
           destruct (request_attribute op) as [a|]; [|done]. cbn [mbind res_bind] in E |- *. by rewrite E.
        -- apply IH; [by apply no_upgrade_snoc|]. exists asked'. split; [done|]. split; [rewrite H2; cbn; by rewrite <-app_assoc|]. done.
Qed.
Lemma load_marked_spec vparse ua left : ∀ rq rq', no_upgrade rq →
  load_marked vparse rq ua left = Ok rq' ↔
  ∃ kept, Forall2 (λ s j, ∃ r, reads vparse s r ∧ j = Job (Some r) (if ua then JHardUpdate else JInstall)) left kept ∧
    rq' = Request (rq_mods rq) (rq_jobs rq ++ kept).
Proof.
  unfold load_marked. induction left as [|s left IH]; intros rq rq' Hn.
  - cbn [foldM]. split.
    + intros [= <-]. exists []. split; [done|]. rewrite app_nil_r. by destruct rq.
    + intros (kept & H & ->). apply Forall2_nil_inv_l in H as ->. rewrite app_nil_r. by destruct rq.
  - rewrite foldM_cons, bind_ok.
    assert (E : ∀ r, do_call rq (if ua then CallHardUpdate r else CallInstall r) =
      Ok (Request (rq_mods rq) (rq_jobs rq ++ [Job (Some r) (if ua then JHardUpdate else JInstall)]))).
    { intros r. destruct ua; cbn [do_call]; by rewrite add_job_plain. }
    assert (K : (if ua then JHardUpdate else JInstall) ≠ JUpgrade) by (by destruct ua). split.
    + intros (rq1 & H1 & H). apply bind_ok in H1 as (r & Hr & H1). rewrite E in H1. injection H1 as <-.
      apply IH in H as (kept & H1 & H2); [|by apply no_upgrade_snoc]. eexists (_ :: kept). split; [constructor; [by exists r|done]|].
      rewrite H2. cbn. by rewrite <-app_assoc.
    + intros (kept & H & ->). apply Forall2_cons_inv_l in H as (j & kept' & (r & Hr & ->) & H & ->).
      eexists. rewrite Hr. cbn [mbind res_bind]. rewrite E. split; [reflexivity|]. apply IH; [by apply no_upgrade_snoc|].
      exists kept'. split; [done|]. cbn. by rewrite <-app_assoc.
Qed.

(** ** What is left of the marked entries *)
Definition left_from (names pre marked : list text) : list text :=
  omap id (imap (λ i s, if decide (count s names ≤ count s (pre ++ take i marked))%nat then Some s else None) marked).
Lemma count_app x l k : count x (l ++ k) = (count x l + count x k)%nat.
Proof. unfold count. by rewrite filter_app, app_length. Qed.
Lemma count_cons x y l : count x (y :: l) = ((if decide (y = x) then 1 else 0) + count x l)%nat.
Proof. unfold count. rewrite filter_cons. by case_decide. Qed.
Lemma omap_imap_ext {A} (f g : nat → A → option A) l : (∀ i x, l !! i = Some x → f i x = g i x) → omap id (imap f l) = omap id (imap g l).
Proof. intros H. f_equal. apply imap_ext. exact H. Qed.
Lemma left_from_cons names pre s r : left_from names pre (s :: r) =
  (if decide (count s names ≤ count s pre)%nat then [s] else []) ++ left_from names (pre ++ [s]) r.
Proof.
  unfold left_from. cbn [imap omap list_omap]. rewrite take_0, app_nil_r.
  assert (E : ∀ X : option text, (match id X with Some y => y :: omap id (imap (λ i s0, if decide (count s0 names ≤ count s0 (pre ++ take (S i) (s :: r)))%nat then Some s0 else None) r) | None => omap id (imap (λ i s0, if decide (count s0 names ≤ count s0 (pre ++ take (S i) (s :: r)))%nat then Some s0 else None) r) end)
     = (match X with Some y => [y] | None => [] end) ++ omap id (imap (λ i s0, if decide (count s0 names ≤ count s0 (pre ++ take (S i) (s :: r)))%nat then Some s0 else None) r)).
  { by intros [y|]. }
  unfold compose. etrans; [apply E|]. f_equal; [by case_decide|]. apply omap_imap_ext. intros i x _. cbn [take]. by rewrite <-app_assoc.
Qed.
Lemma left_from_same names names' r : ∀ pre pre', (∀ s k, (count s names ≤ count s pre + k ↔ count s names' ≤ count s pre' + k)%nat) →
  left_from names pre r = left_from names' pre' r.
Proof.
  intros pre pre' H. unfold left_from. apply omap_imap_ext. intros i s _. rewrite !count_app. apply decide_ext. apply H.
Qed.
Lemma left_from_remove x names r : ∀ pre, count x pre = 0%nat →
  left_from names pre (remove_first x r) = left_from (x :: names) pre r.
Proof.
  induction r as [|s r IH]; intros pre Hx; [done|]. cbn [remove_first]. rewrite left_from_cons.
  destruct (decide (s = x)) as [->|Hs].
  - rewrite decide_False by (rewrite count_cons, decide_True, Hx by done; lia). cbn [app]. apply left_from_same.
    intros s k. rewrite count_app, !count_cons. cbn [count filter list_filter List.length]. case_decide; unfold count; cbn; lia.
  - rewrite left_from_cons, IH.
    + rewrite (count_cons s x), (decide_False (P := x = s)) by congruence. done.
    + rewrite count_app, Hx, count_cons, decide_False by done. done.
Qed.
Lemma left_from_spec names : ∀ marked, foldl (λ l n, remove_first n l) marked names = left_from names [] marked.
Proof.
  induction names as [|x names IH]; intros marked.
  - cbn [foldl]. generalize (@nil text) at 2 as pre. induction marked as [|s marked IHm]; intros pre; [done|].
    rewrite left_from_cons, decide_True by (cbn; lia). cbn [app]. by rewrite <-IHm.
  - cbn [foldl]. rewrite IH. by apply left_from_remove.
Qed.
Lemma foldl_fmap_names asked : ∀ marked, foldl (λ l j, remove_first (asked_name j) l) marked asked =
  foldl (λ l n, remove_first n l) marked (asked_name <$> asked).
Proof. induction asked as [|j asked IH]; intros marked; [done|]. apply IH. Qed.
Lemma left_over_spec asked marked left :
  left = foldl (λ l j, remove_first (asked_name j) l) marked asked ↔ left_over (asked_name <$> asked) marked left.
Proof. rewrite foldl_fmap_names, left_from_spec. unfold left_over, left_from. done. Qed.

(** ** The whole file *)
Theorem from_yaml_spec vparse vtext d sc : from_yaml vparse vtext d = Ok sc ↔ loaded vparse vtext d sc.
Proof.
  unfold from_yaml. split.
  - intros H. apply bind_ok in H as (rq0 & H0 & H). apply bind_ok in H as ([[left rq1] ua] & H1 & H). apply bind_ok in H as (rq & H2 & H).
    apply bind_ok in H as (ops & Hops & H). apply bind_ok in H as (pretty & Hpretty & H). apply bind_ok in H as (pk & Hpk & H).
    apply bind_ok in H as (remote & Hr & H). apply bind_ok in H as (inst & Hi & [= <-]).
    apply load_modifiers_spec in H0 as (J0 & M0). assert (N0 : no_upgrade rq0). { intros j. rewrite J0. by intros ?%elem_of_nil. }
    apply load_entries in H1 as (asked & Ha & -> & Hl & Hua); [|done]. rewrite J0 in H2. cbn [app] in H2.
    assert (N1 : no_upgrade (Request (rq_mods rq0) asked)).
    { intros j Hj. cbn in Hj. apply elem_of_list_lookup in Hj as (i & Hi'). destruct (Forall2_lookup_r _ _ _ _ _ Ha Hi') as (rd & _ & op & s & r & k & _ & _ & _ & Hk & ->).
      by destruct (operation_kind_not _ _ Hk). }
    apply load_marked_spec in H2 as (kept & Hkept & ->); [|done]. apply left_over_spec in Hl. apply parse_packages_spec in Hpk.
    assert (HN : NoDup pk.*1) by (destruct Hpk as [(fulls & _ & ->) _]; apply nodup_first_names).
    split; cbn.
    + destruct M0 as (M1 & M2 & M3 & M4). split; [done..|]. exists asked, left, kept. split; [done|]. split; [done|]. split; [done|].
      eapply Forall2_impl; [exact Hkept|]. cbn. intros s j (r & Hr' & ->). exists r, (if ua then JHardUpdate else JInstall). split; [done|]. split; [done|].
      rewrite Hua. cbn [orb]. destruct (bool_decide (Exists is_update_all (sd_request d))) eqn:E; [left|right]; (split; [done|]).
      * by apply bool_decide_eq_true in E.
      * by apply bool_decide_eq_false in E.
    + exact Hpk.
    + destruct (sd_remote d) as [names|]; cbn [from_option id] in Hr.
      * by apply (factory_spec vparse vtext _ _ _ _ Hpk).
      * rewrite factory_all in Hr by done. by injection Hr as <-.
    + by apply (factory_spec vparse vtext _ _ _ _ Hpk).
    + apply mapM_res_iff in Hops. eapply Forall2_impl; [exact Hops|]. intros x y Hxy. by apply one_operation_spec.
    + apply mapM_res_iff in Hpretty. eapply Forall2_impl; [exact Hpretty|]. intros x y Hxy. by apply one_operation_spec.
    + done.
  - intros [[M1 M2 M3 M4 (asked & left & kept & EJ & Ha & Hl & Hk)] Hpk Hr Hi Hops Hpretty Hf].
    apply bind_ok. exists (Request (rq_mods (sc_request sc)) []). split; [by apply load_modifiers_spec|].
    apply bind_ok. exists (left, Request (rq_mods (sc_request sc)) asked, bool_decide (Exists is_update_all (sd_request d))). split.
    { apply load_entries; [by intros j ?%elem_of_nil|]. exists asked. split; [done|]. split; [done|]. split; [|done]. by apply left_over_spec. }
    apply bind_ok. exists (sc_request sc). split.
    { apply load_marked_spec.
      - intros j Hj. cbn in Hj. apply elem_of_list_lookup in Hj as (i & Hi'). destruct (Forall2_lookup_r _ _ _ _ _ Ha Hi') as (rd & _ & op & s & r & k & _ & _ & _ & Hkk & ->).
        by destruct (operation_kind_not _ _ Hkk).
      - exists kept. split; [|destruct (sc_request sc); cbn in *; by subst]. eapply Forall2_impl; [exact Hk|]. cbn.
        intros s j (r & k & Hr' & -> & [[-> E]|[-> E]]); exists r; (split; [done|]);
          [rewrite bool_decide_eq_true_2 by done|rewrite bool_decide_eq_false_2 by done]; done. }
    apply bind_ok. exists (sc_operations sc). split.
    { apply mapM_res_iff. eapply Forall2_impl; [exact Hops|]. intros x y Hxy. by apply one_operation_spec. }
    apply bind_ok. exists (sc_pretty sc). split.
    { apply mapM_res_iff. eapply Forall2_impl; [exact Hpretty|]. intros x y Hxy. by apply one_operation_spec. }
    assert (HN : NoDup (sc_packages sc).*1) by (destruct Hpk as [(fulls & _ & ->) _]; apply nodup_first_names).
    apply bind_ok. exists (sc_packages sc). split; [by apply parse_packages_spec|].
    apply bind_ok. exists (sc_remote sc). split.
    { destruct (sd_remote d) as [names|]; cbn [from_option id]; [by apply (factory_spec vparse vtext _ _ _ _ Hpk)|]. by rewrite factory_all, Hr. }
    apply bind_ok. exists (sc_installed sc). split; [by apply (factory_spec vparse vtext _ _ _ _ Hpk)|].
    rewrite <-Hf. by destruct sc.
Qed.
