(** * Property C75: DefaultOrderedDict. *)
From Verif Require Import OrdDict ConstraintProofs PoolProofs.

(** ** Dicts that a client can build *)
Inductive dict_op := Read (k : Z) | Append (k x : Z) | Store (k : Z) (o : nat) | Delete (k : Z) | NewObj.
Definition dict_do (op : dict_op) (st : odict * objs) : res (odict * objs) :=
  let '(d, h) := st in
  match op with
  | Read k => '(_, d, h) ← od_getitem d k h; Ok (d, h)
  | Append k x => od_append d k x h
  | Store k o => if decide (o < length h)%nat then Ok (od_set d k o, h) else Raise AssertionError
  | Delete k => d ← od_del d k; Ok (d, h)
  | NewObj => Ok (d, h ++ [[]])
  end.
Definition dict_run (ops : list dict_op) (st : odict * objs) : res (odict * objs) := foldM (λ st op, dict_do op st) ops st.

(** Keys are different, values exist. *)
Record OdWf (d : odict) (h : objs) : Prop := {
  ow_keys : NoDup (od_items d).*1;
  ow_refs : ∀ k o, (k, o) ∈ od_items d → (o < length h)%nat;
  ow_fac : ∀ o, od_factory d = FConst o → (o < length h)%nat }.

Lemma lookup_some d k o : od_lookup d k = Some o → (k, o) ∈ od_items d.
Proof.
  unfold od_lookup. destruct (list_find _ _) as [[i [k' o']]|] eqn:E; [|done]. cbn. intros [= <-].
  apply list_find_Some in E as (E & Hk & _). cbn in Hk. subst. by eapply elem_of_list_lookup_2.
Qed.
Lemma lookup_none d k : od_lookup d k = None ↔ k ∉ (od_items d).*1.
Proof.
  unfold od_lookup. split.
  - destruct (list_find _ _) as [[i [k' o']]|] eqn:E; [done|]. intros _ Hx. apply elem_of_list_fmap in Hx as ([k' o'] & -> & Hin).
    apply list_find_None in E. rewrite Forall_forall in E. by apply (E _ Hin).
  - intros H. destruct (list_find _ _) as [[i [k' o']]|] eqn:E; [|done].
    apply list_find_Some in E as (E & Hk & _). cbn in Hk. subst. exfalso. apply H, elem_of_list_fmap.
    exists (k, o'). split; [done|]. by eapply elem_of_list_lookup_2.
Qed.
Lemma lookup_unique d k o : NoDup (od_items d).*1 → (k, o) ∈ od_items d → od_lookup d k = Some o.
Proof.
  intros Hn Hin. destruct (od_lookup d k) as [o'|] eqn:E.
  - apply lookup_some in E. apply elem_of_list_lookup in Hin as [i Hi]. apply elem_of_list_lookup in E as [j Hj].
    assert (i = j); [|congruence]. eapply (NoDup_lookup _ i j k Hn); rewrite list_lookup_fmap; [by rewrite Hi|by rewrite Hj].
  - apply lookup_none in E. exfalso. apply E, elem_of_list_fmap. by exists (k, o).
Qed.
Lemma set_new l k o : k ∉ l.*1 → items_set l k o = l ++ [(k, o)].
Proof.
  induction l as [|[k' o'] l IH]; cbn; [done|]. intros [H1 H2]%not_elem_of_cons. rewrite decide_False by done. by rewrite IH.
Qed.
Lemma set_keys l k o : k ∈ l.*1 → (items_set l k o).*1 = l.*1.
Proof.
  induction l as [|[k' o'] l IH]; cbn; [by intros H%elem_of_nil|]. destruct (decide (k' = k)) as [->|Hn]; [done|].
  intros [->|H]%elem_of_cons; [done|]. cbn. by rewrite IH.
Qed.
Lemma set_in l k o x : x ∈ items_set l k o → x ∈ l ∨ x = (k, o).
Proof.
  induction l as [|[k' o'] l IH]; cbn; [intros ->%elem_of_list_singleton; by right|].
  destruct (decide (k' = k)) as [->|Hn].
  - intros [->|H]%elem_of_cons; [by right|left; by right].
  - intros [->|H]%elem_of_cons; [left; left|]. destruct (IH H) as [?| ->]; [left; by right|by right].
Qed.
Lemma set_wf d k o h : OdWf d h → (o < length h)%nat → OdWf (od_set d k o) h.
Proof.
  intros [H1 H2 H3] Ho. split; cbn; [| |done].
  - destruct (decide (k ∈ (od_items d).*1)) as [Hk|Hk]; [by rewrite set_keys|].
    rewrite set_new by done. rewrite fmap_app. cbn. apply NoDup_app. split_and!; [done| |apply NoDup_singleton].
    intros x Hx ->%elem_of_list_singleton. done.
  - intros k' o' [Hin|[= -> ->]]%set_in; [eauto|done].
Qed.
Lemma wf_grow d h h' : OdWf d h → (length h ≤ length h')%nat → OdWf d h'.
Proof.
  intros [H1 H2 H3] Hl. split; [done| |].
  - intros k o Hin. apply H2 in Hin. lia.
  - intros o Ho. apply H3 in Ho. lia.
Qed.
Lemma append_len o x h : length (append_obj o x h) = length h.
Proof. apply alter_length. Qed.
Lemma getitem_wf d k h o d' h' : OdWf d h → od_getitem d k h = Ok (o, d', h') →
  OdWf d' h' ∧ (o < length h')%nat ∧ od_factory d' = od_factory d.
Proof.
  intros W H. unfold od_getitem in H. destruct (od_lookup d k) as [o1|] eqn:E.
  - injection H as -> -> ->. split_and!; [done| |done]. apply lookup_some in E. by eapply ow_refs.
  - destruct (od_factory d) as [|o1|] eqn:Ef; cbn in H; [| |done]; injection H as <- <- <-.
    + split_and!; [|rewrite app_length; cbn; lia|done]. apply set_wf; [|rewrite app_length; cbn; lia].
      eapply wf_grow; [done|]. rewrite app_length. lia.
    + assert ((o1 < length h)%nat) by (by eapply ow_fac). split_and!; [by apply set_wf|done|done].
Qed.

Lemma step_wf op d h d' h' : OdWf d h → dict_do op (d, h) = Ok (d', h') → OdWf d' h'.
Proof.
  intros W H. destruct op as [k|k x|k o|k|]; cbn in H.
  - destruct (od_getitem d k h) as [[[o e] g]|] eqn:E; cbn in H; [|done]. injection H as <- <-.
    by apply getitem_wf in E as (? & _).
  - unfold od_append in H. destruct (od_getitem d k h) as [[[o e] g]|] eqn:E; cbn in H; [|done]. injection H as <- <-.
    apply getitem_wf in E as (We & _); [|done]. eapply wf_grow; [done|]. by rewrite append_len.
  - destruct (decide _); [|done]. injection H as <- <-. by apply set_wf.
  - unfold od_del in H. destruct (od_lookup d k); cbn in H; [|done]. injection H as <- <-.
    destruct W as [H1 H2 H3]. split; cbn; [| |done].
    + clear -H1. induction (od_items d) as [|[k' o'] l IH]; cbn; [done|].
      apply NoDup_cons in H1 as [Hn H1]. destruct (decide _); cbn; [|by apply IH]. apply NoDup_cons. split; [|by apply IH].
      intros Hy. apply elem_of_list_fmap in Hy as (x & -> & Hx). apply elem_of_list_filter in Hx as [_ Hx].
      apply Hn, elem_of_list_fmap. exists x. split; [reflexivity|exact Hx].
    + intros k' o' [_ Hin]%elem_of_list_filter. eauto.
  - injection H as <- <-. eapply wf_grow; [done|]. rewrite app_length. lia.
Qed.

(** After any sequence of reads, stores, deletions and changes of values the keys are all different. *)
Theorem C75_keys : ∀ f ops h d h', (∀ o, f = FConst o → (o < length h)%nat) →
  dict_run ops (od_new f, h) = Ok (d, h') → OdWf d h'.
Proof.
  intros f ops h d h' Hf. assert (W : OdWf (od_new f) h).
  { split; cbn; [constructor|by intros k o Hk%elem_of_nil|done]. }
  revert W. generalize (od_new f). clear Hf f. unfold dict_run. revert h.
  induction ops as [|op ops IH]; intros h e W H; cbn [foldM] in H; [by injection H as <- <-|].
  destruct (dict_do op (e, h)) as [[e' h2]|] eqn:E; cbn [mbind res_bind] in H; [|done].
  eapply IH; [|exact H]. by eapply step_wf.
Qed.

(** ** Reading *)
(** A present key is read without a change; a missing one is added at the end with a new empty list, and nothing else
    changes.  [get] and [in] never change the dict (they return no new one). *)
Theorem C75_getitem : ∀ d k h, OdWf d h → od_factory d = FList →
  match od_get d k with
  | Some o => od_getitem d k h = Ok (o, d, h)
  | None => let d' := ODict FList (od_items d ++ [(k, length h)]) in
      od_getitem d k h = Ok (length h, d', h ++ [[]]) ∧ od_view d' (h ++ [[]]) = od_view d h ++ [(k, [])]
  end.
Proof.
  intros d k h W Hf. unfold od_get, od_getitem. destruct (od_lookup d k) as [o|] eqn:E; [done|]. rewrite Hf. cbn.
  apply lookup_none in E. unfold od_set. rewrite set_new, Hf by done. split; [done|].
  unfold od_view. cbn. rewrite fmap_app. cbn. f_equal.
  - apply list_fmap_ext. intros i [k' o'] Hi. cbn. f_equal. rewrite lookup_app_l; [done|].
    eapply (ow_refs _ _ W k'). by eapply elem_of_list_lookup_2.
  - by rewrite lookup_app_r, Nat.sub_diag by lia.
Qed.

(** ** Deleting and storing *)
Lemma split_key (l : list (Z * nat)) k : NoDup l.*1 → k ∈ l.*1 → ∃ a o b, l = a ++ (k, o) :: b ∧ k ∉ a.*1 ∧ k ∉ b.*1.
Proof.
  intros Hn ([k' o] & -> & (a & b & ->)%elem_of_list_split)%elem_of_list_fmap. exists a, o, b. split; [done|]. cbn.
  rewrite fmap_app in Hn. cbn in Hn. apply NoDup_app in Hn as (_ & H1 & [H2 _]%NoDup_cons). split; [|done]. intros H. apply (H1 _ H). left.
Qed.
(** Deleting a present key removes that key with its value, and nothing else, and keeps the order; a missing key raises KeyError. *)
Theorem C75_delete : ∀ d k h, OdWf d h →
  match od_get d k with
  | None => od_del d k = Raise KeyError
  | Some o => ∃ d' before after, od_del d k = Ok d' ∧ od_factory d' = od_factory d ∧
      od_view d h = before ++ (k, default [] (h !! o)) :: after ∧ od_view d' h = before ++ after ∧ k ∉ before.*1 ∧ k ∉ after.*1
  end.
Proof.
  intros d k h W. unfold od_get, od_del. destruct (od_lookup d k) as [o|] eqn:E; [|done].
  assert (Hk : k ∈ (od_items d).*1) by (apply lookup_some in E; apply elem_of_list_fmap; by exists (k, o)).
  destruct (split_key _ _ (ow_keys _ _ W) Hk) as (a & o' & b & El & Ha & Hb).
  assert (o' = o) as ->.
  { assert (E' : od_lookup d k = Some o') by (apply (lookup_unique _ _ _ (ow_keys _ _ W)); rewrite El; set_solver). congruence. }
  assert (Hf : ∀ l : list (Z * nat), k ∉ l.*1 → filter (λ kv, kv.1 ≠ k) l = l).
  { induction l as [|[k' o'] l IH]; [done|]. intros [H1 H2]%not_elem_of_cons. cbn in H1. rewrite filter_cons_True by (cbn; congruence). by rewrite IH. }
  exists (ODict (od_factory d) (a ++ b)), ((λ kv, (kv.1, default [] (h !! kv.2))) <$> a), ((λ kv, (kv.1, default [] (h !! kv.2))) <$> b).
  rewrite El, filter_app, filter_cons_False by (cbn; by intros []). rewrite (Hf a Ha), (Hf b Hb). split; [done|]. split; [done|]. unfold od_view. cbn [od_items].
  rewrite El, !fmap_app, fmap_cons. split; [reflexivity|]. split; [done|]. rewrite <-!list_fmap_compose. split; [exact Ha|exact Hb].
Qed.
(** Storing an object under a present key changes the value of that key only, in its place; a new key goes to the end. *)
Theorem C75_store : ∀ d k o h, OdWf d h → (o < length h)%nat →
  od_factory (od_set d k o) = od_factory d ∧
  match od_get d k with
  | None => od_view (od_set d k o) h = od_view d h ++ [(k, default [] (h !! o))]
  | Some o0 => ∃ before after, od_view d h = before ++ (k, default [] (h !! o0)) :: after ∧
      od_view (od_set d k o) h = before ++ (k, default [] (h !! o)) :: after ∧ k ∉ before.*1 ∧ k ∉ after.*1
  end.
Proof.
  intros d k o h W Ho. split; [done|]. unfold od_get. destruct (od_lookup d k) as [o0|] eqn:E.
  - assert (Hk : k ∈ (od_items d).*1) by (apply lookup_some in E; apply elem_of_list_fmap; by exists (k, o0)).
    destruct (split_key _ _ (ow_keys _ _ W) Hk) as (a & o' & b & El & Ha & Hb).
    assert (o' = o0) as ->.
    { assert (E' : od_lookup d k = Some o') by (apply (lookup_unique _ _ _ (ow_keys _ _ W)); rewrite El; set_solver). congruence. }
    assert (Hs : items_set (a ++ (k, o0) :: b) k o = a ++ (k, o) :: b).
    { clear -Ha. induction a as [|[k' o'] a IH]; cbn; [by rewrite decide_True|]. apply not_elem_of_cons in Ha as [H1 H2]. cbn in H1. rewrite decide_False by congruence. by rewrite IH. }
    exists ((λ kv, (kv.1, default [] (h !! kv.2))) <$> a), ((λ kv, (kv.1, default [] (h !! kv.2))) <$> b).
    unfold od_view, od_set. cbn [od_items]. rewrite El, Hs, !fmap_app, !fmap_cons. split; [reflexivity|]. split; [reflexivity|].
    rewrite <-!list_fmap_compose. split; [exact Ha|exact Hb].
  - apply lookup_none in E. unfold od_set, od_view. cbn [od_items]. by rewrite set_new, fmap_app by done.
Qed.

Lemma fromkeys_snoc {A} `{EqDecision A} (l : list A) x :
  fromkeys (l ++ [x]) = fromkeys l ++ (if decide (x ∈ l) then [] else [x]).
Proof.
  induction l as [|y l IH]; cbn; [done|]. rewrite IH, filter_app. cbn. f_equal. f_equal.
  destruct (decide (x ∈ l)) as [Hx|Hx].
  - by rewrite decide_True by by right.
  - destruct (decide (x = y)) as [->|Hne].
    + rewrite decide_True by left. rewrite filter_cons_False by (intros H; by apply H). done.
    + rewrite decide_False by (intros [?|?]%elem_of_cons; done). rewrite filter_cons_True by done. done.
Qed.

(** ** Grouping: [for k, x in xs: d[k].append(x)] *)
Definition group (xs : list (Z * Z)) (st : odict * objs) : res (odict * objs) :=
  dict_run ((λ kx, Append kx.1 kx.2) <$> xs) st.
Definition values_of (xs : list (Z * Z)) (k : Z) : list Z := (filter (λ kx, kx.1 = k) xs).*2.
Definition first_keys (xs : list (Z * Z)) : list Z := fromkeys xs.*1.

(** All values are different objects, not older than the dict. *)
Record OdOwn (n : nat) (d : odict) (h : objs) : Prop := {
  oo_wf : OdWf d h; oo_fac : od_factory d = FList;
  oo_refs : NoDup (od_items d).*2; oo_new : ∀ o, o ∈ (od_items d).*2 → (n ≤ o)%nat;
  oo_len : (n ≤ length h)%nat }.

Lemma view_append d h n k o x : OdOwn n d h → (k, o) ∈ od_items d →
  od_view d (append_obj o x h) = (λ kl, if decide (kl.1 = k) then (kl.1, kl.2 ++ [x]) else kl) <$> od_view d h.
Proof.
  intros [W _ Hr _ _] Hin. unfold od_view. rewrite <- list_fmap_compose. apply list_fmap_ext.
  intros i [k' o'] Hi. cbn. destruct (decide (k' = k)) as [->|Hn].
  - pose proof (elem_of_list_lookup_2 _ _ _ Hi) as Hi'.
    apply (lookup_unique _ _ _ (ow_keys _ _ W)) in Hi'. apply (lookup_unique _ _ _ (ow_keys _ _ W)) in Hin as Hin'.
    assert (o' = o) as -> by congruence. f_equal. unfold append_obj. rewrite list_lookup_alter.
    destruct (h !! o) as [l|] eqn:El; [done|]. apply lookup_ge_None_1 in El. apply (ow_refs _ _ W) in Hin. lia.
  - f_equal. unfold append_obj. rewrite list_lookup_alter_ne; [done|]. intros <-.
    apply elem_of_list_lookup in Hin as [j Hj].
    assert (i = j).
    { eapply (NoDup_lookup _ i j o Hr); rewrite list_lookup_fmap; [by rewrite Hi|by rewrite Hj]. }
    congruence.
Qed.

Lemma append_own n d h k x : OdOwn n d h → ∃ d' h', od_append d k x h = Ok (d', h') ∧ OdOwn n d' h' ∧
  (∀ o, (o < n)%nat → h' !! o = h !! o) ∧
  od_view d' h' = (λ kl, if decide (kl.1 = k) then (kl.1, kl.2 ++ [x]) else kl) <$>
                  (od_view d h ++ if decide (k ∈ (od_items d).*1) then [] else [(k, [])]).
Proof.
  intros Ow. pose proof Ow as [W Hf Hr Hn Hl]. unfold od_append. pose proof (C75_getitem d k h W Hf) as Hg. unfold od_get in Hg.
  destruct (od_lookup d k) as [o|] eqn:E.
  - rewrite Hg. cbn. eexists _, _. split; [reflexivity|]. apply lookup_some in E.
    assert (Hno : (n ≤ o)%nat) by (apply Hn, elem_of_list_fmap; by exists (k, o)). split; [|split].
    + split; [|done..|by rewrite append_len]. eapply wf_grow; [done|]. by rewrite append_len.
    + intros o' Ho'. unfold append_obj. rewrite list_lookup_alter_ne; [done|]. lia.
    + rewrite decide_True by (apply elem_of_list_fmap; by exists (k, o)). rewrite app_nil_r. by eapply view_append.
  - cbv zeta in Hg. destruct Hg as [Eg Hv]. rewrite Eg. cbn. eexists _, _. split; [reflexivity|].
    apply lookup_none in E as Hk.
    assert (Ow' : OdOwn n (ODict FList (od_items d ++ [(k, length h)])) (h ++ [[]])).
    { apply getitem_wf in Eg as (We & _); [|done]. split; cbn; [done|done|..].
      - rewrite fmap_app. cbn. apply NoDup_app. split_and!; [done| |apply NoDup_singleton].
        intros o Ho ->%elem_of_list_singleton. apply elem_of_list_fmap in Ho as ([k' o'] & Eo & Ho). cbn in Eo. subst o'.
        apply (ow_refs _ _ W) in Ho. lia.
      - intros o. rewrite fmap_app. intros [Ho| ->%elem_of_list_singleton]%elem_of_app; [by apply Hn|done].
      - rewrite app_length. lia. }
    split; [|split].
    + destruct Ow' as [W' Hf' Hr' Hn' Hl']. split; [|done..|by rewrite append_len]. eapply wf_grow; [done|]. by rewrite append_len.
    + intros o Ho. unfold append_obj. rewrite list_lookup_alter_ne by lia. apply lookup_app_l. lia.
    + rewrite (view_append _ _ _ k (length h) x Ow') by (cbn; apply elem_of_app; right; left).
      rewrite Hv. by rewrite decide_False by done.
Qed.

Lemma values_snoc xs k x k' : values_of (xs ++ [(k, x)]) k' = values_of xs k' ++ (if decide (k = k') then [x] else []).
Proof. unfold values_of. rewrite filter_app, fmap_app. f_equal. cbn. by destruct (decide (k = k')). Qed.
Lemma view_keys d h : (od_view d h).*1 = (od_items d).*1.
Proof. unfold od_view. rewrite <- list_fmap_compose. by apply list_fmap_ext. Qed.

(** The result is the list of the different keys in the order of their first occurrence, each with its values in
    their order, and no object that existed before is touched. *)
Theorem C75_group : ∀ xs h, ∃ d h', group xs (od_new FList, h) = Ok (d, h') ∧
  od_view d h' = (λ k, (k, values_of xs k)) <$> first_keys xs ∧
  (∀ o, (o < length h)%nat → h' !! o = h !! o).
Proof.
  intros xs h. unfold group.
  assert (G : ∃ d h', dict_run ((λ kx, Append kx.1 kx.2) <$> xs) (od_new FList, h) = Ok (d, h') ∧ OdOwn (length h) d h' ∧
    od_view d h' = (λ k, (k, values_of xs k)) <$> first_keys xs ∧ (∀ o, (o < length h)%nat → h' !! o = h !! o)).
  { induction xs as [|[k x] xs IH] using rev_ind.
    - exists (od_new FList), h. split_and!; try done. split; cbn; [|done|constructor|by intros o Ho%elem_of_nil|lia].
      split; cbn; [constructor|by intros ? ? ?%elem_of_nil|done].
    - destruct IH as (d & h1 & E & Ow & Hv & Hh). destruct (append_own _ _ _ k x Ow) as (d2 & h2 & E2 & Ow2 & Hh2 & Hv2).
      exists d2, h2. split_and!; [|done| |].
      + rewrite fmap_app. unfold dict_run in E |- *. rewrite foldM_app, E. cbn. rewrite E2. done.
      + rewrite Hv2.
        assert (first_keys (xs ++ [(k, x)]) = first_keys xs ++ (if decide (k ∈ xs.*1) then [] else [k])) as ->.
        { unfold first_keys. rewrite fmap_app. apply (fromkeys_snoc xs.*1 k). }
        assert (Hks : (od_items d).*1 = first_keys xs).
        { rewrite <- (view_keys d h1), Hv, <- list_fmap_compose. cbn. apply list_fmap_id. }
        rewrite fmap_app, Hv, <- list_fmap_compose, fmap_app. f_equal.
        * apply list_fmap_ext. intros i k' Hk'. cbn. rewrite values_snoc.
          destruct (decide (k' = k)) as [->|Hne].
          -- destruct (decide (k = k)); done.
          -- destruct (decide (k = k')); [congruence|]. by rewrite app_nil_r.
        * rewrite Hks. unfold first_keys.
          destruct (decide (k ∈ fromkeys xs.*1)) as [Hk|Hk]; rewrite fromkeys_elem in Hk; destruct (decide (k ∈ xs.*1)) as [H|H]; try done.
          -- cbn. rewrite values_snoc. destruct (decide (k = k)); [|done]. destruct (decide (k = k)); [|done]. do 3 f_equal.
             unfold values_of. assert (filter (λ kx, kx.1 = k) xs = []) as ->; [|done].
             clear -Hk. induction xs as [|[k' x'] xs IH]; [done|]. cbn in Hk. apply not_elem_of_cons in Hk as [H1 H2].
             rewrite filter_cons_False by (cbn; congruence). by apply IH.
      + intros o Ho. rewrite Hh2 by done. by apply Hh. }
  destruct G as (d & h' & ? & _ & ? & ?). eauto.
Qed.

(** ** Copies *)
Lemma fold_set l : ∀ e, NoDup ((od_items e).*1 ++ l.*1) →
  foldl (λ e kv, od_set e kv.1 kv.2) e l = ODict (od_factory e) (od_items e ++ l).
Proof.
  induction l as [|[k o] l IH]; intros e Hn; cbn.
  { rewrite app_nil_r. by destruct e. }
  assert (Hk : k ∉ (od_items e).*1).
  { apply NoDup_app in Hn as (_ & Hd & _). intros Hin. apply (Hd _ Hin). cbn. left. }
  rewrite IH; cbn; rewrite set_new by done; [by rewrite <- app_assoc|].
  rewrite fmap_app, <- app_assoc. done.
Qed.
Lemma copy_eq d h : OdWf d h → od_copy d = d.
Proof.
  intros W. unfold od_copy. rewrite fold_set; cbn; [by destruct d|]. exact (ow_keys _ _ W).
Qed.

(** A copy has the same items and the same factory. *)
Theorem C75_copy : ∀ d h, OdWf d h → od_items (od_copy d) = od_items d ∧ od_factory (od_copy d) = od_factory d.
Proof. intros d h W. by rewrite (copy_eq _ _ W). Qed.

(** The values are shared: an append through the copy to the value of a known key is seen in the original; an append
    to a new key is not. *)
Theorem C75_copy_shares : ∀ d h k x, OdWf d h → od_factory d = FList →
  ∃ c h', od_append (od_copy d) k x h = Ok (c, h') ∧
    if od_contains d k then od_view d h' = od_view c h' else od_view d h' = od_view d h ∧ od_view c h' = od_view d h ++ [(k, [x])].
Proof.
  intros d h k x W Hf. rewrite (copy_eq _ _ W). unfold od_append, od_contains.
  pose proof (C75_getitem d k h W Hf) as Hg. unfold od_get in Hg. destruct (od_lookup d k) as [o|] eqn:E.
  - rewrite Hg. cbn. eexists _, _. split; [reflexivity|]. done.
  - cbv zeta in Hg. destruct Hg as [Eg Hv]. rewrite Eg. cbn [mbind res_bind]. eexists _, _. split; [reflexivity|].
    rewrite bool_decide_false by (intros [? ?]; done). split.
    + unfold od_view. apply list_fmap_ext. intros i [k' o'] Hi. cbn. f_equal.
      assert ((o' < length h)%nat) by (eapply (ow_refs _ _ W k'); by eapply elem_of_list_lookup_2).
      unfold append_obj. rewrite list_lookup_alter_ne by lia. by rewrite lookup_app_l by done.
    + unfold od_view. cbn [od_items]. rewrite fmap_app. cbn. f_equal.
      * apply list_fmap_ext. intros i [k' o'] Hi. cbn. f_equal.
        assert ((o' < length h)%nat) by (eapply (ow_refs _ _ W k'); by eapply elem_of_list_lookup_2).
        unfold append_obj. rewrite list_lookup_alter_ne by lia. by rewrite lookup_app_l by done.
      * unfold append_obj. rewrite list_lookup_alter. by rewrite lookup_app_r, Nat.sub_diag by lia.
Qed.

(** ** Deep copies *)
Lemma deep_fold h0 l : ∀ e h, NoDup ((od_items e).*1 ++ l.*1) → (∀ k o, (k, o) ∈ l → (o < length h0)%nat) →
  (∀ o, (o < length h0)%nat → h !! o = h0 !! o) → (length h0 ≤ length h)%nat →
  (∀ k o, (k, o) ∈ od_items e → (length h0 ≤ o < length h)%nat) →
  ∃ e' h', foldl deep_item (e, h) l = (e', h') ∧ od_factory e' = od_factory e ∧
    (∀ o, (o < length h0)%nat → h' !! o = h0 !! o) ∧ (length h0 ≤ length h')%nat ∧
    (∀ k o, (k, o) ∈ od_items e' → (length h0 ≤ o < length h')%nat) ∧ NoDup (od_items e').*1 ∧
    (NoDup (od_items e).*2 → NoDup (od_items e').*2) ∧
    od_view e' h' = od_view e h ++ ((λ kv, (kv.1, default [] (h0 !! kv.2))) <$> l).
Proof.
  induction l as [|[k o] l IH]; intros e h Hn Hl Hh Hlen He; cbn [foldl].
  { exists e, h. rewrite app_nil_r in Hn. split_and!; try done. cbn. by rewrite app_nil_r. }
  assert (Hk : k ∉ (od_items e).*1).
  { apply NoDup_app in Hn as (_ & Hd & _). intros Hin. apply (Hd _ Hin). cbn. left. }
  cbn [deep_item fst snd].
  assert (Ho : (o < length h0)%nat) by (apply (Hl k); left).
  destruct (IH (od_set e k (length h)) (h ++ [default [] (h !! o)])) as (e' & h' & E & Hf & Hh' & Hlen' & He' & Hk' & Hr' & Hv').
  - cbn. rewrite set_new by done. rewrite fmap_app, <- app_assoc. done.
  - intros k' o' Hin. apply (Hl k'). by right.
  - intros o' Ho'. rewrite lookup_app_l by lia. by apply Hh.
  - rewrite app_length. lia.
  - intros k' o' Hin. cbn in Hin. rewrite set_new in Hin by done. rewrite app_length. cbn.
    apply elem_of_app in Hin as [Hin|Hin]; [apply He in Hin; lia|]. apply elem_of_list_singleton in Hin as [= -> ->]. lia.
  - exists e', h'. split_and!; try done.
    + intros Hr. apply Hr'. cbn. rewrite set_new, fmap_app by done. cbn. apply NoDup_app. split_and!; [done| |apply NoDup_singleton].
      intros o' Ho' ->%elem_of_list_singleton. apply elem_of_list_fmap in Ho' as ([k' o'] & Eo & Hin). cbn in Eo. subst o'.
      apply He in Hin. lia.
    + rewrite Hv'. unfold od_view. cbn [od_items od_set]. rewrite set_new by done. rewrite fmap_app, <- app_assoc. f_equal.
      * apply list_fmap_ext. intros i [k' o'] Hi. cbn. f_equal. rewrite lookup_app_l; [done|].
        eapply (He k'). by eapply elem_of_list_lookup_2.
      * cbn. rewrite lookup_app_r, Nat.sub_diag by lia. cbn. by rewrite Hh by done.
Qed.

(** A deep copy reads the same, and no append to one of the two dicts changes what the other reads. *)
Theorem C75_deepcopy : ∀ d h c h', OdWf d h → od_deepcopy d h = (c, h') →
  od_factory c = od_factory d ∧ od_view c h' = od_view d h ∧ od_view d h' = od_view d h ∧
  (∀ k o x, (k, o) ∈ od_items c → od_view d (append_obj o x h') = od_view d h') ∧
  (∀ k o x, (k, o) ∈ od_items d → od_view c (append_obj o x h') = od_view c h').
Proof.
  intros d h c h' W H. unfold od_deepcopy in H.
  destruct (deep_fold h (od_items d) (od_new (od_factory d)) h) as (e' & h2 & E & Hf & Hh & Hl & He & Hk & Hr & Hv); cbn.
  - exact (ow_keys _ _ W).
  - intros k o. apply (ow_refs _ _ W).
  - done.
  - done.
  - by intros k o ?%elem_of_nil.
  - rewrite E in H. injection H as <- <-. split_and!; [done|exact Hv|..].
    + apply list_fmap_ext. intros i [k' o'] Hi. cbn. f_equal. rewrite Hh; [done|]. eapply (ow_refs _ _ W k').
      by eapply elem_of_list_lookup_2.
    + intros k o x Hin. apply list_fmap_ext. intros i [k' o'] Hi. cbn. f_equal. unfold append_obj.
      apply He in Hin. assert ((o' < length h)%nat) by (eapply (ow_refs _ _ W k'); by eapply elem_of_list_lookup_2).
      by rewrite list_lookup_alter_ne by lia.
    + intros k o x Hin. apply list_fmap_ext. intros i [k' o'] Hi. cbn. f_equal. unfold append_obj.
      apply (ow_refs _ _ W) in Hin. apply elem_of_list_lookup_2, He in Hi. by rewrite list_lookup_alter_ne by lia.
Qed.

(** One would expect a deep copy to keep two keys that share one value sharing it (as [copy.deepcopy] of an ordinary
    dict does): here they do not. *)
Theorem C75_deepcopy_sharing_refuted :
  ∃ ops d h c h', dict_run ops (od_new FList, []) = Ok (d, h) ∧ od_deepcopy d h = (c, h') ∧
    od_lookup d 1 = od_lookup d 2 ∧ is_Some (od_lookup d 1) ∧ od_lookup c 1 ≠ od_lookup c 2.
Proof.
  exists [Read 1; Store 2 0]. do 4 eexists. split; [vm_compute; reflexivity|]. split; [vm_compute; reflexivity|].
  split_and!; vm_compute; [reflexivity|eauto|done].
Qed.

(** ** Pickling *)
Lemma pickle_fold h0 l : ∀ e h m, NoDup ((od_items e).*1 ++ l.*1) → (∀ k o, (k, o) ∈ l → (o < length h0)%nat) →
  (∀ a b, (a, b) ∈ m → (b < length h)%nat ∧ h !! b = h0 !! a ∧ (a < length h0)%nat) →
  (∀ k o, (k, o) ∈ od_items e → (o < length h)%nat) →
  ∃ e' h' m', foldl (λ st kv, pickle_item st h0 kv) (e, h, m) l = (e', h', m') ∧ od_factory e' = od_factory e ∧
    od_view e' h' = od_view e h ++ ((λ kv, (kv.1, default [] (h0 !! kv.2))) <$> l).
Proof.
  induction l as [|[k o] l IH]; intros e h m Hn Hl Hm He; cbn [foldl].
  { exists e, h, m. cbn. by rewrite app_nil_r. }
  assert (Hk : k ∉ (od_items e).*1).
  { apply NoDup_app in Hn as (_ & Hd & _). intros Hin. apply (Hd _ Hin). cbn. left. }
  assert (Hn' : ∀ o', NoDup ((od_items (od_set e k o')).*1 ++ l.*1)).
  { intros o'. cbn. rewrite set_new by done. rewrite fmap_app, <- app_assoc. done. }
  assert (Ho : (o < length h0)%nat) by (apply (Hl k); left).
  cbn [pickle_item fst snd]. destruct (list_find _ m) as [[i [a b]]|] eqn:Ef.
  - apply list_find_Some in Ef as (Ef & Ha & _). cbn in Ha. subst a. apply elem_of_list_lookup_2 in Ef.
    destruct (Hm _ _ Ef) as (Hb & Eb & _).
    destruct (IH (od_set e k b) h m) as (e' & h' & m' & E & Hf & Hv); [apply Hn'| |done| |].
    + intros k' o' Hin. apply (Hl k'). by right.
    + intros k' o' Hin. cbn in Hin. apply set_in in Hin as [Hin|[= -> ->]]; [eauto|done].
    + exists e', h', m'. split; [done|]. split; [done|]. rewrite Hv. unfold od_view. cbn [od_items od_set].
      rewrite set_new by done. rewrite fmap_app, <- app_assoc. f_equal. cbn. by rewrite Eb.
  - destruct (IH (od_set e k (length h)) (h ++ [default [] (h0 !! o)]) (m ++ [(o, length h)])) as (e' & h' & m' & E & Hf & Hv);
      [apply Hn'|..].
    + intros k' o' Hin. apply (Hl k'). by right.
    + intros a b Hin. rewrite app_length. cbn. apply elem_of_app in Hin as [Hin|Hin].
      * destruct (Hm _ _ Hin) as (Hb & Eb & Ha). split_and!; [lia| |done]. by rewrite lookup_app_l by done.
      * apply elem_of_list_singleton in Hin as [= -> ->]. split_and!; [lia| |done].
        rewrite lookup_app_r, Nat.sub_diag by lia. cbn. destruct (lookup_lt_is_Some_2 h0 o Ho) as [y ->]. done.
    + intros k' o' Hin. cbn in Hin. rewrite app_length. cbn. apply set_in in Hin as [Hin|[= -> ->]]; [|lia].
      apply He in Hin. lia.
    + exists e', h', m'. split; [done|]. split; [done|]. rewrite Hv. unfold od_view. cbn [od_items od_set].
      rewrite set_new by done. rewrite fmap_app, <- app_assoc. f_equal.
      * apply list_fmap_ext. intros i [k' o'] Hi. cbn. f_equal. rewrite lookup_app_l; [done|].
        eapply (He k'). by eapply elem_of_list_lookup_2.
      * cbn. rewrite lookup_app_r, Nat.sub_diag by lia. done.
Qed.

(** A dict that was pickled and loaded reads the same, but it is no longer a default dict: its factory is an empty
    list, and reading a missing key raises TypeError. *)
Theorem C75_pickle : ∀ d h, OdWf d h → od_factory d = FList →
  ∃ c h', od_pickled d h = Ok (c, h') ∧ od_view c h' = od_view d h ∧
    ∀ k, od_contains d k = false → od_getitem c k h' = Raise TypeError.
Proof.
  intros d h W Hf. unfold od_pickled. rewrite Hf. cbn [call_factory mbind res_bind].
  destruct (pickle_fold (h ++ [[]]) (od_items d) (od_new FNotCallable) (h ++ [[]]) []) as (e & h' & m & E & Hfe & Hv); cbn.
  - exact (ow_keys _ _ W).
  - intros k o Hin. apply (ow_refs _ _ W) in Hin. rewrite app_length. lia.
  - by intros a b ?%elem_of_nil.
  - by intros a b ?%elem_of_nil.
  - rewrite E. eexists _, _. split; [reflexivity|]. cbn in Hv. split.
    + rewrite Hv. apply list_fmap_ext. intros i [k' o'] Hi. cbn. f_equal. rewrite lookup_app_l; [done|].
      eapply (ow_refs _ _ W k'). by eapply elem_of_list_lookup_2.
    + intros k Hk. unfold od_contains in Hk. apply bool_decide_eq_false in Hk. unfold od_getitem.
      assert (od_lookup e k = None) as ->.
      { apply lookup_none. rewrite <- (view_keys e h'), Hv, <- list_fmap_compose. cbn.
        change ((λ kv : Z * nat, kv.1) <$> od_items d) with (od_items d).*1. apply lookup_none.
        destruct (od_lookup d k); [|done]. exfalso. eauto. }
      cbn. by rewrite Hfe.
Qed.

(** ** Non-vacuity *)
Theorem C75_example : ∃ d h, group [(2, 10); (1, 11); (2, 12)] (od_new FList, [[7]]) = Ok (d, h) ∧ OdWf d h ∧
  od_view d h = [(2, [10; 12]); (1, [11])] ∧ od_factory d = FList ∧ od_contains d 3 = false ∧ od_contains d 2 = true.
Proof.
  eexists _, _. split; [vm_compute; reflexivity|]. split_and!; try (vm_compute; reflexivity).
  eapply (C75_keys FList ((λ kx, Append kx.1 kx.2) <$> [(2, 10); (1, 11); (2, 12)]) [[7]]); [done|]. vm_compute. reflexivity.
Qed.

Print Assumptions C75_keys. Print Assumptions C75_getitem. Print Assumptions C75_group. Print Assumptions C75_delete. Print Assumptions C75_store. Print Assumptions C75_copy.
Print Assumptions C75_copy_shares. Print Assumptions C75_deepcopy. Print Assumptions C75_deepcopy_sharing_refuted.
Print Assumptions C75_pickle.
