(** * Property C61: pretty package strings. *)
From Verif Require Import ReqProofs PropParser PackageParserProofs.
From Coq Require Import Ascii String.
Open Scope list_scope.

(** ** The preamble *)
Lemma preamble_full t n v : preamble_of t n v → full_name_of t n v.
Proof.
  intros (sp & -> & Hn & Hne & Hs & Hv). exists sp, []. rewrite app_nil_r. split; [done|]. split; [done|]. split; [done|].
  split; [right; split; [done|by apply spaces_blank]|by left].
Qed.
Lemma package_elem t q n v : (q, (n, v)) ∈ r_package ([], t) ↔
  ∃ sp tl, t = n ++ sp ++ v ++ tl ∧ q = (rev (n ++ sp ++ v), tl) ∧ dist_name n ∧ sp ≠ [] ∧ spaces sp ∧ version_text v ∧
    (tl = [] ∨ tl = [newline]).
Proof.
  unfold r_package. rewrite elem_of_list_bind. split.
  - intros (p1 & H & (n' & Hn & E1 & E1')%recog_dist). cbn in E1, E1'.
    apply elem_of_list_bind in H as (p2 & H & Hs). unfold r_ws in Hs. apply recog_chars in Hs as (sp & [Hne Hs] & E2 & E2').
    apply elem_of_list_bind in H as (p3 & H & (v' & Hv & E3 & E3' & E4)%version_spec).
    apply elem_of_list_singleton in H. injection H as -> -> ->.
    rewrite (consumed_spec _ _ n') by (cbn; done). rewrite (consumed_spec _ _ v') by done.
    exists sp, p3.2. split; [by rewrite E1, E2, E3|]. split.
    { destruct p3 as [a b]. cbn in *. rewrite E3', E2', E1'. rewrite !rev_app_distr, app_nil_r. by rewrite <-!app_assoc. }
    split; [done|]. split; [done|]. split; [|done]. eapply Forall_impl; [exact Hs|]. intros c Hc. cbn in Hc. by apply is_ch_true in Hc.
  - intros (sp & tl & -> & -> & Hn & Hne & Hs & Hv & Htl). exists (rev n, sp ++ v ++ tl). split.
    2:{ apply recog_dist. exists n. cbn. rewrite app_nil_r. done. }
    apply elem_of_list_bind. exists (rev (n ++ sp), v ++ tl). split.
    2:{ unfold r_ws. apply recog_chars. exists sp. cbn. rewrite rev_app_distr. split; [|done]. split; [done|].
        eapply Forall_impl; [exact Hs|]. intros c ->. reflexivity. }
    apply elem_of_list_bind. exists (rev (n ++ sp ++ v), tl). split.
    2:{ apply version_spec. exists v. cbn. split; [done|]. split; [done|]. split; [|done]. rewrite app_assoc, rev_app_distr. done. }
    apply elem_of_list_singleton. f_equal. f_equal.
    + symmetry. apply consumed_spec. cbn. by rewrite app_nil_r.
    + symmetry. apply consumed_spec. cbn. by rewrite app_assoc, rev_app_distr.
Qed.
Theorem preamble_spec t n v : parse_preamble t = Ok (n, v) ↔ preamble_of t n v.
Proof.
  unfold parse_preamble. split.
  - destruct (r_package ([], t)) as [|[q [n' v']] l] eqn:E; [done|]. destruct (_ =? _)%nat eqn:El; [|done]. intros [= -> ->].
    assert (Hin : (q, (n, v)) ∈ r_package ([], t)) by (rewrite E; left).
    apply package_elem in Hin as (sp & tl & Ht & -> & Hn & Hne & Hs & Hv & Htl). apply Nat.eqb_eq in El. cbn in El.
    rewrite rev_length in El. rewrite Ht in El. rewrite !app_length in El. assert (tl = []) as ->.
    { destruct tl; [done|]. cbn in El. lia. }
    rewrite app_nil_r in Ht. by exists sp.
  - intros Hp. assert (Hf := preamble_full _ _ _ Hp). destruct Hp as (sp & Ht & Hn & Hne & Hs & Hv).
    destruct (r_package ([], t)) as [|[q [n' v']] l] eqn:E.
    + assert (Hin : ((rev (n ++ sp ++ v), []), (n, v)) ∈ r_package ([], t)).
      { apply package_elem. exists sp, []. rewrite app_nil_r. repeat (split; [done|]). by left. }
      rewrite E in Hin. by apply elem_of_nil in Hin.
    + assert (Hin : (q, (n', v')) ∈ r_package ([], t)) by (rewrite E; left).
      apply package_elem in Hin as (sp' & tl & Ht' & -> & Hn' & Hne' & Hs' & Hv' & Htl).
      destruct (full_name_unique t n v n' v') as [<- <-]; [done| |].
      { exists sp', tl. split; [done|]. split; [done|]. split; [done|]. split; [right; split; [done|by apply spaces_blank]|done]. }
      assert (tl = []) as ->.
      { destruct Htl as [->|Htl]; [done|]. exfalso. assert (Hlast : last t = Some newline).
        { rewrite Ht', Htl, !app_assoc. by rewrite last_snoc. }
        assert (Hv0 := version_chars _ Hv). rewrite Ht in Hlast. assert (v ≠ []) by (by apply version_ne).
        destruct (exists_last H) as (v0 & a & ->). rewrite !app_assoc, last_snoc in Hlast. injection Hlast as ->.
        apply Forall_app in Hv0 as [_ Hv0]. apply Forall_cons in Hv0 as [Hv0 _]. discriminate Hv0. }
      cbn. rewrite rev_length, Ht', app_nil_r, Nat.eqb_refl. done.
Qed.
Lemma preamble_else t : (∀ n v, ¬ preamble_of t n v) → parse_preamble t = Raise ValueError.
Proof.
  intros H. destruct (parse_preamble t) as [[n v]|e] eqn:E; [apply preamble_spec in E; by destruct (H n v)|].
  unfold parse_preamble in E. repeat case_match; congruence.
Qed.

(** ** Splitting at the first semicolon *)
Lemma split_first_at sep t r : sep ∉ t → split_first sep (t ++ sep :: r) = (t, Some r).
Proof.
  induction t as [|c t IH]; intros H; cbn.
  - assert (is_ch sep sep = true) as -> by (by apply is_ch_true). done.
  - apply not_elem_of_cons in H as [Hc H]. assert (is_ch sep c = false) as -> by (by apply is_ch_false). by rewrite IH.
Qed.
Lemma split_first_none sep t : sep ∉ t → split_first sep t = (t, None).
Proof.
  induction t as [|c t IH]; intros H; cbn; [done|].
  apply not_elem_of_cons in H as [Hc H]. assert (is_ch sep c = false) as -> by (by apply is_ch_false). by rewrite IH.
Qed.
Lemma split_first_inv sep t a b : split_first sep t = (a, b) →
  sep ∉ a ∧ match b with None => t = a | Some r => t = a ++ sep :: r end.
Proof.
  revert a b. induction t as [|c t IH]; intros a b; cbn.
  - intros [= <- <-]. split; [apply not_elem_of_nil|done].
  - destruct (is_ch sep c) eqn:E.
    + intros [= <- <-]. apply is_ch_true in E as ->. split; [apply not_elem_of_nil|done].
    + destruct (split_first sep t) as [a' b'] eqn:E'. intros [= <- <-]. apply is_ch_false in E.
      destruct (IH _ _ eq_refl) as [Hn Hb]. split; [apply not_elem_of_cons; by split|].
      destruct b'; cbn; by subst t.
Qed.
Lemma vchar_not a t : is_vchar a = false → Forall (λ c, is_vchar c = true) t → a ∉ t.
Proof. intros Ha H Hin. rewrite Forall_forall in H. apply H in Hin. congruence. Qed.
Lemma preamble_chars t n v : preamble_of t n v → ";"%char ∉ t ∧ trimmed t ∧ t ≠ [].
Proof.
  intros (sp & -> & Hn & Hne & Hs & Hv). split; [|split].
  - rewrite !elem_of_app. intros [H|[H|H]]; revert H.
    + apply vchar_not; [reflexivity|]. eapply Forall_impl; [by apply dotted_chars|]. intros c. apply dchar_vchar.
    + intros H. unfold spaces in Hs. rewrite Forall_forall in Hs. apply Hs in H. discriminate H.
    + apply vchar_not; [reflexivity|]. by apply version_chars.
  - apply (solid_join n sp v); [by apply dist_solid|done|by apply version_solid].
  - intros E. apply app_eq_nil in E as [-> _]. by apply (dotted_ne _ Hn).
Qed.

(** ** Blocks: trailing blanks do not matter *)
Lemma suffix_blank x r r0 b0 : x ++ ")"%char :: r = r0 ++ b0 → blank b0 → ∃ r', r0 = x ++ ")"%char :: r' ∧ r = r' ++ b0.
Proof.
  intros E Hb. assert (Hp : ∀ k t, b0 ≠ k ++ ")"%char :: t).
  { intros k t ->. apply Forall_app in Hb as [_ Hb]. apply Forall_cons in Hb as [Hb _]. discriminate Hb. }
  apply app_eq_inv in E as [(k & -> & E)|(k & -> & E)]; [by destruct (Hp k r)|].
  destruct k as [|c k]; [by destruct (Hp [] r)|]. injection E as <- ->. eauto.
Qed.
Lemma blocks_trim bs r : blocks_say bs r → ∀ r0 b0, r = r0 ++ b0 → blank b0 → blocks_say bs r0.
Proof.
  induction 1 as [t Ht|sep kt k b is parts r bs Hsep Hk Hb Hbody H IH]; intros r0 b0 E Hb0.
  - subst t. apply Forall_app in Ht as [Ht _]. by constructor.
  - destruct (suffix_blank (sep ++ kt ++ b ++ "("%char :: commas parts) r r0 b0) as (r' & -> & ->); [|done|].
    { rewrite <-E. rewrite <-!app_assoc. cbn [app]. done. }
    rewrite <-!app_assoc. cbn [app]. econstructor; eauto.
Qed.

(** ** The dictionaries *)
Definition pair_texts (n : text) (l : list (text * text)) : list text :=
  snd <$> List.filter (λ nc : text * text, bool_decide (nc.1 = n)) l.
Lemma dist_add_keys d n c m : m ∈ (dist_add d n c).*1 ↔ m ∈ d.*1 ∨ m = n.
Proof.
  induction d as [|[k cs] d IH]; cbn [dist_add].
  - cbn. rewrite elem_of_list_singleton, elem_of_nil. tauto.
  - case_decide as Hk; cbn.
    + rewrite !elem_of_cons. subst k. tauto.
    + rewrite !elem_of_cons, IH. tauto.
Qed.
Lemma dist_add_nodup d n c : NoDup d.*1 → NoDup (dist_add d n c).*1.
Proof.
  induction d as [|[k cs] d IH]; cbn [dist_add]; intros H; [repeat constructor; apply not_elem_of_nil|].
  cbn in H. apply NoDup_cons in H as [Hk H]. case_decide as E; cbn; constructor; auto.
  change (λ x : text * list text, x.1) with (fst : text * list text → text). intros Hin%dist_add_keys. tauto.
Qed.
Lemma dist_add_elem d n c : NoDup d.*1 → ∀ m cs, (m, cs) ∈ dist_add d n c ↔
  (m ≠ n ∧ (m, cs) ∈ d) ∨ (m = n ∧ ((∃ cs0, (n, cs0) ∈ d ∧ cs = cs0 ++ [c]) ∨ n ∉ d.*1 ∧ cs = [c])).
Proof.
  induction d as [|[k ks] d IH]; intros Hnd m cs; cbn [dist_add].
  - rewrite elem_of_list_singleton. cbn. split.
    + intros [= -> ->]. right. split; [done|]. right. split; [apply not_elem_of_nil|done].
    + intros [[_ H]|[-> [(cs0 & H & _)|[_ ->]]]]; [by apply elem_of_nil in H|by apply elem_of_nil in H|done].
  - cbn in Hnd. apply NoDup_cons in Hnd as [Hk Hnd]. assert (Hkd : ∀ x, (k, x) ∉ d).
    { intros x Hx. apply Hk. apply elem_of_list_fmap. by exists (k, x). }
    case_decide as E.
    + subst k. rewrite elem_of_cons. split.
      * intros [[= -> ->]|Hin]; [right; split; [done|]; left; exists ks; split; [left|done]|].
        left. split; [|by right]. intros ->. by apply Hkd in Hin.
      * intros [[Hm Hin]|[-> [(cs0 & Hin & ->)|[Hn _]]]].
        -- apply elem_of_cons in Hin as [[= -> _]|Hin]; [done|by right].
        -- apply elem_of_cons in Hin as [[= ->]|Hin]; [by left|by apply Hkd in Hin].
        -- exfalso. apply Hn. left.
    + rewrite elem_of_cons, (IH Hnd). cbn. rewrite not_elem_of_cons. split.
      * intros [[= -> ->]|[[Hm Hin]|[-> [(cs0 & Hin & ->)|[Hn ->]]]]].
        -- left. split; [done|left].
        -- left. split; [done|by right].
        -- right. split; [done|]. left. exists cs0. split; [by right|done].
        -- right. split; [done|]. right. split; [|done]. split; [congruence|done].
      * intros [[Hm Hin]|[-> [(cs0 & Hin & ->)|[[Hn Hn'] ->]]]].
        -- apply elem_of_cons in Hin as [[= -> ->]|Hin]; [by left|right; by left].
        -- apply elem_of_cons in Hin as [[= -> ->]|Hin]; [done|]. right. right. split; [done|]. left. eauto.
        -- right. right. split; [done|]. by right.
Qed.
Lemma filter_app_one {A} (f : A → bool) l x : List.filter f (l ++ [x]) = List.filter f l ++ (if f x then [x] else []).
Proof. induction l as [|y l IH]; cbn; [by destruct (f x)|]. rewrite IH. by destruct (f y). Qed.
Lemma collected l : NoDup (foldl (λ d nc, dist_add d nc.1 nc.2) [] l).*1 ∧
  ∀ n cs, (n, cs) ∈ foldl (λ d nc, dist_add d nc.1 nc.2) [] l ↔ cs = pair_texts n l ∧ cs ≠ [].
Proof.
  induction l as [|[m c] l [IHn IH]] using rev_ind.
  - cbn. split; [constructor|]. intros n cs. split; [by intros ?%elem_of_nil|]. intros [-> ?]. done.
  - rewrite foldl_app. cbn [foldl]. cbn [fst snd]. split; [by apply dist_add_nodup|]. intros n cs.
    rewrite dist_add_elem by done. unfold pair_texts. rewrite filter_app_one. cbn [fst]. rewrite fmap_app.
    fold (pair_texts n l). case_bool_decide as E.
    + subst m. cbn. rewrite IH. split.
      * intros [[? _]|[_ [(cs0 & [-> _]%IH & ->)|[Hn ->]]]]; [done| |].
        -- split; [done|]. by destruct (pair_texts n l).
        -- split; [|done]. destruct (pair_texts n l) as [|x r] eqn:E; [done|]. exfalso. apply Hn.
           apply elem_of_list_fmap. exists (n, x :: r). split; [done|]. apply IH. by rewrite E.
      * intros [-> _]. right. split; [done|]. destruct (pair_texts n l) as [|x r] eqn:E.
        -- right. split; [|done]. intros ([n' cs] & -> & [-> Hne]%IH)%elem_of_list_fmap. cbn in E. by rewrite E in Hne.
        -- left. exists (x :: r). split; [|done]. apply IH. by rewrite E.
    + cbn. rewrite app_nil_r, IH. split; [|intros H; left; split; [congruence|done]].
      intros [[_ H]|[-> _]]; [done|done].
Qed.
Lemma to_s_inj n m : to_s n = to_s m → n = m.
Proof. intros E. rewrite <-(of_to_s n), <-(of_to_s m). by rewrite E. Qed.
Lemma strictly_sorted (ds : list rdep) : sorted_by rdep_lt ds → NoDup ds.*1 →
  StronglySorted (λ a b, String.compare a b = Lt) ds.*1.
Proof.
  induction 1 as [|d ds Hs IH Hd]; cbn; [constructor|]. intros [Hn Hnd]%NoDup_cons. constructor; [by apply IH|].
  apply Forall_forall. intros n (e & -> & He)%elem_of_list_fmap. rewrite Forall_forall in Hd. specialize (Hd e He).
  unfold rdep_lt in Hd. destruct (str_total d.1 e.1) as [H|[H|H]].
  - unfold str_ltb in H. by destruct (String.compare d.1 e.1).
  - exfalso. apply Hn. rewrite H. apply elem_of_list_fmap. eauto.
  - congruence.
Qed.
Lemma block_declares is parts : body_says is parts → declares is (block_deps (commas parts)).
Proof.
  intros H. unfold block_deps. rewrite (finditer_finds _ _ _ (body_finds _ _ H [])).
  set (l := (λ i, (it_name i, it_constraint i)) <$> is).
  assert (Ht : ∀ n, pair_texts n l = texts_for n is).
  { intros n. unfold pair_texts, texts_for, l. clear. induction is as [|i is IH]; [done|]. cbn.
    case_bool_decide; cbn; [f_equal|]; exact IH. }
  destruct (collected l) as [Hnd Hel]. split.
  - apply strictly_sorted.
    + apply sort_by_sorted; unfold rdep_lt.
      * intros a b. apply str_ltb_asym.
      * intros a b c. apply str_cotrans.
    + assert (HP : (sort_by rdep_lt ((λ nc : text * list text, (to_s nc.1, [nc.2])) <$> foldl (λ d nc, dist_add d nc.1 nc.2) [] l)).*1
        ≡ₚ to_s <$> (foldl (λ d nc, dist_add d nc.1 nc.2) [] l).*1).
      { rewrite sort_by_perm. rewrite <-!list_fmap_compose. done. }
      rewrite HP. apply NoDup_fmap_2; [|done]. intros n m. apply to_s_inj.
  - intros d. rewrite elem_of_sort_by, elem_of_list_fmap. split.
    + intros ([n cs] & -> & [-> Hne]%Hel). cbn. exists n. by rewrite <-Ht.
    + intros (n & Hne & ->). exists (n, texts_for n is). split; [done|]. apply Hel. by rewrite Ht.
Qed.
(** The entries determine what is declared. *)
Lemma sorted_unique (l k : list string) : StronglySorted (λ a b, String.compare a b = Lt) l →
  StronglySorted (λ a b, String.compare a b = Lt) k → (∀ x, x ∈ l ↔ x ∈ k) → l = k.
Proof.
  assert (Hirr : ∀ x, String.compare x x ≠ Lt) by (intros x; rewrite string_compare_refl; done).
  assert (Has : ∀ x y, String.compare x y = Lt → String.compare y x = Lt → False).
  { intros x y H1 H2. apply (Hirr x). by eapply string_compare_trans. }
  intros Hl. revert k. induction Hl as [|x l Hl IH Hx]; intros k Hk Heq.
  - destruct k as [|y k]; [done|]. exfalso. apply (not_elem_of_nil y), Heq. left.
  - destruct Hk as [|y k Hk Hy]; [exfalso; apply (not_elem_of_nil x), Heq; left|].
    rewrite Forall_forall in Hx, Hy. assert (x = y) as <-.
    { assert (Hxk : x ∈ y :: k) by (apply Heq; left). assert (Hyl : y ∈ x :: l) by (apply Heq; left).
      apply elem_of_cons in Hxk as [->|Hxk]; [done|]. apply elem_of_cons in Hyl as [->|Hyl]; [done|].
      exfalso. apply (Has x y); [by apply Hx|by apply Hy]. }
    f_equal. apply IH; [done|]. intros z. split; intros Hz.
    + assert (Hz' : z ∈ x :: k) by (apply Heq; by right). apply elem_of_cons in Hz' as [->|?]; [|done].
      by apply Hx, Hirr in Hz.
    + assert (Hz' : z ∈ x :: l) by (apply Heq; by right). apply elem_of_cons in Hz' as [->|?]; [|done].
      by apply Hy, Hirr in Hz.
Qed.
Lemma declares_unique is ds ds' : declares is ds → declares is ds' → ds = ds'.
Proof.
  intros [Hs Hd] [Hs' Hd'].
  assert (Hk : ds.*1 = ds'.*1).
  { apply sorted_unique; [done|done|]. intros x. rewrite !elem_of_list_fmap. split; intros (d & -> & H); exists d; (split; [done|]).
    - apply Hd'. by apply Hd.
    - apply Hd. by apply Hd'. }
  assert (Hsnd : ∀ d e, d ∈ ds → e ∈ ds' → d.1 = e.1 → d = e).
  { intros d e (n & _ & ->)%Hd (m & _ & ->)%Hd' E. cbn in E. apply to_s_inj in E as ->. done. }
  clear Hs Hs' Hd Hd'. revert ds' Hk Hsnd. induction ds as [|d ds IH]; intros [|e ds'] Hk Hsnd; try done.
  cbn in Hk. injection Hk as Hde Hk. f_equal; [apply Hsnd; [left|left|done]|]. apply IH; [done|].
  intros a b Ha Hb. apply Hsnd; by right.
Qed.

Lemma kind_get_set d k v k' : kind_get (kind_set d k v) k' = if decide (k' = k) then v else kind_get d k'.
Proof.
  unfold kind_get. induction d as [|[k0 v0] d IH]; cbn.
  - repeat case_decide; cbn in *; try done; congruence.
  - destruct (decide (k0 = k)) as [->|Hk]; cbn.
    + destruct (decide (k = k')) as [->|]; cbn; [by rewrite decide_True by done|]. rewrite decide_False by congruence. done.
    + destruct (decide (k0 = k')) as [->|]; cbn; [by rewrite decide_False by done|].
      destruct (list_find _ (kind_set d k v)) as [[i kv]|], (list_find (λ kv : ckind * list rdep, kv.1 = k') d) as [[j kv']|]; exact IH.
Qed.
Lemma last_of_snoc bs k is k' : last_of k' (bs ++ [(k, is)]) = if decide (k = k') then is else last_of k' bs.
Proof.
  unfold last_of. rewrite filter_app_one. cbn [fst]. case_bool_decide; case_decide; try done.
  - by rewrite last_snoc.
  - by rewrite app_nil_r.
Qed.
Lemma blocks_parse bs t : blocks_say bs t → ∃ d, parse_blocks t = Ok d ∧ ∀ k, declares (last_of k bs) (kind_get d k).
Proof.
  intros (kbs & Hf & HF)%blocks_finds. unfold parse_blocks. rewrite (finditer_finds _ _ _ (Hf [])). clear Hf.
  revert bs HF. induction kbs as [|[kt body] kbs IH] using rev_ind; intros bs HF.
  - apply Forall2_nil_inv_l in HF as ->. exists []. split; [done|]. intros k. split; [constructor|].
    intros x. split; [by intros ?%elem_of_nil|]. by intros (n & ? & _).
  - apply Forall2_app_inv_l in HF as (bs0 & b & HF & H1 & ->). 
    apply Forall2_cons_inv_l in H1 as ([k is] & b' & [Hk (parts & Hp & Hb)] & H1 & ->). apply Forall2_nil_inv_l in H1 as ->.
    cbn in Hk, Hp, Hb. destruct (IH bs0 HF) as (d & Hd & HD).
    assert (Happ : ∀ {A B} (f : B → A → res B) l l' b b', foldM f l b = Ok b' → foldM f (l ++ l') b = foldM f l' b').
    { intros A B f l l'. induction l as [|x l IHl]; intros c c'; cbn; [by intros [= ->]|].
      destruct (f c x); cbn; [apply IHl|done]. }
    exists (kind_set d k (block_deps body)). split.
    { rewrite (Happ _ _ _ _ _ _ _ Hd). cbn. by rewrite Hk. }
    intros k'. rewrite kind_get_set, last_of_snoc. destruct (decide (k' = k)) as [->|Hne].
    + rewrite decide_True by done. subst body. by apply block_declares.
    + rewrite decide_False by congruence. apply HD.
Qed.

(** ** Reading *)
Theorem C61_parse vparse s n v w bs : pretty_text s n v bs → vparse v = Ok w →
  ∃ p, parse_to_package vparse s = Ok p ∧ mt_name p = to_s n ∧ mt_version p = w ∧
    declares (last_of KRequires bs) (mt_requires p) ∧ declares (last_of KConflicts bs) (mt_conflicts p) ∧
    declares (last_of KProvides bs) (mt_provides p).
Proof.
  intros (b & pre & b' & -> & Hb & Hb' & Hpre) Hv. unfold parse_to_package, parse_pretty.
  destruct Hpre as [[Hp ->]|(p & r & -> & Hp & Hbs)].
  - destruct (preamble_chars _ _ _ Hp) as (Hs & Ht & _). rewrite (strip_trimmed b pre b') by done.
    rewrite (split_first_none _ _ Hs). apply preamble_spec in Hp.
    destruct (blocks_parse [] []) as (d & Hd & HD); [constructor; constructor|].
    cbn [default from_option id]. rewrite Hd. cbn [mbind res_bind]. rewrite Hp. cbn [mbind res_bind]. rewrite Hv. cbn [mbind res_bind].
    eexists. split; [reflexivity|]. split; [done|]. split; [done|]. split; [exact (HD _)|]. split; exact (HD _).
  - destruct (preamble_chars _ _ _ Hp) as (Hs & Ht & Hne). rewrite strip_pad by done.
    destruct (strip_spec (p ++ ";"%char :: r)) as (x & y & E & Hx & Hy).
    assert (x = []) as ->.
    { destruct x as [|c x]; [done|]. destruct p as [|c' p]; [done|]. cbn in E. injection E as -> _.
      apply Forall_cons in Hx as [Hx _]. destruct Ht as [Ht _]. by rewrite (Ht c p eq_refl) in Hx. }
    cbn [app] in E.
    assert (∃ r', strip (p ++ ";"%char :: r) = p ++ ";"%char :: r' ∧ r = r' ++ y) as (r' & -> & Hr).
    { apply app_eq_inv in E as [(k & E1 & E2)|(k & E1 & E2)].
      - exfalso. subst y. apply Forall_app in Hy as [_ Hy]. apply Forall_cons in Hy as [Hy _]. discriminate Hy.
      - destruct k as [|c k]; [exfalso; cbn in E2; subst y; apply Forall_cons in Hy as [Hy _]; discriminate Hy|].
        injection E2 as <- E2. rewrite E1. eauto. }
    assert (Hbs' := blocks_trim _ _ Hbs _ _ Hr Hy).
    rewrite (split_first_at _ _ _ Hs). apply preamble_spec in Hp.
    destruct (blocks_parse _ _ Hbs') as (d & Hd & HD).
    cbn [default from_option id]. rewrite Hd. cbn [mbind res_bind]. rewrite Hp. cbn [mbind res_bind]. rewrite Hv. cbn [mbind res_bind].
    eexists. split; [reflexivity|]. split; [done|]. split; [done|]. split; [exact (HD _)|]. split; exact (HD _).
Qed.
(** What the entries declare is determined. *)
Theorem C61_determined is ds ds' : declares is ds → declares is ds' → ds = ds'.
Proof. apply declares_unique. Qed.
(** Whatever else the string contains, it must begin with a name and a version, up to the first ";". *)
Theorem C61_preamble vparse s p : parse_to_package vparse s = Ok p →
  ∃ b pre rest n v, s = b ++ pre ++ rest ∧ blank b ∧ ";"%char ∉ pre ∧ (blank rest ∨ ∃ r, rest = ";"%char :: r) ∧
    preamble_of pre n v ∧ mt_name p = to_s n ∧ vparse v = Ok (mt_version p).
Proof.
  unfold parse_to_package, parse_pretty. destruct (split_first ";" (strip s)) as [pre blocks] eqn:E.
  destruct (strip_spec s) as (b & b' & Hs & Hb & Hb'). apply split_first_inv in E as [Hn E].
  destruct (parse_blocks _) as [d|]; [|done]. cbn [mbind res_bind].
  destruct (parse_preamble pre) as [[n v]|] eqn:Hp; [|done]. cbn [mbind res_bind].
  destruct (vparse v) as [w|] eqn:Hv; [|done]. cbn [mbind res_bind]. intros [= <-]. cbn. apply preamble_spec in Hp.
  destruct blocks as [r|].
  - exists b, pre, (";"%char :: r ++ b'), n, v. split; [|eauto 10]. rewrite Hs, E. by rewrite <-!app_assoc.
  - exists b, pre, b', n, v. split; [|eauto 10]. by rewrite Hs, E.
Qed.
(** Errors: ValueError, or what the version factory raises. *)
Theorem C61_errors vparse s e : parse_to_package vparse s = Raise e → e = ValueError ∨ ∃ t, vparse t = Raise e.
Proof.
  unfold parse_to_package, parse_pretty. destruct (split_first ";" (strip s)) as [pre blocks].
  destruct (parse_blocks _) as [d|e0] eqn:Eb; cbn [mbind res_bind].
  - destruct (parse_preamble pre) as [[n v]|e1] eqn:Hp; cbn [mbind res_bind].
    + destruct (vparse v) as [w|] eqn:Hv; cbn [mbind res_bind]; [done|]. intros [= <-]. eauto.
    + intros [= <-]. left. unfold parse_preamble in Hp. repeat case_match; congruence.
  - intros [= <-]. left. unfold parse_blocks in Eb. revert Eb. generalize (@nil (ckind * list rdep)).
    induction (finditer r_block (default [] blocks)) as [|kc l IH]; intros d; [done|]. cbn [foldM].
    destruct (constraint_synonym kc.1); cbn; [apply IH|]. by intros [= <-].
Qed.

(** ** Printing and reading back *)
Definition dep_items (ds : list rdep) : list item :=
  d ← ds; conj ← d.2; c ← conj; [Item (of_s d.1) (match c with [] => [] | _ => of_s " " end) c].
Lemma plain_item n c : dist_name n → plain_string c →
  item_ok (Item n (match c with [] => [] | _ => of_s " " end) c).
Proof.
  intros Hn (Hc & Hf & Hl). split; [done|]. split; [destruct c; repeat constructor|]. cbn. split; [|split].
  - intros a Ha. destruct (Hc a Ha) as (? & ? & _ & _ & ?). done.
  - intros a r E ->. by specialize (Hf _ _ E).
  - intros a r E. destruct c; [done|]. injection E as <- _. done.
Qed.
Lemma plain_strip n c : dist_name n → plain_string c →
  strip (n ++ of_s " " ++ c) = item_text (Item n (match c with [] => [] | _ => of_s " " end) c).
Proof.
  intros Hn (Hc & Hf & Hl). unfold item_text. cbn [it_name it_spaces it_constraint].
  destruct (dist_solid _ Hn) as ([Ht1 Ht2] & Hne & _). destruct c as [|a c].
  - rewrite !app_nil_r. apply (strip_trimmed [] n (of_s " ")); [constructor|by repeat constructor|by split].
  - rewrite <-(app_nil_r (n ++ of_s " " ++ a :: c)) at 1. apply (strip_trimmed [] _ []); [constructor|constructor|].
    apply trimmed_mid; auto.
Qed.
Lemma canonical_items ds : (∀ d, d ∈ ds → dist_name (of_s d.1) ∧ ∃ conj, d.2 = [conj] ∧ conj ≠ [] ∧ ∀ c, c ∈ conj → plain_string c) →
  pretty_strings ds = item_text <$> dep_items ds ∧ Forall item_ok (dep_items ds) ∧ (ds ≠ [] → dep_items ds ≠ []).
Proof.
  induction ds as [|d ds IH]; intros H; [by split; [|split; [constructor|]]|]. destruct (H d) as (Hn & conj & Hd & Hne & Hp); [left|].
  destruct IH as (IH1 & IH2 & _); [intros e He; apply H; by right|].
  unfold pretty_strings, dep_items in *. cbn [mbind list_bind]. rewrite fmap_app. rewrite IH1. clear IH1.
  assert (Hone : ∀ cs, (∀ c, c ∈ cs → plain_string c) →
    (cs ≫= λ c, [strip (of_s d.1 ++ of_s " " ++ c)]) =
      item_text <$> (cs ≫= λ c, [Item (of_s d.1) (match c with [] => [] | _ => of_s " " end) c]) ∧
    Forall item_ok (cs ≫= λ c, [Item (of_s d.1) (match c with [] => [] | _ => of_s " " end) c])).
  { induction cs as [|c cs IHc]; intros Hcs; [by split; [|constructor]|]. destruct IHc as [IHa IHb]; [intros ? ?; apply Hcs; by right|].
    cbn [mbind list_bind app fmap list_fmap]. split.
    - rewrite plain_strip; [|done|apply Hcs; left]. f_equal. exact IHa.
    - constructor; [apply plain_item; [done|apply Hcs; left]|exact IHb]. }
  rewrite Hd. cbn [mbind list_bind]. rewrite !app_nil_r. destruct (Hone conj Hp) as [Ha Hb]. split; [|split].
  - f_equal. exact Ha.
  - apply Forall_app. split; [exact Hb|exact IH2].
  - intros _. destruct conj as [|c conj]; [done|]. cbn. done.
Qed.
Lemma canonical_body is : Forall item_ok is → is ≠ [] → ∃ parts,
  text_join (of_s ", ") (item_text <$> is) = commas parts ∧ body_says is parts.
Proof.
  intros H Hne. destruct is as [|i is]; [done|]. apply Forall_cons in H as [Hi H]. cbn [fmap list_fmap].
  eexists. rewrite join_commas. split; [reflexivity|]. 
  apply (body_item []); [split; [constructor|apply not_elem_of_nil]|done|]. clear Hi Hne.
  induction H as [|j is Hj H IH]; [constructor|]. cbn. apply (body_item (of_s " ")); [|done|exact IH].
  split; [by repeat constructor|]. cbn. intros E%elem_of_list_singleton. discriminate E.
Qed.
Lemma texts_items ds d : StronglySorted (λ a b, String.compare a b = Lt) ds.*1 →
  (∀ d, d ∈ ds → ∃ conj, d.2 = [conj]) → d ∈ ds → [texts_for (of_s d.1) (dep_items ds)] = d.2.
Proof.
  assert (Hother : ∀ n ds, n ∉ ds.*1 → texts_for (of_s n) (dep_items ds) = []).
  { intros n l. unfold texts_for, dep_items. induction l as [|e l IH]; intros Hn; [done|].
    apply not_elem_of_cons in Hn as [Hne Hn]. cbn [mbind list_bind]. rewrite List.filter_app, fmap_app.
    rewrite IH by done. rewrite app_nil_r. destruct e as [en ed]. cbn [fst snd] in *. clear IH.
    induction ed as [|conj ed IHd]; [done|]. cbn [mbind list_bind]. rewrite List.filter_app, fmap_app. 
    transitivity (@nil text ++ []); [|done]. f_equal; [|exact IHd]. clear IHd. induction conj as [|c conj IHc]; [done|]. cbn.
    rewrite bool_decide_eq_false_2; [exact IHc|]. intros E. apply Hne. rewrite <-(to_of_s n), <-(to_of_s en). by f_equal. }
  assert (Hsame : ∀ n conj, texts_for (of_s n) (conj ≫= λ c, [Item (of_s n) (match c with [] => [] | _ => of_s " " end) c]) = conj).
  { intros n conj. induction conj as [|c conj IHc]; [done|]. unfold texts_for in *. cbn. rewrite bool_decide_eq_true_2 by done. cbn.
    f_equal. exact IHc. }
  assert (Happ : ∀ n a b, texts_for n (a ++ b) = texts_for n a ++ texts_for n b).
  { intros n a b. unfold texts_for. by rewrite List.filter_app, fmap_app. }
  induction ds as [|e ds IH]; intros Hs Hc Hd; [by apply elem_of_nil in Hd|]. cbn in Hs. inversion Hs as [|? ? Hs' Hlt]; subst.
  destruct (Hc e) as [conj He]; [left|].
  assert (Hnot : e.1 ∉ ds.*1).
  { intros Hin. rewrite Forall_forall in Hlt. apply Hlt in Hin. by rewrite string_compare_refl in Hin. }
  change (dep_items (e :: ds)) with ((e.2 ≫= λ conj, conj ≫= λ c, [Item (of_s e.1) (match c with [] => [] | _ => of_s " " end) c]) ++ dep_items ds).
  rewrite Happ, He. cbn [mbind list_bind]. rewrite app_nil_r. apply elem_of_cons in Hd as [->|Hd].
  - rewrite (Hother _ _ Hnot), app_nil_r, He. f_equal. apply Hsame.
  - assert (d.1 ≠ e.1). { intros E. apply Hnot. rewrite <-E. apply elem_of_list_fmap. eauto. }
    transitivity [texts_for (of_s d.1) (dep_items ds)]; [|apply IH; [done|intros x Hx; apply Hc; by right|done]].
    f_equal. rewrite <-(app_nil_l (texts_for (of_s d.1) (dep_items ds))) at 2. f_equal.
    clear -H. induction conj as [|c conj IHc]; [done|]. unfold texts_for in *. cbn. rewrite bool_decide_eq_false_2; [exact IHc|].
    intros E. apply H. symmetry. rewrite <-(to_of_s d.1), <-(to_of_s e.1). by f_equal.
Qed.
Lemma texts_in n is : texts_for n is ≠ [] → ∃ i, i ∈ is ∧ it_name i = n.
Proof.
  unfold texts_for. induction is as [|i is IH]; [done|]. cbn. case_bool_decide.
  - intros _. exists i. split; [left|done].
  - intros H'. destruct (IH H') as (j & Hj & ?). exists j. split; [by right|done].
Qed.
Lemma canonical_declares ds : canonical_deps ds → declares (dep_items ds) ds.
Proof.
  intros [Hs Hc]. split; [done|]. assert (Hc' : ∀ d, d ∈ ds → ∃ conj, d.2 = [conj]).
  { intros d Hd. destruct (Hc d Hd) as (_ & conj & ? & _). eauto. }
  assert (Hd' : ∀ d, d ∈ ds → d = (to_s (of_s d.1), [texts_for (of_s d.1) (dep_items ds)]) ∧ texts_for (of_s d.1) (dep_items ds) ≠ []).
  { intros d Hd. assert (E := texts_items ds d Hs Hc' Hd). split.
    - destruct d as [n dd]. cbn in *. rewrite E, to_of_s. done.
    - destruct (Hc d Hd) as (_ & conj & E' & Hne & _). rewrite E' in E. by injection E as ->. }
  intros d. split.
  - intros Hd. exists (of_s d.1). destruct (Hd' d Hd). split; done.
  - intros (n & Hne & ->). destruct (texts_in _ _ Hne) as (i & Hi & <-). unfold dep_items in Hi.
    apply elem_of_list_bind in Hi as (e & Hi & He). apply elem_of_list_bind in Hi as (conj & Hi & _).
    apply elem_of_list_bind in Hi as (c & ->%elem_of_list_singleton & _). cbn.
    destruct (Hd' e He) as [E _]. cbn in E. fold (dep_items ds). by rewrite <-E.
Qed.
(** One kind of constraints, printed. *)
Definition kind_blocks (k : ckind) (ds : list rdep) : list (ckind * list item) :=
  match ds with [] => [] | _ => [(k, dep_items ds)] end.
Lemma block_printed k ds r bs : canonical_deps ds → blocks_say bs r →
  blocks_say (kind_blocks k ds ++ bs) (pretty_block k ds ++ r) ∧
  (ds ≠ [] → ∃ r', pretty_block k ds ++ r = ";"%char :: r' ∧ blocks_say (kind_blocks k ds ++ bs) r').
Proof.
  intros [_ Hc] Hb. destruct ds as [|d ds]; [done|].
  destruct (canonical_items _ Hc) as (E1 & Hi & Hne). destruct (canonical_body _ Hi) as (parts & E2 & Hp); [by apply Hne|].
  unfold pretty_block, kind_blocks. rewrite E1, E2. cbn [app].
  assert (Hk : ∀ sep, separator sep → blocks_say ((k, dep_items (d :: ds)) :: bs)
    (sep ++ kind_text k ++ of_s " " ++ "("%char :: commas parts ++ ")"%char :: r)).
  { intros sep Hsep. econstructor; [done|by destruct k|by repeat constructor|done|done]. }
  assert (E : ∀ sep, (sep ++ kind_text k ++ of_s " (" ++ commas parts ++ of_s ")") ++ r =
    sep ++ kind_text k ++ of_s " " ++ "("%char :: commas parts ++ ")"%char :: r).
  { intros sep. rewrite <-!app_assoc. done. }
  split.
  - specialize (Hk (of_s "; ")). rewrite E. apply Hk. by repeat constructor.
  - intros _. exists (of_s " " ++ kind_text k ++ of_s " " ++ "("%char :: commas parts ++ ")"%char :: r). split; [|apply Hk; by repeat constructor].
    rewrite E. done.
Qed.
Definition brace (c : ascii) : bool := is_ch "{" c || is_ch "}" c.
Lemma no_brace_app a b : existsb brace (a ++ b) = existsb brace a || existsb brace b.
Proof. apply existsb_app. Qed.
Lemma no_brace_block k ds : canonical_deps ds → existsb brace (pretty_block k ds) = false.
Proof.
  intros [_ Hc]. destruct ds as [|d ds]; [done|]. destruct (canonical_items _ Hc) as (E1 & _ & _).
  unfold pretty_block. rewrite !no_brace_app. assert (Hk : existsb brace (kind_text k) = false) by (by destruct k). rewrite Hk.
  rewrite E1.
  assert (Hi : ∀ t, t ∈ item_text <$> dep_items (d :: ds) → existsb brace t = false).
  { intros t (i & -> & Hi)%elem_of_list_fmap. unfold dep_items in Hi.
    apply elem_of_list_bind in Hi as (e & Hi & He). apply elem_of_list_bind in Hi as (conj & Hi & Hconj).
    apply elem_of_list_bind in Hi as (c & ->%elem_of_list_singleton & Hcc). unfold item_text; cbn [it_name it_spaces it_constraint].
    destruct (Hc e He) as (Hn & conj' & Ee & _ & Hp). rewrite Ee in Hconj. apply elem_of_list_singleton in Hconj as ->.
    rewrite !no_brace_app. assert (existsb brace (of_s e.1) = false) as ->.
    { apply not_true_is_false. intros (a & Ha & Hb)%existsb_exists. apply elem_of_list_In in Ha.
      apply dotted_chars in Hn. rewrite Forall_forall in Hn. apply Hn in Ha. unfold brace in Hb.
      apply orb_true_iff in Hb as [<-%is_ch_true|<-%is_ch_true]; discriminate Ha. }
    assert (existsb brace (match c with [] => [] | _ => of_s " " end) = false) as -> by (by destruct c).
    apply not_true_is_false. intros (a & Ha & Hb)%existsb_exists. apply elem_of_list_In in Ha.
    destruct (Hp c Hcc) as (Hch & _). destruct (Hch a Ha) as (_ & _ & ? & ? & _). unfold brace in Hb.
    apply orb_true_iff in Hb as [<-%is_ch_true|<-%is_ch_true]; done. }
  enough (Hj : existsb brace (text_join (of_s ", ") (item_text <$> dep_items (d :: ds))) = false) by (by rewrite Hj).
  clear -Hi. induction (item_text <$> dep_items (d :: ds)) as [|t l IH]; [done|].
  assert (IH' := IH (λ x Hx, Hi x (elem_of_list_further _ _ _ Hx))). destruct l as [|u l].
  - cbn [text_join]. apply Hi. left.
  - change (text_join (of_s ", ") (t :: u :: l)) with (t ++ of_s ", " ++ text_join (of_s ", ") (u :: l)).
    rewrite !no_brace_app, IH', (Hi t) by left. done.
Qed.
Lemma filter_provides p : mt_name p ∉ (mt_provides p).*1 →
  filter (λ d : rdep, d.1 ≠ mt_name p) ((mt_name p, [[of_s "*"]]) :: mt_provides p) = mt_provides p.
Proof.
  intros H. rewrite filter_cons_False by (cbn; tauto). induction (mt_provides p) as [|d l IH]; [done|].
  apply not_elem_of_cons in H as [H1 H2]. rewrite filter_cons_True by done. f_equal. by apply IH.
Qed.
Theorem C61_round_trip vparse vstr p : canonical p → version_text (vstr (mt_version p)) →
  vparse (vstr (mt_version p)) = Ok (mt_version p) →
  ∃ s, package_to_pretty_string vstr p = Ok s ∧ parse_to_package vparse s = Ok p.
Proof.
  intros (Hn & Hr & Hc & Hp & Hself) Hv Hvp. unfold package_to_pretty_string. rewrite (filter_provides p Hself).
  change (λ c, is_ch "{" c || is_ch "}" c) with brace. rewrite !no_brace_app, !no_brace_block by done. cbn [orb].
  eexists. split; [reflexivity|].
  set (bs := kind_blocks KRequires (mt_requires p) ++ kind_blocks KConflicts (mt_conflicts p) ++ kind_blocks KProvides (mt_provides p) ++ []).
  assert (Hpre : preamble_of (of_s (mt_name p) ++ of_s " " ++ vstr (mt_version p)) (of_s (mt_name p)) (vstr (mt_version p))).
  { exists (of_s " "). repeat (split; [done|]). split; [by repeat constructor|done]. }
  assert (B0 : blocks_say [] []) by (constructor; constructor).
  destruct (block_printed KProvides _ _ _ Hp B0) as [B1 C1]. destruct (block_printed KConflicts _ _ _ Hc B1) as [B2 C2].
  destruct (block_printed KRequires _ _ _ Hr B2) as [B3 C3]. rewrite app_nil_r in B1, C1, B2, C2, B3, C3.
  assert (Hlast : ∀ k ds, (k, ds) = (KRequires, mt_requires p) ∨ (k, ds) = (KConflicts, mt_conflicts p) ∨ (k, ds) = (KProvides, mt_provides p) →
    last_of k bs = dep_items ds).
  { intros k ds H. unfold bs, kind_blocks. destruct (mt_requires p), (mt_conflicts p), (mt_provides p);
      destruct H as [[= -> ->]|[[= -> ->]|[= -> ->]]]; reflexivity. }
  assert (Htext : pretty_text (of_s (mt_name p) ++ of_s " " ++ vstr (mt_version p) ++ pretty_block KRequires (mt_requires p) ++
      pretty_block KConflicts (mt_conflicts p) ++ pretty_block KProvides (mt_provides p)) (of_s (mt_name p)) (vstr (mt_version p)) bs).
  { exists [], (of_s (mt_name p) ++ of_s " " ++ vstr (mt_version p) ++ pretty_block KRequires (mt_requires p) ++
      pretty_block KConflicts (mt_conflicts p) ++ pretty_block KProvides (mt_provides p)), [].
    rewrite app_nil_r. split; [done|]. split; [constructor|]. split; [constructor|].
    assert (Hcases : (pretty_block KRequires (mt_requires p) ++ pretty_block KConflicts (mt_conflicts p) ++ pretty_block KProvides (mt_provides p) = [] ∧ bs = []) ∨
      ∃ r, pretty_block KRequires (mt_requires p) ++ pretty_block KConflicts (mt_conflicts p) ++ pretty_block KProvides (mt_provides p) = ";"%char :: r ∧ blocks_say bs r).
    { unfold bs. destruct (mt_requires p) as [|d ds]; [|right; by apply C3]. destruct (mt_conflicts p) as [|d ds]; [|right; by apply C2].
      destruct (mt_provides p) as [|d ds]; [by left|right; by apply C1]. }
    destruct Hcases as [[-> ->]|(r & -> & Hb)]; [left|right].
    - by rewrite app_nil_r.
    - exists (of_s (mt_name p) ++ of_s " " ++ vstr (mt_version p)), r. rewrite <-!app_assoc. done. }
  destruct (C61_parse vparse _ _ _ _ _ Htext Hvp) as (q & Hq & E1 & E2 & D1 & D2 & D3).
  rewrite (Hlast KRequires (mt_requires p)) in D1 by auto. rewrite (Hlast KConflicts (mt_conflicts p)) in D2 by auto.
  rewrite (Hlast KProvides (mt_provides p)) in D3 by auto.
  rewrite Hq. f_equal. destruct q, p; cbn in *. rewrite to_of_s in E1. f_equal; [done|done|..];
    (eapply declares_unique; [eassumption|by apply canonical_declares]).
Qed.

(** ** Metadata that does not survive *)
(** A dependency without constraint strings is not printed: the package that is read back does not depend on it. *)
Theorem C61_empty_refuted : ∃ p s q, dist_name (of_s (mt_name p)) ∧ mt_requires p = [("MKL", [[]])] ∧
  package_to_pretty_string ex_vstr p = Ok s ∧ s = of_s "numpy 1.0-3; install_requires ()" ∧
  parse_to_package ex_vparse s = Ok q ∧ mt_requires q = [].
Proof.
  exists (Meta "numpy" (V 10 3) [("MKL", [[]])] [] []). eexists _, _. split; [apply dist_by; reflexivity|].
  split; [done|]. split; [vm_compute; reflexivity|]. split; [done|]. split; [vm_compute; reflexivity|]. done.
Qed.
(** Alternatives become a conjunction. *)
Theorem C61_alternatives_refuted : ∃ p s q, mt_requires p = [("MKL", [[of_s "< 1.0"]; [of_s "> 2.0"]])] ∧
  package_to_pretty_string ex_vstr p = Ok s ∧ parse_to_package ex_vparse s = Ok q ∧
  mt_requires q = [("MKL", [[of_s "< 1.0"; of_s "> 2.0"]])].
Proof.
  exists (Meta "numpy" (V 10 3) [("MKL", [[of_s "< 1.0"]; [of_s "> 2.0"]])] [] []). eexists _, _.
  split; [done|]. split; [vm_compute; reflexivity|]. split; [vm_compute; reflexivity|]. done.
Qed.
(** Two blocks of one kind: the first one is ignored without notice.  A name with "-" is cut. *)
Theorem C61_odd_strings :
  (∃ q, parse_to_package ex_vparse (of_s "a 1.0; depends (b); install_requires (c)") = Ok q ∧
     mt_requires q = [("c", [[[]]])]) ∧
  (∃ q, parse_to_package ex_vparse (of_s "a 1.0; depends (numpy-nomkl >= 1.0)") = Ok q ∧
     mt_requires q = [("numpy", [[of_s "-nomkl >= 1.0"]])]) ∧
  (∃ q, parse_to_package ex_vparse (of_s "a 1.0; depends b, c") = Ok q ∧ mt_requires q = []) ∧
  parse_to_package ex_vparse (of_s "numpy-nomkl 1.0") = Raise ValueError ∧
  parse_to_package ex_vparse (of_s "a 1.0 ; depends (b)") = Raise ValueError.
Proof. repeat split; try (eexists; split; [vm_compute; reflexivity|done]); vm_compute; reflexivity. Qed.
(** ** Examples *)
Definition ex_meta : metadata := Meta "numpy" (V 10 3)
  [("MKL", [[of_s ">= 1.0"; of_s "!= 1.0-3"]]); ("nose", [[of_s "*"]])] [("numeric", [[[]]])] [("numarray", [[of_s "*"]])].
Theorem C61_example : canonical ex_meta ∧ version_text (ex_vstr (mt_version ex_meta)) ∧
  ex_vparse (ex_vstr (mt_version ex_meta)) = Ok (mt_version ex_meta) ∧
  package_to_pretty_string ex_vstr ex_meta =
    Ok (of_s "numpy 1.0-3; install_requires (MKL >= 1.0, MKL != 1.0-3, nose *); conflicts (numeric); provides (numarray *)").
Proof.
  assert (P : ∀ c, forallb (λ a, negb (is_ch "," a || is_ch ")" a || is_ch "{" a || is_ch "}" a || is_ch newline a)) c
    && match c with a :: _ => negb (is_white a) | [] => true end && match rev c with a :: _ => negb (is_white a) | [] => true end = true →
    plain_string c).
  { intros c [[H1 H2]%andb_true_iff H3]%andb_true_iff. split; [|split].
    - intros a Ha. rewrite forallb_forall in H1. apply elem_of_list_In, H1 in Ha. apply negb_true_iff in Ha.
      rewrite !orb_false_iff, !is_ch_false in Ha. destruct Ha as [[[[? ?] ?] ?] ?]. repeat split; congruence.
    - intros a r ->. by apply negb_true_iff.
    - intros a r E. rewrite E in H3. by apply negb_true_iff. }
  assert (D : ∀ ds : list rdep, forallb (λ d, match d.2 with
      | [cj] => match cj with [] => false | _ => true end && forallb (λ c, forallb (λ a, negb (is_ch "," a || is_ch ")" a || is_ch "{" a || is_ch "}" a || is_ch newline a)) c
    && match c with a :: _ => negb (is_white a) | [] => true end && match rev c with a :: _ => negb (is_white a) | [] => true end) cj
      | _ => false end && bool_decide ((rev (of_s d.1), []) ∈ r_dist ([], of_s d.1))) ds = true →
    StronglySorted (λ a b, String.compare a b = Lt) ds.*1 → canonical_deps ds).
  { intros ds H Hs. split; [done|]. intros [n dd] Hd. rewrite forallb_forall in H. apply elem_of_list_In, H in Hd.
    apply andb_true_iff in Hd as [H1 H2]. split; [by apply dist_by|]. cbn in H1. destruct dd as [|conj [|]]; try done.
    exists conj. split; [done|]. apply andb_true_iff in H1 as [H0 H1]. split; [by destruct conj|].
    intros c Hc. rewrite forallb_forall in H1. apply P, H1. by apply elem_of_list_In. }
  split; [|split; [apply version_by; reflexivity|split; [reflexivity|vm_compute; reflexivity]]].
  split; [apply dist_by; reflexivity|].
  split; [apply D; [vm_compute; reflexivity|repeat constructor]|].
  split; [apply D; [vm_compute; reflexivity|repeat constructor]|].
  split; [apply D; [vm_compute; reflexivity|repeat constructor]|].
  cbn. intros E%elem_of_list_singleton. discriminate E.
Qed.
Print Assumptions C61_parse.
Print Assumptions C61_determined.
Print Assumptions C61_preamble.
Print Assumptions C61_errors.
Print Assumptions C61_round_trip.
Print Assumptions C61_empty_refuted.
Print Assumptions C61_alternatives_refuted.
Print Assumptions C61_odd_strings.
Print Assumptions C61_example.
