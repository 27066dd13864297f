(** * Property C92: ConstraintModifiers objects. *)
From Coq Require Import Ascii String.
From Verif Require Import ScenarioProofs PropConstraints.
From Verif Require Export ModifierObj.
Open Scope string_scope.
Open Scope list_scope.

(** The names given: a string is one name, not its letters. *)
Definition named (c : option names_arg) (n : string) : Prop :=
  match c with None => False | Some (AString s) => n = s | Some (ANames l) => n ∈ l end.
Lemma as_set_spec c n : n ∈ as_set (default (ANames []) c) ↔ named c n.
Proof.
  destruct c as [[s|l]|]; cbn; [set_solver|by rewrite elem_of_list_to_set|]. by rewrite elem_of_empty.
Qed.
Theorem C92_new : ∀ newer any older n, let m := mods_new newer any older in
  (n ∈ allow_newer m ↔ named newer n) ∧ (n ∈ allow_any m ↔ named any n) ∧ (n ∈ allow_older m ↔ named older n).
Proof. intros newer any older n. cbn. by rewrite !as_set_spec. Qed.

(** Updating and removing: what the three sets are after any calls.  A name is in a set if it was there at first or came with an update,
    and was not removed after that.  A string given to remove is refused and changes nothing. *)
Inductive kind := Newer | Any | Older.
Definition names_of (k : kind) (m : modifiers) : gset string :=
  match k with Newer => allow_newer m | Any => allow_any m | Older => allow_older m end.
Definition removes (n : string) (c : mods_call) : Prop := match c with CallRemoveNames (ANames l) => n ∈ l | _ => False end.
Definition brings (k : kind) (n : string) (c : mods_call) : Prop := match c with CallUpdate o => n ∈ names_of k o | _ => False end.
Definition kept (n : string) (cs : list mods_call) : Prop := ∀ c, c ∈ cs → ¬ removes n c.
Theorem C92_calls : ∀ cs m k n,
  n ∈ names_of k (foldl mods_step m cs) ↔
  (n ∈ names_of k m ∧ kept n cs) ∨ ∃ cs1 c cs2, cs = cs1 ++ c :: cs2 ∧ brings k n c ∧ kept n cs2.
Proof.
  intros cs m k n. induction cs as [|c cs IH] using rev_ind.
  { cbn. split; [intros H; left; split; [done|by intros ? ?%elem_of_nil]|]. intros [[? _]|(cs1 & c & cs2 & E & _)]; [done|]. by destruct cs1. }
  rewrite foldl_app. cbn [foldl]. set (m' := foldl mods_step m cs) in *.
  assert (Hk : kept n (cs ++ [c]) ↔ kept n cs ∧ ¬ removes n c).
  { unfold kept. setoid_rewrite elem_of_app. split.
    - intros H. split; [intros d Hd; apply H; by left|]. apply H. right. by left.
    - intros [H1 H2] d [Hd|Hd%elem_of_list_singleton]; [by apply H1|by subst]. }
  assert (Hs : n ∈ names_of k (mods_step m' c) ↔ (n ∈ names_of k m' ∧ ¬ removes n c) ∨ brings k n c).
  { destruct c as [o|[s|l]]; cbn.
    - destruct k; cbn; set_solver.
    - destruct k; cbn; tauto.
    - destruct k; cbn; rewrite elem_of_difference, elem_of_list_to_set; tauto. }
  rewrite Hs, IH, Hk. split.
  - intros [[[[H1 H2]|(cs1 & d & cs2 & -> & H1 & H2)] H3]|H].
    + left. done.
    + right. exists cs1, d, (cs2 ++ [c]). split; [by rewrite <-app_assoc|]. split; [done|].
      intros x [Hx|Hx%elem_of_list_singleton]%elem_of_app; [by apply H2|by subst].
    + right. exists cs, c, []. split; [done|]. split; [done|]. by intros ? ?%elem_of_nil.
  - intros [[H1 [H2 H3]]|(cs1 & d & cs2 & E & H1 & H2)]; [left; split; [left|]; done|].
    destruct cs2 as [|x cs2 _] using rev_ind.
    + apply app_inj_tail in E as [-> ->]. by right.
    + rewrite app_comm_cons, app_assoc in E. apply app_inj_tail in E as [-> ->]. left. split.
      * right. exists cs1, d, cs2. split; [done|]. split; [done|]. intros y Hy. apply H2, elem_of_app. by left.
      * apply H2, elem_of_app. right. by left.
Qed.
Theorem C92_remove_string : ∀ m s, call_remove m (AString s) = Raise TypeError ∧ mods_step m (CallRemoveNames (AString s)) = m.
Proof. done. Qed.
(** The targets are the names in some set. *)
Theorem C92_targets : ∀ m n, n ∈ targets m ↔ ∃ k, n ∈ names_of k m.
Proof.
  intros m n. unfold targets. rewrite !elem_of_union. split.
  - intros [[?|?]|?]; [exists Newer|exists Any|exists Older]; done.
  - intros ([] & ?); cbn in *; tauto.
Qed.

(** More names only relax: what a requirement accepts under modifiers it accepts after an update, and what it accepts after a removal it
    accepted before.  (As in C40: versions with the usual build numbers, ^= without build number.) *)
Theorem C92_more_accept : ∀ r m m' r1 r2 v, r_class r = RInstall → (∀ k n, n ∈ names_of k m → n ∈ names_of k m') →
  modify_requirement r m = Ok r1 → modify_requirement r m' = Ok r2 → normal_version v → (∀ c, c ∈ r_cons r → normal_constr c) →
  req_matches r1 v = true → req_matches r2 v = true.
Proof.
  intros r m m' r1 r2 v Hc Hs H1 H2 [Hv1 Hv2] Hn. rewrite (C40_modified_accepts r m r1 v Hc H1), (C40_modified_accepts r m' r2 v Hc H2).
  intros H c Hin. specialize (H c Hin). specialize (Hn c Hin).
  assert (HN := Hs Newer (r_name r)). assert (HA := Hs Any (r_name r)). assert (HO := Hs Older (r_name r)). cbn in HN, HA, HO.
  revert H. unfold relaxed. repeat case_decide; try tauto; destruct c; cbn in *; try done; rewrite ?ConstraintProofs.vle_iff; cbn; intros; try lia;
    subst; try (apply ConstraintProofs.vle_iff; cbn); unfold vlt in *; try lia; try (by right).
Qed.
(** A name that was removed: its requirements are left alone. *)
Theorem C92_removed : ∀ m l r m', call_remove m (ANames l) = Ok m' → r_name r ∈ l → modify_requirement r m' = Ok r.
Proof.
  intros m l r m' [= <-] Hr. apply C41_untouched. rewrite C41_remove_targets, elem_of_difference, elem_of_list_to_set. tauto.
Qed.

(** ** asdict *)
Theorem C92_asdict : ∀ m, ∃ newer any older,
  mods_asdict m = [("allow_newer", newer); ("allow_any", any); ("allow_older", older)]%string ∧
  (∀ l, l ∈ [newer; any; older] → StronglySorted (λ a b, String.compare a b = Lt) l) ∧
  ∀ n, (n ∈ newer ↔ n ∈ allow_newer m) ∧ (n ∈ any ↔ n ∈ allow_any m) ∧ (n ∈ older ↔ n ∈ allow_older m).
Proof.
  intros m. eexists _, _, _. split; [reflexivity|]. split; [|intros n; by rewrite !elem_of_sort_by, !elem_of_elements].
  assert (H : ∀ S : gset string, StronglySorted (λ a b, String.compare a b = Lt) (sort_by str_ltb (elements S))).
  { intros S. assert (Hs := sort_by_sorted str_ltb str_ltb_asym str_cotrans (elements S)).
    assert (Hd : NoDup (sort_by str_ltb (elements S))) by apply sort_by_nodup, NoDup_elements.
    induction Hs as [|x l Hs IH Hx]; [constructor|]. apply NoDup_cons in Hd as [Hn Hd]. constructor; [by apply IH|].
    rewrite Forall_forall in Hx |- *. intros y Hy. specialize (Hx y Hy). destruct (str_total x y) as [E|[->|E]]; [|done|congruence].
    revert E. unfold str_ltb. by destruct (String.compare x y). }
  intros l Hl. repeat (apply elem_of_cons in Hl as [->|Hl]; [apply H|]). by apply elem_of_nil in Hl.
Qed.
(** Reading it back gives equal modifiers: as keywords, and as the modifiers of a scenario (C67). *)
Lemma asdict_as_set (S : gset string) : list_to_set (sort_by str_ltb (elements S)) = S.
Proof. apply leibniz_equiv. intros n. by rewrite elem_of_list_to_set, elem_of_sort_by, elem_of_elements. Qed.
Theorem C92_asdict_back : ∀ m, mods_of_dict (mods_asdict m) = m ∧ load_modifiers (request_new no_mods) (mods_asdict m) = Ok (Request m []).
Proof.
  intros m. split.
  - destruct m as [a b c]. transitivity (Mods (list_to_set (sort_by str_ltb (elements a))) (list_to_set (sort_by str_ltb (elements b)))
      (list_to_set (sort_by str_ltb (elements c)))); [done|]. by rewrite !asdict_as_set.
  - apply load_modifiers_spec. split; [done|]. unfold mods_loaded, mods_asdict. cbn.
    assert (H : ∀ (S : gset string) n, n ∈ sort_by str_ltb (elements S) ↔ n ∈ S) by (intros; by rewrite elem_of_sort_by, elem_of_elements).
    split_and!.
    + intros n. rewrite <-H. split; [intros; eexists; split; [left|done]|]. intros (ns & Hns & Hn).
      apply elem_of_cons in Hns as [[= ->]|Hns]; [done|]. apply elem_of_cons in Hns as [[=]|Hns]. apply elem_of_cons in Hns as [[=]|Hns].
      by apply elem_of_nil in Hns.
    + intros n. rewrite <-H. split; [intros; eexists; split; [right; left|done]|]. intros (ns & Hns & Hn).
      apply elem_of_cons in Hns as [[=]|Hns]. apply elem_of_cons in Hns as [[= ->]|Hns]; [done|].
      apply elem_of_cons in Hns as [[=]|Hns]. by apply elem_of_nil in Hns.
    + intros n. rewrite <-H. split; [intros; eexists; split; [right; right; left|done]|]. intros (ns & Hns & Hn).
      apply elem_of_cons in Hns as [[=]|Hns]. apply elem_of_cons in Hns as [[=]|Hns]. apply elem_of_cons in Hns as [[= ->]|Hns]; [done|].
      by apply elem_of_nil in Hns.
    + intros k ns Hk _. repeat (apply elem_of_cons in Hk as [[= -> _]|Hk]; [tauto|]). by apply elem_of_nil in Hk.
Qed.

(** ** Example *)
Theorem C92_example :
  let m := mods_new (Some (AString "MKL")) None (Some (ANames ["nose"; "MKL"])) in
  let m' := foldl mods_step m [CallUpdate (mods_new None (Some (ANames ["b"; "a"])) None); CallRemoveNames (AString "MKL");
                               CallRemoveNames (ANames ["MKL"; "b"])] in
  mods_asdict m = [("allow_newer", ["MKL"]); ("allow_any", []); ("allow_older", ["MKL"; "nose"])] ∧
  mods_asdict m' = [("allow_newer", []); ("allow_any", ["a"]); ("allow_older", ["nose"])].
Proof. split; vm_compute; reflexivity. Qed.
Print Assumptions C92_new. Print Assumptions C92_calls. Print Assumptions C92_remove_string. Print Assumptions C92_targets. Print Assumptions C92_more_accept. Print Assumptions C92_removed. Print Assumptions C92_asdict. Print Assumptions C92_asdict_back. Print Assumptions C92_example.
