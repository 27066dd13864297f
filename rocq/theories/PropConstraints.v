(** * Properties C39, C40, C41, C52: constraints and their modification.
    The meaning of constraints is given in SpecConstraints.v. *)
From Verif Require Import ConstraintProofs.

(** ** C39: a requirement matches exactly the versions in the meaning of all its constraints. *)
Theorem C39_matches : ∀ c v, cmatches c v = true ↔ constr_sem c v.
Proof. exact cmatches_sem. Qed.
Theorem C39_requirement_matches : ∀ r v,
  req_matches r v = true ↔ ∀ c, c ∈ r_cons r → constr_sem c v.
Proof. intros r v. apply multi_matches_sem. Qed.
(** The version comparisons are those of a total order. *)
Theorem C39_order :
  (∀ a b, ver_ltb a b = true ↔ vlt a b) ∧ (∀ a b, ver_leb a b = true ↔ vle a b) ∧
  (∀ a, ¬ vlt a a) ∧ (∀ a b c, vlt a b → vlt b c → vlt a c) ∧ (∀ a b, vlt a b ∨ a = b ∨ vlt b a).
Proof.
  split; [apply ver_ltb_vlt|]. split; [apply ver_leb_vle|]. unfold vlt. split; [lia|]. split; [lia|].
  intros [u b] [u' b']; cbn. destruct (Z.lt_total u u') as [?|[->|?]]; [lia| |lia].
  destruct (Z.lt_total b b') as [?|[->|?]]; [lia|auto|lia].
Qed.

(** ** C40 *)
(** What the modified requirement accepts. *)
Theorem C40_modified_accepts : ∀ r m r' v, r_class r = RInstall → modify_requirement r m = Ok r' →
  (req_matches r' v = true ↔ ∀ c, c ∈ r_cons r → relaxed m (r_name r) c v).
Proof.
  intros r m r' v Hc. unfold modify_requirement. rewrite Hc. intros [= <-].
  unfold req_matches. rewrite multi_matches_sem. apply modify_install_sem.
Qed.

(** Build numbers as they occur: between 0 and the largest build; [^=] without build number. *)
Definition normal_version (v : version) : Prop := 0 ≤ build v ≤ MAX_BUILD.
Definition normal_constr (c : constr) : Prop :=
  match c with CUpstream w => build w = 0 | _ => True end.

(** Modification only relaxes. *)
Theorem C40_only_relaxes : ∀ r m r' v, r_class r = RInstall → modify_requirement r m = Ok r' →
  normal_version v → (∀ c, c ∈ r_cons r → normal_constr c) →
  req_matches r v = true → req_matches r' v = true.
Proof.
  intros r m r' v Hc Hm [Hv1 Hv2] Hn. rewrite (C40_modified_accepts r m r' v Hc Hm).
  rewrite C39_requirement_matches. intros H c Hin. specialize (H c Hin). specialize (Hn c Hin).
  unfold relaxed. repeat case_decide; destruct c; cbn in *; try done; rewrite ?vle_iff; cbn; try lia;
    subst; try lia; unfold vlt in *; lia.
Qed.

(** A name in allow_any (or in both other sets): every version not excluded by [!=] is accepted. *)
Theorem C40_any : ∀ r m r' v, r_class r = RInstall → modify_requirement r m = Ok r' →
  r_name r ∈ allow_any m ∨ (r_name r ∈ allow_newer m ∧ r_name r ∈ allow_older m) →
  (req_matches r' v = true ↔ CNot v ∉ r_cons r).
Proof.
  intros r m r' v Hc Hm Hn. rewrite (C40_modified_accepts r m r' v Hc Hm). split.
  - intros H Hin. specialize (H _ Hin). cbn in H. done.
  - intros H c Hin. unfold relaxed. destruct c; repeat case_decide; try done; try tauto; congruence.
Qed.
(** allow_newer: with a version every newer one not excluded by [!=] is accepted. *)
Theorem C40_newer : ∀ r m r' v v', r_class r = RInstall → modify_requirement r m = Ok r' →
  r_name r ∈ allow_newer m → req_matches r' v = true → vle v v' → CNot v' ∉ r_cons r →
  req_matches r' v' = true.
Proof.
  intros r m r' v v' Hc Hm Hn. rewrite !(C40_modified_accepts r m r' _ Hc Hm).
  intros H Hle Hnot c Hin. specialize (H c Hin). apply vle_iff in Hle.
  unfold relaxed in *. repeat case_decide; destruct c; cbn in *; rewrite ?vle_iff in *; unfold vlt in *;
    try done; try lia; congruence.
Qed.
(** allow_older: likewise for older ones. *)
Theorem C40_older : ∀ r m r' v v', r_class r = RInstall → modify_requirement r m = Ok r' →
  r_name r ∈ allow_older m → req_matches r' v = true → vle v' v → CNot v' ∉ r_cons r →
  req_matches r' v' = true.
Proof.
  intros r m r' v v' Hc Hm Hn. rewrite !(C40_modified_accepts r m r' _ Hc Hm).
  intros H Hle Hnot c Hin. specialize (H c Hin). apply vle_iff in Hle.
  unfold relaxed in *. repeat case_decide; destruct c; cbn in *; rewrite ?vle_iff in *; unfold vlt in *;
    try done; cbn in *; try lia; congruence.
Qed.

(** Without the restriction on [^=], allow_newer can reject a version that was accepted. *)
Theorem C40_upstream_build_refuted :
  ∃ r m r' v, r_class r = RInstall ∧ modify_requirement r m = Ok r' ∧ normal_version v ∧
    req_matches r v = true ∧ req_matches r' v = false.
Proof.
  exists (Req RInstall "A" [CUpstream (V 1 2)]), (Mods {["A"]} ∅ ∅). eexists _, (V 1 1).
  split; [done|]. split; [vm_compute; reflexivity|]. split; [unfold normal_version, MAX_BUILD; cbn; lia|].
  split; vm_compute; reflexivity.
Qed.

(** ** C41 *)
Theorem C41_untouched : ∀ r m, r_name r ∉ targets m → modify_requirement r m = Ok r.
Proof.
  intros r m Hn. destruct (modify_install_untouched r m Hn) as [E1 E2]. unfold modify_requirement.
  rewrite E1, E2. destruct (r_class r), (has_any_version_constraint r); done.
Qed.
Theorem C41_only_install_modified : ∀ r m, r_class r ≠ RInstall →
  modify_requirement r m = Ok r ∨ modify_requirement r m = Raise NotImplementedError.
Proof.
  intros r m Hn. unfold modify_requirement.
  destruct (r_class r); try done; destruct (has_any_version_constraint r), (snd (modify_install r m)); auto.
Qed.
Theorem C41_same_name : ∀ r m r', modify_requirement r m = Ok r' → r_name r' = r_name r.
Proof.
  intros r m r'. unfold modify_requirement. destruct (r_class r).
  2:{ intros [= <-]. apply modify_install_name. }
  all: destruct (has_any_version_constraint r), (snd (modify_install r m)); intros [= <-]; done.
Qed.
(** ConstraintModifiers.update/remove: the targets are those of both / those not removed. *)
Theorem C41_update_targets : ∀ m o, targets (mods_update m o) = targets m ∪ targets o.
Proof. intros m o. unfold targets, mods_update; cbn. set_solver. Qed.
Theorem C41_remove_targets : ∀ m X, targets (mods_remove m X) = targets m ∖ X.
Proof. intros m X. unfold targets, mods_remove; cbn. set_solver. Qed.

(** ** C52 *)
Theorem C52_roundtrip : ∀ r, ∃ r', from_constraints (r_class r) (to_constraints r) = Ok r' ∧
  r_name r' = r_name r ∧ (∀ v, req_matches r' v = req_matches r v) ∧
  (r_cons r ≠ [] → (∀ c, c ∈ r_cons r → normal_constr c) → r' = r).
Proof.
  intros [cls n cs]. unfold to_constraints, from_constraints; cbn [r_name r_cons r_class].
  cbn [length]. change ((1 <? 1)%nat) with false. cbv iota. eexists. split; [reflexivity|].
  assert (E : mjoin (mjoin (insert_star <$> [(λ c, [reparsed c]) <$> cs])) =
              match cs with [] => [CAny] | _ => reparsed <$> cs end).
  { cbn. rewrite app_nil_r. destruct cs as [|c cs]; [done|]. cbn. f_equal.
    clear. induction cs as [|c cs IH]; cbn; [done|]. by f_equal. }
  rewrite E. cbn [r_name r_cons]. split; [done|]. split.
  - intros v. apply eq_true_iff_eq. rewrite !C39_requirement_matches; cbn [r_cons].
    destruct cs as [|c cs].
    + split; intros _ c Hc; [by apply elem_of_nil in Hc|]. by apply elem_of_list_singleton in Hc as ->.
    + set (l := c :: cs). clearbody l. split.
      * intros H c' Hc. specialize (H (reparsed c')). rewrite elem_of_list_fmap in H.
        specialize (H (ex_intro _ c' (conj eq_refl Hc))). by destruct c'.
      * intros H c' (c0 & -> & Hc)%elem_of_list_fmap. specialize (H c0 Hc). by destruct c0.
  - intros Hne Hn. f_equal. destruct cs as [|c cs]; [done|]. set (l := c :: cs) in *. clearbody l. clear Hne E.
    induction l as [|x l IH]; cbn; [done|]. f_equal.
    + specialize (Hn x (elem_of_list_here _ _)). destruct x as [| | | | | | |[u b]]; cbn in *; by subst.
    + apply IH. intros. apply Hn. by right.
Qed.

(** ** Non-vacuity *)
Definition ex_req : requirement := Req RInstall "MKL" [CGeq (V 10 0); CLt (V 11 0); CNot (V 12 1)].
Example ex_modified : ∃ r', modify_requirement ex_req (Mods {["MKL"]} ∅ ∅) = Ok r' ∧
  r_cons r' = [CGeq (V 10 0); CAny; CNot (V 12 1)] ∧
  req_matches ex_req (V 10 3) = true ∧ req_matches ex_req (V 12 0) = false ∧
  req_matches r' (V 10 3) = true ∧ req_matches r' (V 12 0) = true ∧ req_matches r' (V 12 1) = false.
Proof. eexists. split; [vm_compute; reflexivity|]. repeat split. Qed.
Example ex_conflict_untouched : modify_requirement (Req RConflict "A" [CLt (V 1 0)]) (Mods {["A"]} ∅ ∅)
  = Raise NotImplementedError.
Proof. vm_compute. reflexivity. Qed.

Print Assumptions C39_matches.
Print Assumptions C39_requirement_matches.
Print Assumptions C39_order.
Print Assumptions C40_modified_accepts.
Print Assumptions C40_only_relaxes.
Print Assumptions C40_any.
Print Assumptions C40_newer.
Print Assumptions C40_older.
Print Assumptions C40_upstream_build_refuted.
Print Assumptions C41_untouched.
Print Assumptions C41_only_install_modified.
Print Assumptions C41_same_name.
Print Assumptions C41_update_targets.
Print Assumptions C41_remove_targets.
Print Assumptions C52_roundtrip.
