(** * Properties C10 and C11: AssignmentSet against the finite map of SpecAset.v. *)
From Verif Require Import SpecAset AssignmentProofs.

(** ** C10: after any history of operations through positive or negative (non-zero) keys, of reads and
    consumptions of the changelog and of copies no exception has been raised and every accessor agrees with the abstract map. *)
Theorem C10_assignment_map :
  ∀ ops, Forall cop_nonzero ops →
    ∃ a, foldM cop_run ops aset_empty = Ok a ∧
      let m := ch_now (chist_run ops) in
      (∀ l, aset_value a l = amap_value m l) ∧
      (∀ k, aset_getitem k a = if decide (is_Some (m !! Z.abs k)) then Ok (amap_value m k) else Raise KeyError) ∧
      (∀ k, aset_contains a k = true ↔ is_Some (m !! Z.abs k)) ∧
      aset_len a = size m ∧
      (∀ k, k ∈ a_assigned a ↔ ∃ b, m !! k = Some (Some b)) ∧
      num_assigned a = size (omap id m) ∧
      (∀ k, k ∈ unassigned_ids a ↔ m !! k = Some None) ∧
      StronglySorted Z.lt (aset_items a).*1 ∧
      (∀ k v, (k, v) ∈ aset_items a ↔ m !! k = Some v).
Proof.
  intros ops Hops. destruct (arep_crun ops Hops aset_empty (CHist ∅ ∅ ∅) arep_empty) as (a & Ha & R).
  fold (chist_run ops) in R. set (m := ch_now (chist_run ops)) in *. exists a.
  assert (Hd : a_seen a = dom m) by by apply arep_seen.
  split; [done|]. cbn zeta. split; [intros l; by apply arep_value|].
  split; [|split; [|split; [|split; [|split; [|split; [|by apply arep_items]]]]]].
  - intros k. rewrite <-(arep_value a m k R). unfold aset_getitem, aset_value.
    destruct (a_data a !! k) as [b|] eqn:E.
    + assert (Z.abs k ∈ a_assigned a) as Hk by (apply awf_abs; [apply (ar_wf _ _ R)|eauto]).
      apply (awf_seen _ (ar_wf _ _ R)) in Hk. rewrite Hd, elem_of_dom in Hk. by rewrite decide_True.
    + rewrite Hd. destruct (decide (Z.abs k ∈ dom m)) as [H|H]; rewrite elem_of_dom in H.
      * by rewrite decide_True.
      * by rewrite decide_False.
  - intros k. unfold aset_contains. rewrite bool_decide_eq_true, Hd. apply elem_of_dom.
  - unfold aset_len. rewrite Hd. apply size_dom.
  - intros k. by apply arep_assigned.
  - unfold num_assigned. rewrite <-size_dom. f_equal. apply set_eq. intros k.
    rewrite (arep_assigned a m k R), elem_of_dom, lookup_omap.
    destruct (m !! k) as [[b|]|]; cbn; split; try (by intros [? ?]); eauto.
  - intros k. unfold unassigned_ids. rewrite elem_of_difference, (arep_assigned a m k R), Hd, elem_of_dom.
    destruct (m !! k) as [[b|]|]; split; try done.
    + intros [_ H]. exfalso. eauto.
    + intros _. split; [eauto|]. by intros [? ?].
    + by intros [[? ?] _].
Qed.

(** ** C11: after any history with reads (get_changelog), consumptions and copies, the changelog lists exactly the
    variables whose value differs from the one at the last consumption, and new_keys are the
    variables that became known since.  Unassignment through a negative key is excluded (see
    C11_negative_key_refuted). *)
Theorem C11_changelog :
  ∀ ops, Forall cop_ok ops →
    ∃ a, foldM cop_run ops aset_empty = Ok a ∧
      changelog_ok (chist_run ops) (fst (get_changelog a)) ∧
      changelog_ok (chist_run ops) (fst (consume_changelog a)) ∧
      a_new a = ch_new (chist_run ops).
Proof.
  intros ops Hops. destruct (crep_run ops Hops aset_empty _ crep_empty) as (a & Ha & R).
  exists a. split; [done|]. assert (H := get_changelog_ok a _ R). split; [done|]. split; [|apply (cr_new _ _ R)].
  unfold consume_changelog. by destruct (get_changelog a).
Qed.

(** Unassigning through the negative key records the change under that key, with its value. *)
Theorem C11_negative_key_refuted :
  ∃ ops a, Forall cop_nonzero ops ∧
    foldM cop_run ops aset_empty = Ok a ∧
    fst (get_changelog a) !! 1 = None ∧ fst (get_changelog a) !! (-1) = Some (Some false, None) ∧
    amap_val (ch_base (chist_run ops)) 1 = Some true ∧ amap_val (ch_now (chist_run ops)) 1 = None.
Proof.
  exists [Plain (OpSet 1 (Some true)); Consume; Plain (OpDel (-1))]. eexists.
  split; [repeat constructor; cbn; lia|]. split; [vm_compute; reflexivity|]. repeat split.
Qed.

(** A history meeting the hypotheses, with a value set, changed back, unassigned and deleted. *)
Definition ex_hist : list cop :=
  [Plain (OpSet 1 (Some true)); Plain (OpSet (-2) (Some true)); Plain (OpSet 3 None); Consume;
   Plain (OpSet 1 (Some false)); Peek; Copy; Plain (OpSet 1 (Some true)); Plain (OpSet 2 None);
   Plain (OpSet 4 (Some true)); Plain (OpDel 3)].
(** A history with a negative key. *)
Example ex_hist_nonzero : Forall cop_nonzero (Plain (OpDel (-1)) :: ex_hist).
Proof. repeat constructor; cbn; lia. Qed.
Example ex_hist_ok : Forall cop_ok ex_hist.
Proof. repeat constructor; cbn; lia. Qed.
Example ex_hist_log : ∃ a, foldM cop_run ex_hist aset_empty = Ok a ∧
  map_to_list (fst (get_changelog a)) = [(2, (Some false, None)); (4, (None, Some true))] ∧
  elements (a_new a) = [4].
Proof. eexists. split; [vm_compute; reflexivity|]. split; vm_compute; reflexivity. Qed.

Print Assumptions C10_assignment_map.
Print Assumptions C11_changelog.
Print Assumptions C11_negative_key_refuted.
