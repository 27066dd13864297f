(** * Property C74: iterating a repository, also while it changes. *)
From Verif Require Import RepositoryProofs RepoIter.

Lemma repo_update_of ps qs : repo_update (repo_of ps) qs = repo_of (ps ++ qs).
Proof. unfold repo_of, repo_update. by rewrite foldl_app. Qed.
Lemma add_package_of ps p : add_package (repo_of ps) p = repo_of (ps ++ [p]).
Proof. by rewrite <- repo_update_of. Qed.

Lemma in_drop {A} (x : A) i l : x ∈ drop i l → x ∈ l.
Proof. intros H. rewrite <- (take_drop i l). apply elem_of_app. by right. Qed.

(** What is left to list from a position. *)
Definition rest_of (r : repository) (c : cursor) : list package :=
  match cu_bucket c with None => [] | Some (n, j) => drop j (default [] (rp_map r !! n)) end ++
  mjoin ((λ n, default [] (rp_map r !! n)) <$> drop (cu_names c) (rp_names r)).

Lemma scan_rest ps i ns : (∀ n, n ∈ ns → n ∈ p_name <$> ps) → drop i (rp_names (repo_of ps)) = ns →
  ∃ o, scan_names (repo_of ps) i ns = Ok o ∧
    match o with
    | None => ns = []
    | Some (p, c) => mjoin ((λ n, default [] (rp_map (repo_of ps) !! n)) <$> ns) = p :: rest_of (repo_of ps) c ∧ p ∈ ps
    end.
Proof.
  intros Hn Hd. destruct ns as [|n ns]; cbn [scan_names]; [by exists None|].
  assert (Hin : n ∈ p_name <$> ps) by (apply Hn; left).
  apply elem_of_list_fmap in Hin as (q & -> & Hq).
  rewrite repo_of_map. assert (Hne : q ∈ named (p_name q) ps) by (by apply elem_of_list_filter).
  destruct (named (p_name q) ps) as [|x l] eqn:E; [by apply elem_of_nil in Hne|].
  destruct (sort_by pkg_ver_lt (x :: l)) as [|p t] eqn:Es.
  { pose proof (sort_by_perm pkg_ver_lt (x :: l)) as Hp. rewrite Es in Hp. by apply Permutation_nil in Hp. }
  eexists. split; [reflexivity|]. split.
  - rewrite fmap_cons, mjoin_cons, repo_of_map, E, Es. cbn. f_equal. unfold rest_of. cbn [cu_bucket cu_names].
    rewrite repo_of_map, E, Es. cbn. f_equal.
    assert (drop (S i) (rp_names (repo_of ps)) = ns) as ->; [|done].
    replace (S i) with (i + 1)%nat by lia. rewrite <- drop_drop, Hd. done.
  - assert (Hp : p ∈ x :: l) by (rewrite <- (sort_by_perm pkg_ver_lt), Es; left).
    rewrite <- E in Hp. by apply elem_of_list_filter in Hp as [_ ?].
Qed.

Lemma next_rest ps c : ∃ o, iter_next (repo_of ps) c = Ok o ∧
  match o with
  | None => rest_of (repo_of ps) c = []
  | Some (p, c') => rest_of (repo_of ps) c = p :: rest_of (repo_of ps) c'
  end.
Proof.
  assert (Ho : ∃ o, scan_names (repo_of ps) (cu_names c) (drop (cu_names c) (rp_names (repo_of ps))) = Ok o ∧
    match o with
    | None => drop (cu_names c) (rp_names (repo_of ps)) = []
    | Some (p, c') => mjoin ((λ n, default [] (rp_map (repo_of ps) !! n)) <$> drop (cu_names c) (rp_names (repo_of ps)))
                       = p :: rest_of (repo_of ps) c' ∧ p ∈ ps
    end).
  { apply scan_rest; [|done]. intros n Hn. apply (proj1 (repo_of_names ps)).
    eapply in_drop. exact Hn. }
  destruct Ho as (o & E & Ho). unfold iter_next, rest_of. destruct (cu_bucket c) as [[n j]|] eqn:Ec.
  - destruct (default [] (rp_map (repo_of ps) !! n) !! j) as [p|] eqn:Ej.
    + eexists. split; [reflexivity|]. cbn. by rewrite (drop_S _ p).
    + rewrite E. eexists. split; [reflexivity|].
      rewrite (drop_ge (default [] _)) by by apply lookup_ge_None_1. destruct o as [[p c']|]; [|by rewrite Ho].
      by destruct Ho as [-> _].
  - rewrite E. eexists. split; [reflexivity|]. destruct o as [[p c']|]; [|by rewrite Ho].
    by destruct Ho as [-> _].
Qed.

(** ** A repository that does not change is listed as in C35. *)
Theorem C74_unchanged : ∀ ps fuel, (length ps < fuel)%nat →
  iter_all fuel (repo_of ps) cur_start = Ok (repo_iter (repo_of ps)).
Proof.
  intros ps fuel Hf. change (repo_iter (repo_of ps)) with (rest_of (repo_of ps) cur_start).
  assert (Hl : (length (rest_of (repo_of ps) cur_start) < fuel)%nat).
  { change (rest_of (repo_of ps) cur_start) with (repo_iter (repo_of ps)). by rewrite repo_iter_perm. }
  revert Hl. generalize cur_start. clear Hf. induction fuel as [|fuel IH]; intros c Hl; [lia|]. cbn [iter_all].
  destruct (next_rest ps c) as (o & -> & Ho). cbn. destruct o as [[p c']|]; [|by rewrite Ho].
  rewrite Ho in Hl |- *. cbn in Hl. rewrite IH by lia. done.
Qed.

(** ** Updating with another repository adds its packages in their listed order. *)
Theorem C74_update_other : ∀ ps qs fuel, (length qs < fuel)%nat →
  update_from fuel (repo_of ps) (repo_of qs) cur_start = Ok (repo_of (ps ++ repo_iter (repo_of qs))).
Proof.
  intros ps qs fuel Hf. change (repo_iter (repo_of qs)) with (rest_of (repo_of qs) cur_start).
  assert (Hl : (length (rest_of (repo_of qs) cur_start) < fuel)%nat).
  { change (rest_of (repo_of qs) cur_start) with (repo_iter (repo_of qs)). by rewrite repo_iter_perm. }
  revert ps Hl. generalize cur_start. clear Hf. induction fuel as [|fuel IH]; intros c ps Hl; [lia|]. cbn [update_from].
  destruct (next_rest qs c) as (o & -> & Ho). cbn. destruct o as [[p c']|]; [|by rewrite Ho, app_nil_r].
  rewrite Ho in Hl |- *. cbn in Hl. rewrite add_package_of, IH by lia. by rewrite <- app_assoc.
Qed.

(** ** Updating with itself never ends, unless the repository is empty. *)
Lemma update_self_bucket fuel : ∀ ps i n j, (j < length (named n ps))%nat →
  update_self fuel (repo_of ps) (Cursor i (Some (n, j))) = Raise OutOfFuel.
Proof.
  induction fuel as [|fuel IH]; intros ps i n j Hj; [done|]. cbn [update_self]. unfold iter_next. cbn [cu_bucket cu_names].
  change (default [] (rp_map (repo_of ps) !! n)) with (find_packages (repo_of ps) n). rewrite repo_of_find.
  assert (Hlen : length (sort_by pkg_ver_lt (named n ps)) = length (named n ps)) by by rewrite sort_by_perm.
  destruct (sort_by pkg_ver_lt (named n ps) !! j) as [p|] eqn:E; [|apply lookup_ge_None_1 in E; lia].
  cbn. rewrite add_package_of. apply IH.
  assert (Hp : p ∈ named n ps) by (rewrite <- (sort_by_perm pkg_ver_lt); by eapply elem_of_list_lookup_2).
  apply elem_of_list_filter in Hp as [Hn _].
  unfold named. rewrite filter_app. cbn. rewrite decide_True by done. rewrite app_length. cbn. unfold named in Hj. lia.
Qed.

Theorem C74_update_self_diverges : ∀ ps fuel, ps ≠ [] → update_self fuel (repo_of ps) cur_start = Raise OutOfFuel.
Proof.
  intros ps fuel Hne. destruct fuel as [|fuel]; [done|]. cbn [update_self].
  destruct (next_rest ps cur_start) as (o & E & Ho).
  change (rest_of (repo_of ps) cur_start) with (repo_iter (repo_of ps)) in Ho.
  assert (Hl : repo_iter (repo_of ps) ≠ []).
  { intros Hn. pose proof (repo_iter_perm ps) as Hp. rewrite Hn in Hp. by apply Permutation_nil in Hp. }
  destruct o as [[p c]|]; [|done]. rewrite E. cbn. unfold iter_next in E. cbn in E.
  destruct (rp_names (repo_of ps)) as [|n ns] eqn:En; [done|]. cbn in E. rewrite repo_of_map in E.
  destruct (named n ps) as [|x l] eqn:Ex; [done|]. destruct (sort_by pkg_ver_lt (x :: l)) as [|y t] eqn:Es.
  { pose proof (sort_by_perm pkg_ver_lt (x :: l)) as Hp. rewrite Es in Hp. by apply Permutation_nil in Hp. }
  injection E as -> <-. rewrite add_package_of. apply update_self_bucket.
  assert (Hp : p ∈ named n ps) by (rewrite Ex, <- (sort_by_perm pkg_ver_lt), Es; left).
  apply elem_of_list_filter in Hp as [Hn _].
  unfold named in Ex |- *. rewrite filter_app, Ex. cbn. rewrite decide_True by done. rewrite app_length. cbn. lia.
Qed.

Theorem C74_update_self_empty : ∀ fuel, (0 < fuel)%nat → update_self fuel (repo_of []) cur_start = Ok (repo_of []).
Proof. intros [|fuel] Hf; [lia|]. done. Qed.

(** A copy of the list of packages can be added: every package is then there twice. *)
Theorem C74_update_snapshot : ∀ ps,
  repo_iter (repo_update (repo_of ps) (repo_iter (repo_of ps))) ≡ₚ ps ++ ps.
Proof. intros ps. rewrite repo_update_of, repo_iter_perm. by rewrite (repo_iter_perm ps). Qed.

(** ** A loop that adds packages to the repository it iterates *)
(** Every package it sees was there before or was added by the loop. *)
Theorem C74_seen : ∀ fuel adds ps c l r, iter_adding fuel adds (repo_of ps) c = Ok (l, r) →
  ∃ qs, r = repo_of (ps ++ qs) ∧ qs = mjoin (adds <$> l) ∧ (∀ p, p ∈ l → p ∈ ps ++ qs).
Proof.
  induction fuel as [|fuel IH]; intros adds ps c l r H; [done|]. cbn [iter_adding] in H.
  destruct (next_rest ps c) as (o & E & Ho). rewrite E in H. cbn in H.
  destruct o as [[p c']|].
  - rewrite repo_update_of in H.
    destruct (iter_adding fuel adds _ c') as [[l' r']|] eqn:Er; cbn in H; [|done]. injection H as <- <-.
    apply IH in Er as (qs & -> & -> & Hin). exists (adds p ++ mjoin (adds <$> l')). split_and!.
    + by rewrite app_assoc.
    + done.
    + intros x [->|Hx]%elem_of_cons; [|apply Hin in Hx; by rewrite app_assoc].
      apply elem_of_app. left. rewrite <- repo_iter_perm.
      assert (Hr : p ∈ rest_of (repo_of ps) c) by (rewrite Ho; left). unfold rest_of in Hr.
      rewrite repo_iter_perm. apply elem_of_app in Hr as [Hr|Hr].
      * destruct (cu_bucket c) as [[n j]|]; [|by apply elem_of_nil in Hr].
        apply in_drop in Hr. change (p ∈ find_packages (repo_of ps) n) in Hr. rewrite repo_of_find, sort_by_perm in Hr.
        by apply elem_of_list_filter in Hr as [_ ?].
      * rewrite <- repo_iter_perm. unfold repo_iter. apply elem_of_list_join in Hr as (b & Hp & Hb).
        apply elem_of_list_join. exists b. split; [done|]. apply elem_of_list_fmap in Hb as (n & -> & Hn).
        apply elem_of_list_fmap. exists n. split; [done|]. by apply in_drop in Hn.
  - injection H as <- <-. exists []. rewrite app_nil_r. split_and!; [done|done|]. intros p Hp. by apply elem_of_nil in Hp.
Qed.

(** One would expect such a loop to see every package once: a package with an earlier name that is added while
    another is looked at is never seen, and what is looked at is seen again. *)
Definition mk (n : string) : package := Pkg n (V 1 1) [] [] [] None.
Theorem C74_seen_once_refuted :
  ∃ adds ps l r, iter_adding 10 adds (repo_of ps) cur_start = Ok (l, r) ∧
    p_name <$> l = ["b"; "b"; "c"]%string ∧ p_name <$> repo_iter r = ["a"; "a"; "b"; "c"]%string ∧
    p_name <$> ps = ["b"; "c"]%string.
Proof.
  exists (λ p, if decide (p_name p = "b"%string) then [mk "a"] else []), [mk "b"; mk "c"].
  eexists _, _. split; [vm_compute; reflexivity|]. split_and!; reflexivity.
Qed.

(** ** Non-vacuity *)
Theorem C74_example : ∃ l, iter_all 5 (repo_of [mk "c"; mk "a"; mk "b"]) cur_start = Ok l ∧
  p_name <$> l = ["a"; "b"; "c"]%string ∧
  update_self 50 (repo_of [mk "c"; mk "a"; mk "b"]) cur_start = Raise OutOfFuel ∧
  is_ok (update_from 5 (repo_of [mk "a"]) (repo_of [mk "c"; mk "a"; mk "b"]) cur_start) = true.
Proof. eexists. split; [vm_compute; reflexivity|]. split_and!; vm_compute; reflexivity. Qed.

Print Assumptions C74_unchanged. Print Assumptions C74_update_other. Print Assumptions C74_update_self_diverges.
Print Assumptions C74_update_snapshot. Print Assumptions C74_seen. Print Assumptions C74_seen_once_refuted.
