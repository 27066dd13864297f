(** * Properties C37, C38, C22: pools. *)
From Verif Require Import PoolProofs PropConstraints DepSolver.

(** Packages are equal for Python when their keys are (package.py 145-149). *)
Definition same (p q : package) : Prop := pkg_key p = pkg_key q.

(** ** C37 *)
(** A pool is created for exactly the repositories whose packages provide unversioned names only;
    otherwise the constructor raises. *)
Definition unversioned (d : cdep) : Prop :=
  d.2 = [] ∨ ∃ conj, d.2 = [conj] ∧ (conj = [] ∨ mjoin conj = [] ∨ mjoin conj = [CAny]).
Lemma ok_provide_unversioned d : ok_provide d ↔ unversioned d.
Proof.
  destruct d as [n dd]. unfold ok_provide, unversioned, from_constraints. cbn [snd fst].
  destruct dd as [|conj [|c2 dd]].
  - cbn. split; [by left|]. intros _. eexists. split; reflexivity.
  - change (1 <? length [conj])%nat with false.
    assert (E : mjoin (mjoin (insert_star <$> [conj])) = match conj with [] => [CAny] | _ => mjoin conj end).
    { cbn. rewrite app_nil_r. by destruct conj. }
    rewrite E. split.
    + intros (r & Hr & H). injection Hr as <-. right. exists conj. split; [done|].
      destruct conj as [|x conj]; [by left|right]. clear E. revert H. generalize (mjoin (x :: conj)).
      unfold has_any_version_constraint. cbn [r_cons]. intros [|[] [|]]; try done; auto.
    + intros [?|(conj' & [= <-] & H)]; [done|]. eexists. split; [reflexivity|]. clear E.
      destruct conj as [|x conj]; [done|]. destruct H as [?|[H|H]]; [done|..].
      all: revert H; generalize (mjoin (x :: conj)); by intros ? ->.
  - split; [intros (r & ? & _); done|]. intros [?|(conj' & ? & _)]; done.
Qed.
Theorem C37_created_iff : ∀ repos m,
  is_ok (pool_of repos m) = true ↔ ∀ p d, p ∈ mjoin repos → d ∈ p_provides p → unversioned d.
Proof.
  intros repos m. split.
  - destruct (pool_of repos m) as [po|] eqn:E; [|done]. intros _ p d Hp Hd.
    apply ok_provide_unversioned. apply pool_of_rep in E as [R _]. by eapply pr_prov.
  - intros H. destruct (pool_of_total repos m) as [po ->]; [|done].
    intros p d Hp Hd. apply ok_provide_unversioned. eauto.
Qed.

(** Ids are 1..n in the order of addition. *)
Theorem C37_ids : ∀ repos m po, pool_of repos m = Ok po →
  iter_package_ids po = Z.of_nat <$> seq 1 (length (mjoin repos)) ∧
  ∀ i, id_to_package po i =
    match (if decide (1 ≤ i) then mjoin repos !! Z.to_nat (i - 1) else None) with
    | Some p => Ok p | None => Raise ValueError end.
Proof.
  intros repos m po [R _]%pool_of_rep. split.
  - unfold iter_package_ids. rewrite (pr_i2p _ _ R). generalize (mjoin repos) as l. intros l.
    rewrite fmap_imap. rewrite <-fmap_S_seq, <-list_fmap_compose. unfold compose. cbn [fst].
    apply list_eq. intros k. rewrite list_lookup_imap, list_lookup_fmap.
    destruct (l !! k) eqn:E; cbn.
    + rewrite lookup_seq_lt by (by eapply lookup_lt_Some). cbn. f_equal. lia.
    + rewrite lookup_seq_ge by (by apply lookup_ge_None). done.
  - intros i. unfold id_to_package. rewrite (pr_i2p _ _ R), lookup_imap_ids. by case_decide.
Qed.
(** package_id identifies equal packages, distinguishes others, and is inverted by id_to_package. *)
Theorem C37_package_id : ∀ repos m po, pool_of repos m = Ok po →
  (∀ p, (∃ q, q ∈ mjoin repos ∧ same q p) →
     ∃ i q, package_id po p = Ok i ∧ 1 ≤ i ≤ Z.of_nat (length (mjoin repos)) ∧
            id_to_package po i = Ok q ∧ same q p) ∧
  (∀ p, (∀ q, q ∈ mjoin repos → ¬ same q p) → package_id po p = Raise ValueError) ∧
  (∀ p q i j, package_id po p = Ok i → package_id po q = Ok j → i = j ↔ same p q).
Proof.
  intros repos m po [R _]%pool_of_rep. split; [|split].
  - intros p Hp. destruct (id_of_exists (mjoin repos) p Hp) as [i Hi].
    assert (Hi' := Hi). destruct Hi' as (k & q & -> & Hl & Hk & _).
    assert (Hlt := lookup_lt_Some _ _ _ Hl). exists (Z.of_nat k + 1), q.
    split; [by apply (rep_package_id _ _ R)|]. split; [lia|]. split; [|done].
    apply (rep_id_to_package _ _ R). split; [lia|]. by replace (Z.to_nat _) with k by lia.
  - intros p Hp. unfold package_id. destruct (pdict_get (po_p2i po) p) as [i|] eqn:E; [|done].
    apply (pr_p2i _ _ R) in E as (k & q & _ & Hl & Hk & _). exfalso.
    eapply Hp; [by eapply elem_of_list_lookup_2|done].
  - intros p q i j Hi%(rep_package_id _ _ R) Hj%(rep_package_id _ _ R). split.
    + intros ->. by eapply id_of_inj.
    + intros Hk. by eapply id_of_fun.
Qed.
(** Adding repositories keeps ids and appends the new ones. *)
Theorem C37_stable : ∀ repos m po ps po' i p, pool_of repos m = Ok po → add_repository po ps = Ok po' →
  id_to_package po i = Ok p → id_to_package po' i = Ok p.
Proof.
  intros repos m po ps po' i p [R _]%pool_of_rep [R' _]%(add_repository_rep _ _ _ _ R) [H1 H2]%(rep_id_to_package _ _ R).
  apply (rep_id_to_package _ _ R'). split; [done|]. by apply lookup_app_l_Some.
Qed.

(** ** C38 *)
(** The (modified) requirement in the sense of C40. *)
Definition accepts (m : option modifiers) (use_modifiers : bool) (r : requirement) (v : version) : Prop :=
  match m with
  | Some m => if use_modifiers then ∀ c, c ∈ r_cons r → relaxed m (r_name r) c v
              else ∀ c, c ∈ r_cons r → constr_sem c v
  | None => ∀ c, c ∈ r_cons r → constr_sem c v
  end.
Lemma accepts_spec po r b r' v : r_class r = RInstall ∨ b = false →
  (if b then pool_modify po r else Ok r) = Ok r' →
  req_matches r' v = true ↔ accepts (po_mods po) b r v.
Proof.
  intros Hc. unfold pool_modify, accepts. destruct b.
  - destruct Hc as [Hc|]; [|done]. destruct (po_mods po) as [m|].
    + intros H. apply (C40_modified_accepts _ _ _ _ Hc H).
    + intros [= <-]. apply C39_requirement_matches.
  - intros [= <-]. rewrite C39_requirement_matches. by destruct (po_mods po).
Qed.
Lemma modify_total r m : r_class r = RInstall → ∃ r', modify_requirement r m = Ok r'.
Proof. intros Hc. unfold modify_requirement. rewrite Hc. eauto. Qed.

(** For install requirements (and any requirement if modifiers are not used) the providers are exactly
    the packages of the pool that provide the name and whose version is accepted. *)
Theorem C38_what_provides : ∀ repos m po r b, pool_of repos m = Ok po → r_class r = RInstall ∨ b = false →
  ∃ ps, what_provides po r b = Ok ps ∧
    ∀ p, p ∈ ps ↔ p ∈ mjoin repos ∧ provides p (r_name r) ∧ accepts m b r (p_version p).
Proof.
  intros repos m po r b [R Hm]%pool_of_rep Hc.
  assert (Ht : ∃ r', (if b then pool_modify po r else Ok r) = Ok r').
  { destruct b; [|eauto]. unfold pool_modify. destruct (po_mods po); [|eauto]. apply modify_total.
    by destruct Hc. }
  destruct Ht as [r' Hr'].
  assert (Hex : ∃ ps, what_provides po r b = Ok ps).
  { rewrite (rep_what_provides _ _ R). destruct (by_name _ _); [eauto|]. rewrite Hr'. cbn. eauto. }
  destruct Hex as [ps Hps]. exists ps. split; [done|]. intros p.
  rewrite (rep_what_provides_elem _ _ R _ _ _ _ Hps). rewrite <-Hm.
  assert (Ha := accepts_spec po r b r' (p_version p) Hc Hr'). rewrite <-Ha.
  split.
  - intros (? & ? & r2 & Hr2 & ?). rewrite Hr' in Hr2. injection Hr2 as <-. done.
  - intros (? & ? & ?). eauto.
Qed.
(** They are listed in the order of addition, once each (if a package does not list a name twice). *)
Theorem C38_order : ∀ repos m po r b ps, pool_of repos m = Ok po → what_provides po r b = Ok ps →
  (∀ p, p ∈ mjoin repos → NoDup (p_name p :: (p_provides p).*1)) →
  ∃ P : package → bool, ps = filter (λ p, P p = true) (mjoin repos).
Proof.
  intros repos m po r b ps [R Hm]%pool_of_rep Hps Hnd.
  rewrite (rep_what_provides _ _ R) in Hps.
  assert (E : by_name (mjoin repos) (r_name r) =
              filter (λ p, bool_decide (r_name r ∈ (pkg_provides p).*1) = true) (mjoin repos)).
  { clear Hps R. revert Hnd. generalize (mjoin repos) as l. unfold by_name. induction l as [|p l IH]; intros Hnd; [done|].
    rewrite fmap_cons, mjoin_cons, IH by (intros q Hq; apply Hnd; by right). rewrite filter_cons.
    specialize (Hnd p (elem_of_list_here _ _)). fold ((pkg_provides p).*1) in Hnd.
    change (p_name p :: (p_provides p).*1) with (pkg_provides p).*1 in Hnd.
    revert Hnd. generalize (pkg_provides p).*1 as ns. intros ns Hnd.
    assert (E : filter (λ m0, m0 = r_name r) ns = if decide (r_name r ∈ ns) then [r_name r] else []).
    { clear IH. induction Hnd as [|n ns Hn Hnd IHn]; [done|]. rewrite filter_cons.
      destruct (decide (n = r_name r)) as [->|Hne].
      - rewrite IHn. rewrite (decide_False (P := r_name r ∈ ns)) by done.
        rewrite decide_True by left. done.
      - rewrite IHn. destruct (decide (r_name r ∈ ns)).
        + rewrite decide_True by (by right). done.
        + rewrite decide_False; [done|]. rewrite elem_of_cons. naive_solver. }
    rewrite E. case_decide as Hd.
    - rewrite decide_True by (by apply bool_decide_eq_true). done.
    - rewrite decide_False by (rewrite bool_decide_eq_true; done). done. }
  destruct (by_name (mjoin repos) (r_name r)) as [|x bl] eqn:Eb.
  - injection Hps as <-. exists (λ _, false). generalize (mjoin repos) as l. by induction l.
  - destruct (if b then pool_modify po r else Ok r) as [r'|]; cbn [mbind res_bind] in Hps; [|done].
    injection Hps as <-. rewrite E. rewrite list_filter_filter.
    exists (λ p, req_matches r' (p_version p) && bool_decide (r_name r ∈ (pkg_provides p).*1)).
    apply list_filter_iff. intros p. by rewrite andb_true_iff.
Qed.

(** ** C22 *)
(** Modifiers do not influence which packages are candidates of a job, nor anything else that is
    computed from the jobs alone before rule generation. *)
Theorem C22_candidates : ∀ po m r, what_provides (set_mods po m) r false = what_provides po r false.
Proof. done. Qed.
Theorem C22_job_candidates : ∀ po m inst jobs acc,
  foldM (job_ids (set_mods po m) inst) jobs acc = foldM (job_ids po inst) jobs acc.
Proof. done. Qed.
(** With modifiers, a dependency never loses a candidate. *)
Theorem C22_dependencies_relaxed : ∀ repos m po r ps ps' p, pool_of repos (Some m) = Ok po →
  r_class r = RInstall → what_provides po r false = Ok ps → what_provides po r true = Ok ps' →
  normal_version (p_version p) → (∀ c, c ∈ r_cons r → normal_constr c) →
  p ∈ ps → p ∈ ps'.
Proof.
  intros repos m po r ps ps' p [R Hm]%pool_of_rep Hc H1 H2 Hv Hn.
  rewrite (rep_what_provides_elem _ _ R _ _ _ _ H1), (rep_what_provides_elem _ _ R _ _ _ _ H2).
  intros (Hl & Hp & r' & [= <-] & Hmatch). split; [done|]. split; [done|].
  unfold pool_modify. rewrite Hm. destruct (modify_total r m Hc) as [r' Hr']. exists r'. split; [done|].
  by eapply C40_only_relaxes.
Qed.

(** ** Non-vacuity *)
Definition ex_pkgs : list package :=
  [Pkg "A" (V 1 0) [("X", [])] [] [] None; Pkg "X" (V 1 0) [] [] [] None;
   Pkg "Y" (V 3 0) [] [] [("X", [])] None; Pkg "X" (V 2 0) [] [] [] None].
Example ex_pool : ∃ po, pool_of [ex_pkgs; [Pkg "A" (V 1 0) [("X", [])] [] [] None]] None = Ok po ∧
  iter_package_ids po = [1; 2; 3; 4; 5] ∧
  package_id po (Pkg "A" (V 1 0) [("X", [])] [] [] None) = Ok 5 ∧
  what_provides po (Req RInstall "X" [CGt (V 1 0)]) true
    = Ok [Pkg "Y" (V 3 0) [] [] [("X", [])] None; Pkg "X" (V 2 0) [] [] [] None].
Proof. eexists. split; [vm_compute; reflexivity|]. vm_compute. done. Qed.
Example ex_pool_bad : pool_of [[Pkg "A" (V 1 0) [] [] [("X", [[[CEqual (V 1 0)]]])] None]] None = Raise InvalidConstraint.
Proof. vm_compute. reflexivity. Qed.

Print Assumptions C37_created_iff.
Print Assumptions C37_ids.
Print Assumptions C37_package_id.
Print Assumptions C37_stable.
Print Assumptions C38_what_provides.
Print Assumptions C38_order.
Print Assumptions C22_candidates.
Print Assumptions C22_job_candidates.
Print Assumptions C22_dependencies_relaxed.
