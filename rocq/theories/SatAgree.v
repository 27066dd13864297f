(** * Two policies that propose the same wherever the solver asks them give the same run. *)
From Verif Require Export SatMain.

Section agree.
  Context {P : Type} (pol pol' : policy P) (PInv : P → Prop).
  Context (R : list (list Z * option rule)) (Extra : gset Z) (Dec : aset → Z → Prop).
  Let F := R.*1.
  Hypothesis Hpol : good_policy F Extra Dec pol PInv.
  Hypothesis Hwf : wf_cnf F.
  Hypothesis Hsame : ∀ p a cls, PInv p →
    (∀ c l, c ∈ cls → l ∈ c → l ≠ 0 ∧ (is_var F (Z.abs l) ∨ Z.abs l ∈ Extra)) → pol p a cls = pol' p a cls.
  Notation LInv := (LInv PInv R Extra Dec).
  Notation nvars := (nvars R Extra).
  Notation D := (D Dec).

  Lemma agree_step fuel p s : LInv p s → search_step pol fuel 0 p s = search_step pol' fuel 0 p s.
  Proof.
    intros L. unfold search_step. destruct (propagate fuel s) as [[[c|] s1]|x] eqn:E; [done| |done].
    rewrite !res_bind_ok. cbn beta iota. case_decide as Hn; [done|].
    pose proof (li_ready _ _ _ _ _ _ L) as Rd. pose proof (trail_bound _ _ _ _ (iv_core _ _ _ _ _ _ Rd)) as B.
    pose proof (propagate_mono _ (fuel `max` nvars) _ _ E ltac:(lia)) as E'.
    assert (H1 : ∀ c l, c ∈ clause_lits s1 → l ∈ c → l ≠ 0 ∧ (is_var F (Z.abs l) ∨ Z.abs l ∈ Extra)).
    { destruct (propagate_spec F Extra D (fuel `max` nvars) s Rd) as [(s2 & E2 & R1 & _)|(c & s2 & E2 & _)];
        [|rewrite E' in E2; injection E2 as <-|rewrite E' in E2; discriminate E2].
      { unfold SatSearch.nvars, F. unfold F in B. pose proof (iv_queue _ _ _ _ _ _ Rd) as [Hq _]. lia. }
      pose proof (iv_core _ _ _ _ _ _ R1) as C1. pose proof C1 as [Ch Cc Ct Ca].
      intros c l Hc Hl. apply elem_of_list_fmap in Hc as (i & -> & Hi).
      change (lits_of s1 i) with (hl (s_heap s1) i) in Hl. by apply (h_var _ _ _ Ch) in Hl. }
    rewrite (Hsame p (s_asg s1) (clause_lits s1)); [done|apply (li_pol _ _ _ _ _ _ L)|done].
  Qed.
  Lemma agree_loop pf n : ∀ p s, LInv p s → search_loop pol pf n 0 p s = search_loop pol' pf n 0 p s.
  Proof.
    induction n as [|n IH]; intros p s L; [done|]. cbn [search_loop]. rewrite <-(agree_step pf p s L).
    destruct (search_step pol pf 0 p s) as [r|x] eqn:E; [|done]. rewrite !res_bind_ok. destruct r as [p' s'| |]; try done.
    apply IH. pose proof (search_step_mono pol _ (pf `max` nvars) _ _ _ _ E ltac:(lia)) as E'.
    destruct (search_step_spec pol PInv R Extra Dec Hpol (pf `max` nvars) p s L ltac:(lia)) as [(p1 & s1 & E1 & L1 & _)|[(p1 & s1 & E1 & _)|(c & k & s1 & E1 & _)]];
      rewrite E' in E1; [|discriminate E1|discriminate E1]. by injection E1 as <- <-.
  Qed.
  Lemma agree_solve fuel p : PInv p → solve_clauses pol fuel p R = solve_clauses pol' fuel p R.
  Proof.
    intros Hp. unfold solve_clauses.
    destruct (from_clauses_spec PInv R Extra Dec Hwf p Hp) as [(s & -> & L & E)|(i & k & s & -> & _)]; [|done].
    rewrite !res_bind_ok. unfold search. unfold decision_level. rewrite E. cbn [length]. change (Z.of_nat 0) with 0.
    by rewrite (agree_loop fuel fuel p s L).
  Qed.
End agree.
