(** * Property C42: requests. *)
From Verif Require Import Request.

(** The request after a history of calls; a call that raises leaves it as it is. *)
Definition after (m : modifiers) (calls : list rcall) : request :=
  foldl do_call_catch (request_new m) calls.

Definition is_upgrade (j : job) : Prop := j_kind j = JUpgrade.

(** Every job but an upgrade has a requirement; an upgrade job is alone. *)
Theorem C42_upgrade_alone : ∀ m calls,
  (∀ j, j ∈ rq_jobs (after m calls) → is_upgrade j → rq_jobs (after m calls) = [j]) ∧
  (∀ j, j ∈ rq_jobs (after m calls) → is_upgrade j ↔ j_req j = None).
Proof.
  intros m calls. unfold after. induction calls as [|c calls IH] using rev_ind.
  { cbn. split; intros j Hj; by apply elem_of_nil in Hj. }
  rewrite foldl_app. cbn [foldl]. set (rq := foldl do_call_catch (request_new m) calls) in *.
  assert (G : ∀ r k, (r = None ↔ k = JUpgrade) →
    match add_job rq r k with
    | Ok rq' => (∀ j, j ∈ rq_jobs rq' → is_upgrade j → rq_jobs rq' = [j]) ∧
                (∀ j, j ∈ rq_jobs rq' → is_upgrade j ↔ j_req j = None)
    | Raise _ => True end).
  { intros r k Hrk. destruct IH as [IH1 IH2]. unfold add_job.
    destruct (_ && _) eqn:E; [done|].
    assert (Hj : mk_job r k = Ok (Job r k)).
    { unfold mk_job. destruct r; [done|]. rewrite decide_True by (by apply Hrk). done. }
    rewrite Hj. cbn [mbind res_bind rq_jobs]. destruct (rq_jobs rq) as [|j0 js] eqn:Ej.
    - cbn [app]. split; intros j Hj'%elem_of_list_singleton; subst j; [done|]. unfold is_upgrade; cbn. naive_solver.
    - change (0 <? length (j0 :: js))%nat with true in E. cbn [andb] in E.
      apply orb_false_iff in E as [E1 E2]. apply bool_decide_eq_false in E2.
      assert (Hno : ∀ j, j ∈ (j0 :: js) ++ [Job r k] → ¬ is_upgrade j).
      { intros j [Hj'|Hj']%elem_of_app Hu.
        - apply not_true_iff_false in E1. apply E1, existsb_exists. exists j.
          split; [by apply elem_of_list_In|by apply bool_decide_eq_true].
        - apply elem_of_list_singleton in Hj' as ->. done. }
      split; [intros j ? Hu; exfalso; by eapply Hno|].
      intros j [Hj'|Hj']%elem_of_app; [auto|]. apply elem_of_list_singleton in Hj' as ->.
      unfold is_upgrade. cbn. naive_solver. }
  unfold do_call_catch. destruct c as [r|r| |r|r|n|n|n]; cbn [do_call].
  1: specialize (G (Some r) JInstall); destruct (add_job rq (Some r) JInstall); auto; by apply G.
  1: specialize (G (Some r) JRemove); destruct (add_job rq (Some r) JRemove); auto; by apply G.
  1: specialize (G None JUpgrade); destruct (add_job rq None JUpgrade); auto; by apply G.
  1: specialize (G (Some r) JHardUpdate); destruct (add_job rq (Some r) JHardUpdate); auto; by apply G.
  1: specialize (G (Some r) JSoftUpdate); destruct (add_job rq (Some r) JSoftUpdate); auto; by apply G.
  all: done.
Qed.

(** The job a call asks for. *)
Definition wanted (c : rcall) : option job :=
  match c with
  | CallInstall r => Some (Job (Some r) JInstall)
  | CallRemove r => Some (Job (Some r) JRemove)
  | CallUpgrade => Some (Job None JUpgrade)
  | CallHardUpdate r => Some (Job (Some r) JHardUpdate)
  | CallSoftUpdate r => Some (Job (Some r) JSoftUpdate)
  | _ => None
  end.
(** A call appends its job, unless that would put an upgrade job beside another job; then it raises
    ValueError (and changes nothing, as [do_call] returns no new request). *)
Definition crowded (rq : request) (j : job) : Prop :=
  rq_jobs rq ≠ [] ∧ (is_upgrade j ∨ ∃ k, k ∈ rq_jobs rq ∧ is_upgrade k).
Theorem C42_append : ∀ rq c j, wanted c = Some j →
  (crowded rq j → do_call rq c = Raise ValueError) ∧
  (¬ crowded rq j → do_call rq c = Ok (Request (rq_mods rq) (rq_jobs rq ++ [j]))).
Proof.
  intros rq c j Hw.
  assert (G : ∀ r k, (r = None ↔ k = JUpgrade) →
    (crowded rq (Job r k) → add_job rq r k = Raise ValueError) ∧
    (¬ crowded rq (Job r k) → add_job rq r k = Ok (Request (rq_mods rq) (rq_jobs rq ++ [Job r k])))).
  { intros r k Hrk. unfold add_job, crowded, is_upgrade. cbn [j_kind].
    assert (Hj : mk_job r k = Ok (Job r k)).
    { unfold mk_job. destruct r; [done|]. rewrite decide_True by (by apply Hrk). done. }
    rewrite Hj. destruct (_ && _) eqn:E.
    - apply andb_true_iff in E as [E1 E2]. split; [done|]. intros []. split.
      + intros Hn. rewrite Hn in E1. done.
      + apply orb_true_iff in E2 as [E2|E2].
        * right. apply existsb_exists in E2 as (x & Hx & He). exists x.
          split; [by apply elem_of_list_In|by apply bool_decide_eq_true in He].
        * left. by apply bool_decide_eq_true in E2.
    - split; [|done]. intros [H1 H2]. exfalso. apply not_true_iff_false in E. apply E, andb_true_iff. split.
      + destruct (rq_jobs rq); [done|]. done.
      + apply orb_true_iff. destruct H2 as [->|(x & Hx & Hu)]; [by right|left].
        apply existsb_exists. exists x. split; [by apply elem_of_list_In|by apply bool_decide_eq_true]. }
  destruct c; cbn in Hw; try done; injection Hw as <-; cbn [do_call]; apply G; naive_solver.
Qed.
Theorem C42_rejected_unchanged : ∀ rq c e, do_call rq c = Raise e → e = ValueError ∧ do_call_catch rq c = rq.
Proof.
  intros rq c e H. unfold do_call_catch. rewrite H. split; [|done].
  destruct c; cbn [do_call] in H; unfold add_job, mk_job in H; try done.
  all: try (destruct (_ && _); cbn in H; congruence).
  destruct (_ && _); [congruence|]. destruct (decide _); cbn in H; congruence.
Qed.

(** What a history of calls adds up to: the names given to allow_newer, allow_any and allow_older join
    those the request was made with; and when the first job call is an upgrade it stays the only job,
    otherwise all job calls but the upgrades are kept, in order. *)
Definition history_jobs (js : list job) : list job :=
  match js with
  | j :: _ => if decide (j_kind j = JUpgrade) then [j] else filter (λ j, ¬ is_upgrade j) js
  | [] => []
  end.
Theorem C42_history : ∀ m calls n,
  (n ∈ allow_newer (rq_mods (after m calls)) ↔ n ∈ allow_newer m ∨ CallAllowNewer n ∈ calls) ∧
  (n ∈ allow_any (rq_mods (after m calls)) ↔ n ∈ allow_any m ∨ CallAllowAny n ∈ calls) ∧
  (n ∈ allow_older (rq_mods (after m calls)) ↔ n ∈ allow_older m ∨ CallAllowOlder n ∈ calls) ∧
  rq_jobs (after m calls) = history_jobs (omap wanted calls).
Proof.
  intros m calls n. unfold after. induction calls as [|c calls IH] using rev_ind.
  { cbn. repeat split; try (by left); try done; intros [?|H]; try done; by apply elem_of_nil in H. }
  rewrite foldl_app, omap_app. cbn [foldl].
  set (rq := foldl do_call_catch (request_new m) calls) in *.
  destruct IH as (I1 & I2 & I3 & I4).
  assert (Hin : ∀ x, x ∈ calls ++ [c] ↔ x ∈ calls ∨ x = c).
  { intros x. rewrite elem_of_app, elem_of_list_singleton. done. }
  destruct (wanted c) as [j|] eqn:Hw.
  - assert (Hm : rq_mods (do_call_catch rq c) = rq_mods rq ∧
                 rq_jobs (do_call_catch rq c) = history_jobs (omap wanted calls ++ [j])).
    { unfold do_call_catch. destruct (C42_append rq c j Hw) as [A1 A2].
      assert (Hd : crowded rq j ∨ ¬ crowded rq j).
      { unfold crowded. destruct (rq_jobs rq) as [|j0 js] eqn:E0; [right; naive_solver|].
        destruct (decide (j_kind j = JUpgrade)) as [Hu|Hu]; [left; split; [done|by left]|].
        destruct (decide (Exists is_upgrade (j0 :: js))) as [He|He].
        - left. split; [done|right]. by apply Exists_exists in He.
        - right. intros [_ [?|H]]; [done|]. apply He, Exists_exists. naive_solver. }
      destruct Hd as [Hc|Hc].
      - rewrite (A1 Hc). split; [done|]. rewrite I4. destruct Hc as [Hne Hc]. rewrite I4 in Hne, Hc.
        destruct (omap wanted calls) as [|j0 js] eqn:Eo; [by destruct Hne|].
        cbn [history_jobs app] in *. destruct (decide _) as [Hu|Hu]; [done|].
        rewrite app_comm_cons, filter_app. destruct Hc as [Hc|(k & Hk & Hku)].
        + rewrite (filter_cons_False _ j) by naive_solver. by rewrite filter_nil, app_nil_r.
        + apply elem_of_list_filter in Hk as [? _]. done.
      - rewrite (A2 Hc). split; [done|]. cbn [rq_jobs]. rewrite I4. unfold crowded in Hc. rewrite I4 in Hc.
        destruct (omap wanted calls) as [|j0 js] eqn:Eo.
        { cbn [history_jobs app]. destruct (decide _) as [?|Hn]; [done|].
          by rewrite filter_cons_True, filter_nil by done. }
        cbn [history_jobs app] in *. destruct (decide (j_kind j0 = JUpgrade)) as [Hu|Hu].
        { destruct Hc. split; [done|right]. exists j0. split; [by left|done]. }
        rewrite app_comm_cons, filter_app. f_equal.
        rewrite filter_cons_True, filter_nil; [done|]. intros Hj. apply Hc. split; [|by left].
        rewrite filter_cons_True; [done|]. done. }
    destruct Hm as [-> ->]. rewrite !Hin, I1, I2, I3. cbn [omap list_omap]. rewrite Hw.
    repeat split; try done; intros; destruct c; cbn in Hw; naive_solver.
  - cbn [omap list_omap]. rewrite Hw, app_nil_r, !Hin.
    destruct c; try done; unfold do_call_catch; cbn [do_call rq_mods rq_jobs allow_newer allow_any allow_older];
      (split; [|split; [|split; [|done]]]); rewrite ?elem_of_union, ?elem_of_singleton, ?I1, ?I2, ?I3; naive_solver.
Qed.

(** ** Non-vacuity *)
Definition ex_r : requirement := Req RInstall "A" [CAny].
Example ex_after : rq_jobs (after no_mods [CallInstall ex_r; CallUpgrade; CallAllowAny "A"; CallRemove ex_r])
  = [Job (Some ex_r) JInstall; Job (Some ex_r) JRemove]
  ∧ rq_jobs (after no_mods [CallUpgrade; CallInstall ex_r]) = [Job None JUpgrade].
Proof. vm_compute. done. Qed.

Print Assumptions C42_upgrade_alone.
Print Assumptions C42_append.
Example ex_history :
  let rq := after (Mods {["M"]} ∅ ∅) [CallAllowOlder "A"; CallAllowNewer "B"; CallInstall ex_r; CallUpgrade; CallAllowAny "C"] in
  rq_mods rq = Mods {["B"; "M"]} {["C"]} {["A"]} ∧ rq_jobs rq = [Job (Some ex_r) JInstall].
Proof. cbn. split; [|done]. f_equal; set_solver. Qed.

Print Assumptions C42_rejected_unchanged.
Print Assumptions C42_history.
