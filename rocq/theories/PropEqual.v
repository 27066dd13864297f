(** * Package equality ignores what a package provides (C58). *)
From Verif Require Import PropLimits PropSolve.

(** One would expect that the solver gives what was asked for in every pool (as C16 states), even if two packages of
    the pool compare equal.  It does not: equality ignores [provides], equal packages share
    one id, and the solver installs the twin that does not provide the wanted name. *)
Theorem C58_refuted : ∃ repos ds rq jobs t p q, pool_of repos None = Ok (ds_pool ds) ∧ asks ds rq jobs ∧
  (∀ x, x ∈ mjoin repos → dist_name (of_s (p_name x))) ∧ ds_pruning ds = true ∧ ds_installed ds = [] ∧
  mjoin repos = [p; q] ∧ pkg_eq p q = true ∧
  jobs = [want "B"] ∧ provides p "B" ∧ ¬ provides q "B" ∧
  valid (mjoin repos) [] (rq_mods rq) jobs (λ x, x = p) ∧
  solve env0 ds 40 rq = Ok (Normal t) ∧ t_ops t = [InstallOp q].
Proof.
  set (p := Pkg "A" (V 1 0) [] [] [("B", [])] None). set (q := Pkg "A" (V 1 0) [] [] [] None).
  assert (∃ t, solve env0 (ds0 [[p]; [q]] [[p]; [q]] [] true false) 40 (ask [want "B"]) = Ok (Normal t) ∧ t_ops t = [InstallOp q]) as (t & Ht & Hops) by run.
  exists [[p]; [q]], (ds0 [[p]; [q]] [[p]; [q]] [] true false), (ask [want "B"]), [want "B"], t, p, q.
  split; [reflexivity|]. split; [apply plain_asks; reflexivity|]. split.
  { intros x Hx. apply elem_of_list_In in Hx. destruct Hx as [<-|[<-|[]]]; apply ReqProofs.dist_by; vm_compute; reflexivity. }
  split; [reflexivity|]. split; [reflexivity|]. split; [reflexivity|]. split; [reflexivity|]. split; [reflexivity|].
  split; [right; exists ("B", []); split; [left|reflexivity]|]. split; [intros H%provides_b_spec; vm_compute in H; discriminate H|].
  split; [|split; [exact Ht|exact Hops]]. split.
      - intros x ->. by left.
      - intros j ->%elem_of_list_singleton. exists p. split; [reflexivity|]. split; [right; exists ("B", []); split; [left|reflexivity]|].
        by intros c ->%elem_of_list_singleton.
      - intros x d -> Hd. by apply elem_of_nil in Hd.
      - by intros x y -> ->.
      - intros x d y -> Hd. by apply elem_of_nil in Hd.
Qed.
Print Assumptions C58_refuted.
