(** * What a history of calls has built, read off the calls alone: earlier queries, solves, assignments to
    [pool.modifiers] and requests do not occur here. *)
From Verif Require Export Session PropRequest SpecInstall.

Definition new_modifiers (c : call) : option modifiers := match c with NewModifiers m => Some m | _ => None end.
Definition new_request (c : call) : option nat := match c with NewRequest a => Some a | _ => None end.
Definition new_repository (c : call) : option (list package) := match c with NewRepository ps => Some ps | _ => None end.
Definition added_to (r : nat) (c : call) : option package :=
  match c with AddPackage r' p => if decide (r' = r) then Some p else None | _ => None end.
Definition called_on (k : nat) (c : call) : option rcall :=
  match c with RequestCall k' c => if decide (k' = k) then Some c else None | _ => None end.

(** The packages put into the [r]-th repository. *)
Definition packages_of (calls : list call) (r : nat) : list package :=
  default [] (omap new_repository calls !! r) ++ omap (added_to r) calls.
(** Iterating it. *)
Definition listed (calls : list call) (r : nat) : list package := repo_iter (repo_of (packages_of calls r)).
(** What the repositories given to add_repository contained at that time. *)
Fixpoint added_after (before calls : list call) : list (list package) :=
  match calls with
  | [] => []
  | c :: calls => match c with AddRepository r => [listed before r] | _ => [] end ++ added_after (before ++ [c]) calls
  end.
Definition added (calls : list call) : list (list package) := added_after [] calls.
(** The modifiers object of the [k]-th request, and its jobs (PropRequest.v: C42). *)
Definition modifiers_of (calls : list call) (k : nat) : option nat := omap new_request calls !! k.
Definition jobs_of (calls : list call) (k : nat) : list job := history_jobs (omap wanted (omap (called_on k) calls)).
(** The contents of the [a]-th modifiers object; the latest call comes first. *)
Fixpoint names_in (latest : list call) (a : nat) : modifiers :=
  match latest with
  | [] => no_mods
  | c :: before =>
      let m := names_in before a in
      match c with
      | NewModifiers m0 => if decide (length (omap new_modifiers before) = a) then m0 else m
      | UpdateModifiers a' b =>
          if decide (a' = a) then mods_update m (names_in before b) else m
      | RemoveModifiers a' ps => if decide (a' = a) then mods_remove m ps else m
      | RequestCall k c =>
          if decide (modifiers_of (reverse before) k = Some a) then
            match c with
            | CallAllowNewer n => Mods ({[n]} ∪ allow_newer m) (allow_any m) (allow_older m)
            | CallAllowAny n => Mods (allow_newer m) ({[n]} ∪ allow_any m) (allow_older m)
            | CallAllowOlder n => Mods (allow_newer m) (allow_any m) ({[n]} ∪ allow_older m)
            | _ => m
            end
          else m
      | _ => m
      end
  end.
Definition modifiers_at (calls : list call) (a : nat) : modifiers := names_in (reverse calls) a.
(** The [k]-th request as it is now. *)
Definition request_of (calls : list call) (k : nat) : request :=
  Request (modifiers_at calls (default 0%nat (modifiers_of calls k))) (jobs_of calls k).

(** The solver over a pool made now of the repositories that were added. *)
Definition fresh (calls : list call) (po : pool) (remote : list nat) (inst : nat) (pruning strict : bool) : dep_solver :=
  DepSolver po (listed calls <$> remote) (listed calls inst) pruning strict.

(** No add_repository has failed. *)
Definition adds_ok (h : list (call * answer)) : Prop := ∀ r x, (AddRepository r, ARaise x) ∉ h.
(** Names that were looked up by name_to_packages, are provided by no package of the pool, and are among the
    targets of the modifiers. *)
Definition looked_up (calls : list call) (m : modifiers) (n : string) : Prop :=
  NameToPackages n ∈ calls ∧ n ∈ targets m ∧ ∀ p, p ∈ mjoin (added calls) → ¬ provides p n.

(** The modifiers object that [pool.modifiers] refers to; the latest call comes first.  Every solve replaces it: by the
    modifiers object of its request, or by None if this has no targets at that moment. *)
Fixpoint refers_to (latest : list call) : option nat :=
  match latest with
  | [] => None
  | c :: before =>
      match c with
      | SetPoolModifiers m => m
      | Solve _ _ _ _ _ _ k | SolveWithHint _ _ _ _ _ _ k =>
          a ← modifiers_of (reverse before) k;
          if decide (targets (names_in before a) = ∅) then None else Some a
      | _ => refers_to before
      end
  end.
Definition pool_modifiers (calls : list call) : option modifiers := modifiers_at calls <$> refers_to (reverse calls).
