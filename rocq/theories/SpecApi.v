(** * Specification of the functions of simplesat.dependency_solver on plain package lists. *)
From Verif Require Export SpecInstall.

(** [S] is a set of the given packages that can be installed (on an empty system) and meets the requirements. *)
Record installable (ps : list package) (m : modifiers) (reqs : list requirement) (S : package → Prop) : Prop := {
  in_sub : ∀ p, S p → p ∈ ps;
  in_reqs : ∀ r, r ∈ reqs → ∃ q, S q ∧ req_meets r q;
  in_closed : closed_set m S;
  in_names : one_version S;
  in_conflicts : no_conflict S }.

(** The packages some requirement, relaxed by the modifiers, selects. *)
Definition asked_for (ps : list package) (m : modifiers) (reqs : list requirement) (p : package) : Prop :=
  p ∈ ps ∧ ∃ r, r ∈ reqs ∧ provides p (r_name r) ∧ ∀ c, c ∈ r_cons r → relaxed m (r_name r) c (p_version p).

(** No two of the packages are the same release of the same package. *)
Definition releases_differ (ps : list package) : Prop :=
  ∀ p q, p ∈ ps → q ∈ ps → p_name p = p_name q → p_version p = p_version q → p = q.
