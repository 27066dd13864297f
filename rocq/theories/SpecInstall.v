(** * What a valid installation is: the independent specification of the dependency solver. *)
From Verif Require Export SpecConstraints SpecParser Package Request.

(** A package provides its own name and those it lists. *)
Definition provides (p : package) (n : string) : Prop :=
  n = p_name p ∨ ∃ d, d ∈ p_provides p ∧ d.1 = n.

(** A dependency or conflict of the metadata is a name with a disjunction of conjunctions of
    constraints; nothing listed means any version.  Modifiers relax dependencies only. *)
Definition dep_meets (m : modifiers) (d : cdep) (q : package) : Prop :=
  provides q d.1 ∧
  (d.2 = [] ∨ ∃ conj, conj ∈ d.2 ∧ ∀ cs c, cs ∈ conj → c ∈ cs → relaxed m d.1 c (p_version q)).
Definition conflict_meets (d : cdep) (q : package) : Prop :=
  provides q d.1 ∧
  (d.2 = [] ∨ ∃ conj, conj ∈ d.2 ∧ ∀ cs c, cs ∈ conj → c ∈ cs → constr_sem c (p_version q)).

(** A requirement of a job; modifiers do not apply. *)
Definition req_meets (r : requirement) (q : package) : Prop :=
  provides q (r_name r) ∧ ∀ c, c ∈ r_cons r → constr_sem c (p_version q).

(** The package a hard update asks for: the newest candidate, an installed one among equally new
    ones, the one added to the pool first among those. *)
Definition older_or_remote (inst : list package) (p q : package) : Prop :=
  vlt (p_version p) (p_version q) ∨ (p_version p = p_version q ∧ p ∉ inst ∧ q ∈ inst).
Definition hard_choice (pkgs inst : list package) (r : requirement) (q : package) : Prop :=
  ∃ l1 l2, pkgs = l1 ++ q :: l2 ∧ req_meets r q ∧
    (∀ p, p ∈ l1 → req_meets r p → older_or_remote inst p q) ∧
    (∀ p, p ∈ l2 → req_meets r p → ¬ older_or_remote inst q p).

(** What a job asks of the set [S] of packages that will be present. *)
Definition job_ok (pkgs inst : list package) (S : package → Prop) (j : job) : Prop :=
  match j_req j with
  | None => False
  | Some r =>
      match j_kind j with
      | JInstall | JSoftUpdate => ∃ q, S q ∧ req_meets r q
      | JRemove => ∀ q, S q → ¬ req_meets r q
      | JHardUpdate => ∀ q, hard_choice pkgs inst r q → S q
      | JUpgrade => False
      end
  end.

(** Each dependency of a present package is met by another present package. *)
Definition closed_set (m : modifiers) (S : package → Prop) : Prop :=
  ∀ p d, S p → d ∈ p_requires p → ∃ q, S q ∧ q ≠ p ∧ dep_meets m d q.
(** At most one package of each name. *)
Definition one_version (S : package → Prop) : Prop :=
  ∀ p q, S p → S q → p_name p = p_name q → p = q.
(** No present package conflicts with another one. *)
Definition no_conflict (S : package → Prop) : Prop :=
  ∀ p d q, S p → d ∈ p_conflicts p → S q → q ≠ p → ¬ conflict_meets d q.

Record valid (pkgs inst : list package) (m : modifiers) (jobs : list job) (S : package → Prop) : Prop := {
  va_sub : ∀ p, S p → p ∈ pkgs;
  va_jobs : ∀ j, j ∈ jobs → job_ok pkgs inst S j;
  va_closed : closed_set m S;
  va_names : one_version S;
  va_conflicts : no_conflict S }.

(** The package list has no two different packages that Python considers equal, and the package names are
    names the requirement parser can read: words separated by single dots (no "-", see C57). *)
Record well_formed (l : list package) : Prop := {
  wf_keys : ∀ p q, p ∈ l → q ∈ l → pkg_key p = pkg_key q → p = q;
  wf_names : ∀ p, p ∈ l → dist_name (of_s (p_name p)) }.
