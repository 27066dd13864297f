(** * Specification of the explanations attached to rules: which requests and dependencies a rule
      comes from. *)
From Verif Require Export SpecInstall Rules.

(** The chain of requirements that leads from a job to a package: the requirement of the job, then one
    dependency of each package on the way. *)
Inductive led_to (pkgs : list package) (m : modifiers) (jobs : list job) : list requirement → package → Prop :=
  | led_job j r p : j ∈ jobs → j_req j = Some r → p ∈ pkgs → req_meets r p → led_to pkgs m jobs [r] p
  | led_dep rs p d r q : led_to pkgs m jobs rs p → d ∈ p_requires p → from_constraints RInstall d = Ok r →
      q ∈ pkgs → dep_meets m d q → led_to pkgs m jobs (rs ++ [r]) q.

(** The requirements attached to a rule about [p] that states [r]: none, if [p] was looked at only
    because of what is installed, else a chain that leads to [p], followed by [r]. *)
Definition because pkgs m jobs (p : package) (r : requirement) (reqs : list requirement) : Prop :=
  reqs = [] ∨ ∃ rs, led_to pkgs m jobs rs p ∧ reqs = rs ++ [r].

(** What a rule says, by its reason.  [i] is the id of [p]. *)
Definition has_id (po : pool) (p : package) (i : Z) : Prop := package_id po p = Ok i.

Definition explained (po : pool) (pkgs inst : list package) (m : modifiers) (jobs : list job) (ru : rule) : Prop :=
  match ru_reason ru with
  | job_install => ∃ j r, j ∈ jobs ∧ (j_kind j = JInstall ∨ j_kind j = JSoftUpdate) ∧ j_req j = Some r ∧
      ru_reqs ru = [r] ∧
      ∀ l, l ∈ ru_lits ru ↔ ∃ p, p ∈ pkgs ∧ req_meets r p ∧ has_id po p l
  | job_remove => ∃ j r p i, j ∈ jobs ∧ j_kind j = JRemove ∧ j_req j = Some r ∧ ru_reqs ru = [r] ∧
      p ∈ pkgs ∧ req_meets r p ∧ has_id po p i ∧ ru_lits ru = [- i]
  | job_update => ∃ j r p i, j ∈ jobs ∧ j_kind j = JHardUpdate ∧ j_req j = Some r ∧ ru_reqs ru = [r] ∧
      hard_choice pkgs inst r p ∧ has_id po p i ∧ ru_lits ru = [i]
  | package_requires => ∃ p i d r, p ∈ pkgs ∧ has_id po p i ∧ d ∈ p_requires p ∧
      from_constraints RInstall d = Ok r ∧ because pkgs m jobs p r (ru_reqs ru) ∧
      (∃ q, q ∈ pkgs ∧ dep_meets m d q) ∧
      ∃ ls, ru_lits ru ≡ₚ - i :: ls ∧ ∀ l, l ∈ ls ↔ ∃ q, q ∈ pkgs ∧ q ≠ p ∧ dep_meets m d q ∧ has_id po q l
  | package_broken => ∃ p i d r, p ∈ pkgs ∧ has_id po p i ∧ d ∈ p_requires p ∧
      from_constraints RInstall d = Ok r ∧ because pkgs m jobs p r (ru_reqs ru) ∧
      (¬ ∃ q, q ∈ pkgs ∧ dep_meets m d q) ∧ ru_lits ru = [- i]
  | package_same_name => ∃ p i q k, p ∈ pkgs ∧ q ∈ pkgs ∧ has_id po p i ∧ has_id po q k ∧ p ≠ q ∧
      p_name p = p_name q ∧ because pkgs m jobs p (Req RConflict (p_name p) [CAny]) (ru_reqs ru) ∧
      ru_lits ru ≡ₚ [- i; - k]
  | package_conflicts => ∃ p i d r q k, p ∈ pkgs ∧ q ∈ pkgs ∧ has_id po p i ∧ has_id po q k ∧ p ≠ q ∧
      d ∈ p_conflicts p ∧ from_constraints RConflict d = Ok r ∧ conflict_meets d q ∧
      because pkgs m jobs p r (ru_reqs ru) ∧
      ru_lits ru ≡ₚ [- i; - k]
  end.
