(** * What it means that a package depends on another one, among a list of packages. *)
From Verif Require Export SpecInstall.

(** Equality of packages in Python (package.py 145-149); it ignores what they provide. *)
Definition equal_pkgs (p q : package) : Prop := pkg_key p = pkg_key q.

(** [p] has a dependency that [q], or a package of [ps] equal to it, meets. *)
Definition needs (ps : list package) (p q : package) : Prop :=
  p ∈ ps ∧ q ∈ ps ∧ ∃ d q', d ∈ p_requires p ∧ q' ∈ ps ∧ equal_pkgs q' q ∧ dep_meets no_mods d q'.

(** No cyclic dependencies, except that a package may depend on itself. *)
Definition acyclic (ps : list package) : Prop :=
  ¬ ∃ p, tc (λ p q, needs ps p q ∧ ¬ equal_pkgs p q) p p.

(** The list [l], seen as a Python set, holds exactly the packages of [ps] with the property [P]. *)
Definition holds_exactly (ps l : list package) (P : package → Prop) : Prop :=
  NoDup (pkg_key <$> l) ∧ (∀ q, q ∈ l → q ∈ ps) ∧
  ∀ q, q ∈ ps → (∃ q', q' ∈ l ∧ equal_pkgs q' q) ↔ P q.

(** The metadata that the code can read: provided names carry no version, and no dependency is a disjunction. *)
Definition readable (ps : list package) : Prop :=
  (∀ p d, p ∈ ps → d ∈ p_provides p → d.2 = [] ∨ ∃ conj, d.2 = [conj] ∧ (conj = [] ∨ mjoin conj = [] ∨ mjoin conj = [CAny])) ∧
  (∀ p d, p ∈ ps → d ∈ p_requires p → (length d.2 ≤ 1)%nat).
