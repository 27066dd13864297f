(** * Which package a decision policy should suggest. *)
From Verif Require Import SpecConstraints.
From Verif Require Export Policy.

(** A variable without a value; a clause that is not true yet (no literal is true). *)
Definition open (a : aset) (x : Z) : Prop := aset_value a x = None.
Definition not_yet_true (a : aset) (c : list Z) : Prop := ∀ l, l ∈ c → aset_value a l ≠ Some true.
(** The open variables of the clauses that are not true yet: what the policy is documented to gather ("all undetermined packages from clauses
    whose truth value is not yet known"). *)
Definition undetermined (a : aset) (cls : list (list Z)) (x : Z) : Prop :=
  open a x ∧ ∃ c l, c ∈ cls ∧ not_yet_true a c ∧ l ∈ c ∧ x = Z.abs l.
(** Among the variables with [P], [v] has a highest version. *)
Definition newest_of (ver : Z → option version) (P : Z → Prop) (v : Z) : Prop :=
  P v ∧ ∀ u, P u → ∃ uv vv, ver u = Some uv ∧ ver v = Some vv ∧ ¬ vlt vv uv.
(** [v] is the first open entry of a list. *)
Definition first_open (a : aset) (l : list Z) (v : Z) : Prop :=
  ∃ before after, l = before ++ v :: after ∧ open a v ∧ ∀ u, u ∈ before → ¬ open a u.
Definition none_open (a : aset) (P : Z → Prop) : Prop := ∀ u, P u → ¬ open a u.

Section history.
  Context (env : uc_env).
  (** An assignments object keeps account of what is assigned. *)
  Definition keeps_account (a : aset) : Prop := ∀ k, is_Some (aset_value a k) ↔ Z.abs k ∈ a_assigned a.
  (** The packages that can occur have versions. *)
  Definition known_vars (cls : list (list Z)) : Prop := ∀ c l, c ∈ cls → l ∈ c → l ≠ 0 ∧ is_Some (uc_version env (Z.abs l)).
  (** A history of one policy object: requirements are added and suggestions asked for, in any order, with any assignments and clauses. *)
  Inductive asked : list (aset * list (list Z)) → list Z → uc_state → Prop :=
    | asked_new : asked [] [] uc_new
    | asked_require calls req p ids : asked calls req p → (∀ x, x ∈ ids → 0 < x ∧ is_Some (uc_version env x)) →
        asked calls (req ++ ids) (uc_add_requirements ids p)
    | asked_call calls req p a cls v p' a' : asked calls req p → keeps_account a → known_vars cls →
        uc_policy env p a cls = Ok (v, p', a') → asked (calls ++ [(a, cls)]) req p'.

  (** What is suggested: an installed package, in their order; else the newest requirement; else the newest of the undetermined
      variables at some call (this one, if a new key was assigned since the last refresh) that have been open ever since; and only if nothing is undetermined
      the newest of all. *)
  Definition right_choice (calls : list (aset * list (list Z))) (req : list Z) (a : aset) (cls : list (list Z)) (v : Z) : Prop :=
    first_open a (uc_prefer env) v ∨
    none_open a (λ u, u ∈ uc_prefer env) ∧
    (newest_of (uc_version env) (λ u, u ∈ req ∧ open a u) v ∨
     none_open a (λ u, u ∈ req) ∧
     ((∃ earlier b cls' later, calls ++ [(a, cls)] = earlier ++ (b, cls') :: later ∧ (a_new a ≠ ∅ → later = []) ∧
         undetermined b cls' v ∧ open a v ∧
         ∀ u, undetermined b cls' u → (∀ a', a' ∈ later.*1 → open a' u) →
           ∃ uv vv, uc_version env u = Some uv ∧ uc_version env v = Some vv ∧ ¬ vlt vv uv) ∨
      (∀ u, ¬ undetermined a cls u) ∧
        newest_of (uc_version env) (λ u, open a u ∧ ∃ c l, c ∈ cls ∧ l ∈ c ∧ u = Z.abs l) v)).
End history.
