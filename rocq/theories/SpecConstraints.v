(** * What version constraints mean: the independent specification. *)
From Verif Require Export Constraints.

(** Versions are ordered by upstream version, then by build number. *)
Definition vlt (a b : version) : Prop :=
  upstream a < upstream b ∨ (upstream a = upstream b ∧ build a < build b).
Definition vle (a b : version) : Prop := vlt a b ∨ a = b.

(** The set of versions a constraint denotes. *)
Definition constr_sem (c : constr) (v : version) : Prop :=
  match c with
  | CAny => True
  | CEqual w => v = w
  | CNot w => v ≠ w
  | CGeq w => vle w v
  | CGt w => vlt w v
  | CLeq w => vle v w
  | CLt w => vlt v w
  | CUpstream w => upstream v = upstream w
  end.

(** What remains of a constraint when newer (older) versions are allowed: it is only kept as a lower
    (upper) bound.  [^= w] is kept as [>= w], resp. as [<= u-MAX_BUILD], [u] the upstream of [w]. *)
Definition lower_part (c : constr) (v : version) : Prop :=
  match c with
  | CEqual w | CGeq w | CUpstream w => vle w v
  | CGt w => vlt w v
  | _ => True
  end.
Definition upper_part (c : constr) (v : version) : Prop :=
  match c with
  | CEqual w | CLeq w => vle v w
  | CLt w => vlt v w
  | CUpstream w => vle v (V (upstream w) MAX_BUILD)
  | _ => True
  end.

(** A constraint on package [n] under modifiers.  [!=] is never relaxed. *)
Definition relaxed (m : modifiers) (n : string) (c : constr) (v : version) : Prop :=
  match c with
  | CNot w => v ≠ w
  | _ =>
      if decide (n ∈ allow_any m) then True
      else if decide (n ∈ allow_newer m) then
        if decide (n ∈ allow_older m) then True else lower_part c v
      else if decide (n ∈ allow_older m) then upper_part c v
      else constr_sem c v
  end.
