(** * Specification of definition texts: a package in each line. *)
From Coq Require Import Ascii String.
From Verif Require Export SpecScenario TestUtils.
Open Scope list_scope.

(** Where a line ends: at a line feed, vertical tab, form feed, carriage return, file, group or record separator or "next line"; a
    carriage return with a line feed after it is one end. *)
Definition ends_line : list ascii := ascii_of_nat <$> [10; 11; 12; 13; 28; 29; 30; 133]%nat.
Definition one_piece (l : text) : Prop := ∀ c, c ∈ l → c ∉ ends_line.
Definition line_feed : ascii := ascii_of_nat 10.
Definition carriage_return : ascii := ascii_of_nat 13.
Inductive lines_say : list text → text → Prop :=
  | ls_nil : lines_say [] []
  | ls_last l : one_piece l → l ≠ [] → lines_say [l] l
  | ls_both l ls t : one_piece l → lines_say ls t → lines_say (l :: ls) (l ++ carriage_return :: line_feed :: t)
  | ls_one l c ls t : one_piece l → c ∈ ends_line → (c = carriage_return → ∀ r, t ≠ line_feed :: r) →
      lines_say ls t → lines_say (l :: ls) (l ++ c :: t).

Global Instance blank_dec t : Decision (blank t).
Proof. unfold blank. apply _. Defined.
Section spec.
  Context (vparse : text → res version).
  (** The text defines these packages: one in each line that is not blank (C61). *)
  Definition defines (t : text) (ms : list metadata) : Prop :=
    ∃ ls, lines_say ls t ∧ Forall2 (λ l m, parse_to_package vparse l = Ok m) (filter (λ l, ¬ blank l) ls) ms.
  (** The package the metadata is about. *)
  Definition package_meant (m : metadata) (p : package) : Prop :=
    p_name p = mt_name m ∧ p_version p = mt_version m ∧ Forall2 (dep_said vparse) (mt_requires m) (p_requires p) ∧
    Forall2 (dep_said vparse) (mt_conflicts m) (p_conflicts p) ∧ Forall2 (dep_said vparse) (mt_provides m) (p_provides p) ∧ p_repo p = None.
End spec.
