(** * Specification of pretty package strings. *)
From Verif Require Export SpecParser PackageParser.
From Coq Require Import Ascii String.
Open Scope list_scope.

(** "numpy 1.8.1-1; depends (MKL == 10.3, nose ^= 1.3.4); conflicts (numeric)" *)

(** An entry of a block: a name, spaces, and the constraint text up to the next comma. *)
Record item := Item { it_name : text; it_spaces : text; it_constraint : text }.
Definition item_text (i : item) : text := it_name i ++ it_spaces i ++ it_constraint i.
Definition item_ok (i : item) : Prop :=
  dist_name (it_name i) ∧ spaces (it_spaces i) ∧
  (∀ c, c ∈ it_constraint i → c ≠ ","%char ∧ c ≠ ")"%char ∧ c ≠ newline) ∧
  (∀ c r, it_constraint i = c :: r → c ≠ " "%char) ∧
  (∀ c r, it_spaces i ++ it_constraint i = c :: r → is_word c = false ∧ c ≠ "."%char).
(** The body of a block: entries separated by commas, each after some blanks; blank parts do not count. *)
Definition line_blank (t : text) : Prop := blank t ∧ newline ∉ t.
Inductive body_says : list item → list text → Prop :=
  | body_nil : body_says [] []
  | body_blank b is ts : line_blank b → body_says is ts → body_says is (b :: ts)
  | body_item b i is ts : line_blank b → item_ok i → body_says is ts →
      body_says (i :: is) ((b ++ item_text i) :: ts).
(** Blocks: a kind, "(", a body, ")", separated by characters that are not letters, digits or "_". *)
Definition separator (t : text) : Prop := Forall (λ c, is_word c = false) t.
Inductive blocks_say : list (ckind * list item) → text → Prop :=
  | blocks_nil t : separator t → blocks_say [] t
  | blocks_cons sep kt k b is parts r bs : separator sep → constraint_synonym kt = Some k → blank b →
      body_says is parts → blocks_say bs r →
      blocks_say ((k, is) :: bs) (sep ++ kt ++ b ++ "("%char :: commas parts ++ ")"%char :: r).
(** The whole string. *)
Definition preamble_of (t n v : text) : Prop :=
  ∃ sp, t = n ++ sp ++ v ∧ dist_name n ∧ sp ≠ [] ∧ spaces sp ∧ version_text v.
Definition pretty_text (s n v : text) (bs : list (ckind * list item)) : Prop :=
  ∃ b pre b', s = b ++ pre ++ b' ∧ blank b ∧ blank b' ∧
    ((preamble_of pre n v ∧ bs = []) ∨
     (∃ p r, pre = p ++ ";"%char :: r ∧ preamble_of p n v ∧ blocks_say bs r)).
(** What the entries of a block declare: the names in order, each once, with all its constraints in the order of
    the string, as one conjunction. *)
Definition texts_for (n : text) (is : list item) : list text :=
  it_constraint <$> List.filter (λ i, bool_decide (it_name i = n)) is.
Definition declares (is : list item) (ds : list rdep) : Prop :=
  StronglySorted (λ a b, String.compare a b = Lt) (ds.*1) ∧
  ∀ d, d ∈ ds ↔ ∃ n, texts_for n is ≠ [] ∧ d = (to_s n, [texts_for n is]).
(** Of several blocks of one kind only the last one counts. *)
Definition last_of (k : ckind) (bs : list (ckind * list item)) : list item :=
  match last (List.filter (λ b : ckind * list item, bool_decide (b.1 = k)) bs) with Some b => b.2 | None => [] end.

(** Metadata that survives: every kind lists its names in order, each with one non-empty conjunction of
    constraint strings without the characters that have a meaning, and without blanks at the ends. *)
Definition plain_string (c : text) : Prop :=
  (∀ a, a ∈ c → a ≠ ","%char ∧ a ≠ ")"%char ∧ a ≠ "{"%char ∧ a ≠ "}"%char ∧ a ≠ newline) ∧
  (∀ a r, c = a :: r → is_white a = false) ∧ (∀ a r, rev c = a :: r → is_white a = false).
Definition canonical_deps (ds : list rdep) : Prop :=
  StronglySorted (λ a b, String.compare a b = Lt) (ds.*1) ∧
  ∀ d, d ∈ ds → dist_name (of_s d.1) ∧ ∃ conj, d.2 = [conj] ∧ conj ≠ [] ∧ ∀ c, c ∈ conj → plain_string c.
Definition canonical (p : metadata) : Prop :=
  dist_name (of_s (mt_name p)) ∧ canonical_deps (mt_requires p) ∧ canonical_deps (mt_conflicts p) ∧
  canonical_deps (mt_provides p) ∧ mt_name p ∉ (mt_provides p).*1.
