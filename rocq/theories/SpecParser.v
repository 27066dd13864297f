(** * Specification of the strings simplesat understands. *)
From Verif Require Export Parser.
From Coq Require Import Ascii String.
Open Scope list_scope.

(** Words, and words separated by single dots. *)
Definition word (w : text) : Prop := w ≠ [] ∧ Forall (λ c, is_word c = true) w.
Inductive dotted : text → Prop :=
  | dotted_word w : word w → dotted w
  | dotted_dot w t : word w → dotted t → dotted (w ++ "."%char :: t).

(** A distribution name; a version: a dotted name that starts with a digit, then possibly "-" and a build. *)
Definition dist_name (t : text) : Prop := dotted t.
Definition version_text (t : text) : Prop :=
  ∃ u, dotted u ∧ (∃ c r, u = c :: r ∧ is_digit c = true) ∧
    (t = u ∨ ∃ b, word b ∧ t = u ++ "-"%char :: b).
Definition blank (t : text) : Prop := Forall (λ c, is_white c = true) t.
Definition spaces (t : text) : Prop := Forall (λ c, c = " "%char) t.

(** A package full name: the name, "-" or white space, the version (and possibly a final newline). *)
Definition full_name_of (s n v : text) : Prop :=
  ∃ sep tl, s = n ++ sep ++ v ++ tl ∧ dist_name n ∧ version_text v ∧
    (sep = ["-"%char] ∨ sep ≠ [] ∧ blank sep) ∧ (tl = [] ∨ tl = [newline]).

Definition op_text (o : cmp) : text :=
  match o with
  | OEqual => of_s "==" | ONot => of_s "!=" | OGeq => of_s ">=" | OGt => of_s ">" | OLeq => of_s "<="
  | OLt => of_s "<" | OUpstream => of_s "^="
  end.
(** "*" and the comparison operators: the requirement parser takes these as package names, too. *)
Definition symbol (t : text) : Prop := t = of_s "*" ∨ ∃ o, t = op_text o.

(** Parts joined by commas. *)
Fixpoint commas (parts : list text) : text :=
  match parts with
  | [] => []
  | [t] => t
  | t :: r => t ++ ","%char :: commas r
  end.

(** One part of a requirement string: what it says about the package [n]. *)
Inductive req_part (vparse : text → res version) (n : text) : constr → text → Prop :=
  | part_bare : dist_name n ∨ version_text n ∨ symbol n → req_part vparse n CAny n
  | part_star sp : dist_name n ∨ symbol n → spaces sp → req_part vparse n CAny (n ++ sp ++ of_s "*")
  | part_op sp o sp' v t : dist_name n → spaces sp → spaces sp' → version_text t → vparse t = Ok v →
      req_part vparse n (cmp_constr o v) (n ++ sp ++ op_text o ++ sp' ++ t).
(** One part of a constraint string: "*", or an operator followed by any single token, which is handed to
    the version factory. *)
Inductive constr_part (vparse : text → res version) : constr → text → Prop :=
  | cpart_star : constr_part vparse CAny (of_s "*")
  | cpart_op o sp v t : spaces sp → version_text t → vparse t = Ok v →
      constr_part vparse (cmp_constr o v) (op_text o ++ sp ++ t)
  | cpart_odd o sp v t : spaces sp → symbol t → vparse t = Ok v →
      (o = OGt ∨ o = OLt → ∀ r, sp ++ t ≠ "="%char :: r) →
      constr_part vparse (cmp_constr o v) (op_text o ++ sp ++ t).
(** The parts of a string: blank ones do not count. *)
Inductive parts_say (P : constr → text → Prop) : list constr → list text → Prop :=
  | parts_nil : parts_say P [] []
  | parts_blank b cs ts : blank b → parts_say P cs ts → parts_say P cs (b :: ts)
  | parts_one b c t b' cs ts : blank b → P c t → blank b' → parts_say P cs ts →
      parts_say P (c :: cs) ((b ++ t ++ b') :: ts).

(** [s] is a requirement on the package [n] with the constraints [cs]. *)
Definition requirement_text (vparse : text → res version) (n : text) (cs : list constr) (s : text) : Prop :=
  cs ≠ [] ∧ ∃ parts, s = commas parts ∧ parts_say (req_part vparse n) cs parts.
(** [s] is a constraint string with the constraints [cs]; the empty one allows everything. *)
Definition constraint_text (vparse : text → res version) (cs : list constr) (s : text) : Prop :=
  (blank s ∧ cs = [CAny]) ∨
  (¬ blank s ∧ ∃ parts, s = commas parts ∧ parts_say (constr_part vparse) cs parts).

(** The metadata form: a disjunction of conjunctions of constraint strings, and what each says. *)
Definition metadata_says (vparse : text → res version) (strs : list (list text)) (says : list (list (list constr))) : Prop :=
  Forall2 (Forall2 (λ s cs, constraint_text vparse cs s)) strs says.

(** Printing and reading versions fit together for the versions of a constraint: a version reads back as itself, an
    upstream version as some version with that upstream part. *)
Definition reads_back (vparse : text → res version) (vstr ustr : version → text) (c : constr) : Prop :=
  match c with
  | CAny => True
  | CUpstream v => version_text (ustr v) ∧ ∃ w, vparse (ustr v) = Ok w ∧ upstream w = upstream v
  | CEqual v | CNot v | CGeq v | CGt v | CLeq v | CLt v => version_text (vstr v) ∧ vparse (vstr v) = Ok v
  end.
(** The number of constraints other than Any. *)
Definition version_constraints (cs : list constr) : nat :=
  List.length (List.filter (λ c, match c with CAny => false | _ => true end) cs).
