(** * Regular expressions of Python's [re] module, as far as simplesat uses them.

    A matcher gets the characters before the current position (last one first) and those after it, and
    returns the positions at which a match can end, in the order in which the backtracking
    engine tries them; the first one is what [re] reports.

    Text is a list of characters with the codes 0 to 255 (ASCII and Latin-1), classified as Python classifies Unicode characters.
    Simplification: characters beyond these do not occur. *)
From Verif Require Export Base.
From Coq Require Import Ascii String.
Open Scope list_scope.

Notation text := (list ascii).
Notation of_s := list_ascii_of_string.
Notation to_s := string_of_list_ascii.

Definition pos : Type := text * text.
Definition matcher : Type := pos → list pos.

(** Character classes: backslash d, w, s.  [is_alpha]: letters, and what Unicode calls numeric but not a decimal digit (superscripts, fractions). *)
Definition code (c : ascii) : nat := nat_of_ascii c.
Definition is_digit (c : ascii) : bool := (48 <=? code c)%nat && (code c <=? 57)%nat.
Definition is_alpha (c : ascii) : bool :=
  ((65 <=? code c)%nat && (code c <=? 90)%nat) || ((97 <=? code c)%nat && (code c <=? 122)%nat)
  || existsb (Nat.eqb (code c)) [170; 178; 179; 181; 185; 186; 188; 189; 190]%nat
  || ((192 <=? code c)%nat && negb (code c =? 215)%nat && negb (code c =? 247)%nat).
Definition is_word (c : ascii) : bool := is_digit c || is_alpha c || (code c =? 95)%nat.
Definition is_white (c : ascii) : bool :=
  ((9 <=? code c)%nat && (code c <=? 13)%nat) || ((28 <=? code c)%nat && (code c <=? 32)%nat)
  || (code c =? 133)%nat || (code c =? 160)%nat.
Definition is_ch (a : ascii) (c : ascii) : bool := bool_decide (a = c).

(** One character of a class. *)
Definition re_char (f : ascii → bool) : matcher := λ p,
  match p.2 with
  | c :: r => if f c then [(c :: p.1, r)] else []
  | [] => []
  end.
(** A literal string. *)
Fixpoint re_lit (l : text) : matcher := λ p,
  match l with
  | [] => [p]
  | c :: l => q ← re_char (is_ch c) p; re_lit l q
  end.
(** Concatenation, [r?], [(?=r)], [(?!r)], [(?<!c)], [$] (the end, or before a final newline). *)
Definition re_seq (a b : matcher) : matcher := λ p, q ← a p; b q.
Definition re_opt (a : matcher) : matcher := λ p, a p ++ [p].
Definition re_ahead (a : matcher) : matcher := λ p, match a p with [] => [] | _ => [p] end.
Definition re_not_ahead (a : matcher) : matcher := λ p, match a p with [] => [p] | _ => [] end.
Definition re_not_behind (f : ascii → bool) : matcher := λ p,
  match p.1 with c :: _ => if f c then [] else [p] | [] => [p] end.
Definition newline : ascii := ascii_of_nat 10.
Definition re_end : matcher := λ p,
  match p.2 with [] => [p] | [c] => if is_ch newline c then [p] else [] | _ => [] end.

(** [r+] and [r*], greedy; [r*?].  Every repeated matcher here consumes a character, so the length of what
    follows bounds the number of rounds. *)
Fixpoint plus_go (n : nat) (a : matcher) : matcher := λ p,
  match n with
  | O => []
  | S n => q ← a p; plus_go n a q ++ [q]
  end.
Definition re_plus (a : matcher) : matcher := λ p, plus_go (List.length p.2) a p.
Definition re_star (a : matcher) : matcher := λ p, re_plus a p ++ [p].
Fixpoint lazy_go (n : nat) (a : matcher) : matcher := λ p,
  p :: match n with
       | O => []
       | S n => q ← a p; lazy_go n a q
       end.
Definition re_lazy (a : matcher) : matcher := λ p, lazy_go (List.length p.2) a p.

(** The text between two positions. *)
Definition consumed (p q : pos) : text := rev (take (List.length q.1 - List.length p.1) q.1).
