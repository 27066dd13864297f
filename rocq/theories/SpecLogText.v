(** * How to read the report of a PolicyLogger. *)
From Coq Require Import Ascii String.
From Verif Require Import External SpecExternal SpecConstraints.
From Verif Require Export PolicyLog.
Local Open Scope string_scope.
Local Open Scope list_scope.

(** [text.split("\n")]; the words of a line are [line.split()] ([py_words]). *)
Fixpoint text_lines (s : string) : list string :=
  match s with
  | "" => [""]
  | String c r =>
      if decide (c = ascii_of_N 10) then "" :: text_lines r
      else match text_lines r with [] => [String c ""] | l :: ls => String c l :: ls end
  end.
Definition indented (line : string) : Prop := ∃ r, line = String (ascii_of_N 9) r.
Fixpoint dots (n : nat) : string := match n with O => "" | S n => String "." (dots n) end.
Definition word_of (o : option bool) : string :=
  match o with None => "None" | Some true => "True" | Some false => "False" end.

Section layout.
  Context (po : pool) (vstr : version → string).
  (** Four words for a package: name, version (with dots behind it in some lines), id, repository. *)
  Definition names_package (k : Z) (ws : list string) : Prop :=
    ∃ p n, id_to_package po k = Ok p ∧
      ws = [p_name p; vstr (p_version p) +:+ dots n; numeral k; default "installed" (p_repo p)].
  (** "numpy 1.8.1-1...   7 remote : True" *)
  Definition header_says (line : string) (kb : Z * bool) : Prop :=
    ∃ ws, names_package kb.1 ws ∧ py_words line = ws ++ [":"; word_of (Some kb.2)].
  (** "<tab>None - True : numpy 1.8.1-1...   7 remote" *)
  Definition change_says (line : string) (c : Z * (option bool * option bool)) : Prop :=
    indented line ∧ ∃ ws, names_package c.1 ws ∧ py_words line = [word_of c.2.1; "-"; word_of c.2.2; ":"] ++ ws.
  (** "   3 R  - numpy 1.8.1-1...   7 remote" *)
  Definition flags (R I : bool) : list string :=
    match R, I with true, true => ["RI"] | true, false => ["R"] | false, true => ["I"] | false, false => [] end.
  Definition decision_says (line : string) (i : nat) (R I : bool) (k : Z) : Prop :=
    ¬ indented line ∧ ∃ ws, names_package k ws ∧ py_words line = [numeral (Z.of_nat i)] ++ flags R I ++ ["-"] ++ ws.

  (** By name, and by version for one name. *)
  Definition not_after (x y : Z) : Prop :=
    ∃ p q, id_to_package po x = Ok p ∧ id_to_package po y = Ok q ∧
      (String.compare (p_name p) (p_name q) = Lt ∨ (p_name p = p_name q ∧ vle (p_version p) (p_version q))).
  Definition lists_changes (lines : list string) (c : changelog) : Prop :=
    ∃ chs, chs ≡ₚ map_to_list c ∧ StronglySorted not_after chs.*1 ∧ Forall2 change_says lines chs.
  (** A decision: its line, the changes, and two lines "BACKTRACKED" and "" *)
  Definition reports (lines : list string) (l : log_line) : Prop :=
    ∃ first below, lines = first :: below ++ (if ll_backtracked l then ["BACKTRACKED"; ""] else []) ∧
      decision_says first (ll_index l) (ll_required l) (ll_installed l) (ll_package l) ∧ lists_changes below (ll_changes l).
  (** The header: the new values of its entries, one per line, or one empty line. *)
  Definition header_lists (lines : list string) (h : option changelog) : Prop :=
    match h with
    | None => lines = []
    | Some c => ∃ chs : list (Z * bool), NoDup chs.*1 ∧ (∀ k b, (k, b) ∈ chs ↔ ∃ old, c !! k = Some (old, Some b)) ∧
        ((chs = [] ∧ lines = [""]) ∨ (chs ≠ [] ∧ Forall2 header_says lines chs))
    end.
  Definition report_says (text : string) (h : option changelog) (ls : list log_line) : Prop :=
    ∃ head body, header_lists head h ∧ Forall2 reports body ls ∧
      text_lines text = match head ++ mjoin body with [] => [""] | lines => lines end.

  (** The histogram: one line per package, with the number of decisions behind it. *)
  Definition count_says (line : string) (kn : Z * nat) : Prop :=
    ∃ ws, names_package kn.1 ws ∧ py_words line = ws ++ [numeral (Z.of_nat kn.2)].
End layout.
(** Words without blanks. *)
Definition one_word (s : string) : Prop := s ≠ "" ∧ ∀ c, c ∈ list_ascii_of_string s → is_white c = false.
(** The packages a log mentions are known and their names, versions and repositories are words. *)
Definition plain_pool (po : pool) (vstr : version → string) : Prop :=
  ∀ k p, id_to_package po k = Ok p → one_word (p_name p) ∧ one_word (vstr (p_version p)) ∧ one_word (default "installed" (p_repo p)).
Definition name_of (po : pool) (k : Z) : res string := p ← id_to_package po k; Ok (p_name p).
