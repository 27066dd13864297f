(** * Pretty package strings (simplesat/constraints/package_parser.py). *)
From Verif Require Export Parser Sorting.
From Coq Require Import Ascii String.
Open Scope list_scope.

(** package.py 8-11 and package_parser.py 18-23: the kinds of constraints and their names. *)
Inductive ckind := KRequires | KConflicts | KProvides.
Global Instance ckind_eq_dec : EqDecision ckind.
Proof. solve_decision. Defined.
Definition kind_text (k : ckind) : text :=
  match k with
  | KRequires => of_s "install_requires"
  | KConflicts => of_s "conflicts"
  | KProvides => of_s "provides"
  end.
Definition constraint_synonym (t : text) : option ckind :=
  if decide (t = of_s "depends") then Some KRequires
  else if decide (t = of_s "install_requires") then Some KRequires
  else if decide (t = of_s "conflicts") then Some KConflicts
  else if decide (t = of_s "provides") then Some KProvides
  else None.

(** The metadata of a package before the constraint strings are parsed (package.py 73-114): names with a
    disjunction of conjunctions of constraint strings. *)
Notation rdep := (string * list (list text))%type.
Record metadata := Meta {
  mt_name : string; mt_version : version;
  mt_requires : list rdep; mt_conflicts : list rdep; mt_provides : list rdep }.

(** A regular expression with groups: the end positions with the texts of the groups.  [finditer]: at each
    position the first match; it goes on after the match, or at the next character if there is none.
    The expressions used here do not match the empty string. *)
Definition grouped (X : Type) : Type := pos → list (pos * X).
Fixpoint find_go {X} (m : grouped X) (fuel : nat) (p : pos) : list X :=
  match fuel with
  | O => []
  | S fuel =>
      match m p with
      | (q, x) :: _ => x :: find_go m fuel q
      | [] => match p.2 with [] => [] | c :: r => find_go m fuel (c :: p.1, r) end
      end
  end.
Definition finditer {X} (m : grouped X) (t : text) : list X := find_go m (S (List.length t)) ([], t).

(** 8-16: the three expressions.  "." is any character but a newline. *)
Definition r_block : grouped (text * text) := λ p,
  p1 ← re_plus (re_char is_word) p;
  p2 ← re_star (re_char is_white) p1;
  p3 ← re_char (is_ch "(") p2;
  p4 ← re_lazy (re_char (λ c, negb (is_ch newline c))) p3;
  p5 ← re_char (is_ch ")") p4;
  [(p5, (consumed p p1, consumed p3 p4))].
Definition r_constraint : grouped (text * text) := λ p,
  p1 ← r_dist p;
  p2 ← re_star (re_char (is_ch " ")) p1;
  p3 ← re_star (re_char (λ c, negb (is_ch "," c))) p2;
  [(p3, (consumed p p1, consumed p2 p3))].
Definition r_package : grouped (text * text) := λ p,
  p1 ← r_dist p;
  p2 ← r_ws p1;
  p3 ← r_version p2;
  [(p3, (consumed p p1, consumed p2 p3))].

(** [s.split(sep, 1)]: what is before the first separator, and what is after it. *)
Fixpoint split_first (sep : ascii) (t : text) : text * option text :=
  match t with
  | [] => ([], None)
  | c :: r => if is_ch sep c then ([], Some r) else let '(a, b) := split_first sep r in (c :: a, b)
  end.

(** 54-58: the constraint strings of a block, collected by name (a dict, in order of insertion). *)
Fixpoint dist_add (d : list (text * list text)) (n c : text) : list (text * list text) :=
  match d with
  | [] => [(n, [c])]
  | (m, cs) :: r => if decide (m = n) then (m, cs ++ [c]) :: r else (m, cs) :: dist_add r n c
  end.
(** 61-68: sorted tuples; the names of a dict are distinct, so they decide. *)
Definition rdep_lt (a b : rdep) : bool := str_ltb a.1 b.1.
Definition block_deps (constraints : text) : list rdep :=
  sort_by rdep_lt ((λ nc : text * list text, (to_s nc.1, [nc.2]))
    <$> foldl (λ d nc, dist_add d nc.1 nc.2) [] (finditer r_constraint constraints)).
(** 59: [pkg[kind] = constraints] *)
Fixpoint kind_set (d : list (ckind * list rdep)) (k : ckind) (v : list rdep) : list (ckind * list rdep) :=
  match d with
  | [] => [(k, v)]
  | (k', v') :: r => if decide (k' = k) then (k, v) :: r else (k', v') :: kind_set r k v
  end.
Definition kind_get (d : list (ckind * list rdep)) (k : ckind) : list rdep :=
  match list_find (λ kv, kv.1 = k) d with Some (_, kv) => kv.2 | None => [] end.

(** 133-142: _parse_preamble *)
Definition parse_preamble (t : text) : res (text * text) :=
  match r_package ([], t) with
  | [] => Raise ValueError
  | (q, g) :: _ => if (List.length q.1 =? List.length t)%nat then Ok g else Raise ValueError
  end.

Section parse.
  Context (vparse : text → res version).
  (** 31-74: parse *)
  Definition parse_blocks (t : text) : res (list (ckind * list rdep)) :=
    foldM (λ d kc,
      k ← of_option ValueError (constraint_synonym kc.1);
      Ok (kind_set d k (block_deps kc.2))) (finditer r_block t) [].
  Definition parse_pretty (s : text) : res (text * version * list (ckind * list rdep)) :=
    let '(preamble, blocks) := split_first ";" (strip s) in
    d ← parse_blocks (default [] blocks);
    '(n, v) ← parse_preamble preamble;
    w ← vparse v;
    Ok (n, w, d).
  (** 76-92: parse_to_package *)
  Definition parse_to_package (s : text) : res metadata :=
    '(n, w, d) ← parse_pretty s;
    Ok (Meta (to_s n) w (kind_get d KRequires) (kind_get d KConflicts) (kind_get d KProvides)).
End parse.

Section print.
  Context (vstr : version → text).
  (** 95-110: constraints_to_pretty_strings *)
  Definition pretty_strings (ds : list rdep) : list text :=
    d ← ds; conj ← d.2; c ← conj; [strip (of_s d.1 ++ of_s " " ++ c)].
  (** 121-129: one kind; nothing is added for an empty tuple. *)
  Definition pretty_block (k : ckind) (ds : list rdep) : text :=
    match ds with
    | [] => []
    | _ => of_s "; " ++ kind_text k ++ of_s " (" ++ text_join (of_s ", ") (pretty_strings ds) ++ of_s ")"
    end.
  (** 113-130: package_to_pretty_string.  [package.provides] is the package's own name and [_provides]; the own
      name is left out.  Simplification: the constraints become part of a template that is formatted, so braces
      in them would be interpreted; the model refuses them. *)
  Definition package_to_pretty_string (p : metadata) : res text :=
    let provides := filter (λ d : rdep, d.1 ≠ mt_name p) ((mt_name p, [[of_s "*"]]) :: mt_provides p) in
    let blocks := pretty_block KRequires (mt_requires p) ++ pretty_block KConflicts (mt_conflicts p)
                  ++ pretty_block KProvides provides in
    if existsb (λ c, is_ch "{" c || is_ch "}" c) blocks then Raise NotImplementedError
    else Ok (of_s (mt_name p) ++ of_s " " ++ vstr (mt_version p) ++ blocks).
End print.
