(** * Requirement, constraint and package strings (simplesat/constraints/parser.py, requirement.py). *)
From Verif Require Export Regex Constraints.
From Coq Require Import Ascii String.
Open Scope list_scope.

(** [str.strip()] and [str.split(c)], used in parser.py 136-157 and package_parser.py 38-42 *)
Fixpoint lstrip (t : text) : text :=
  match t with c :: r => if is_white c then lstrip r else t | [] => [] end.
Definition strip (t : text) : text := rev (lstrip (rev (lstrip t))).
Fixpoint split_on (sep : ascii) (t : text) : list text :=
  match t with
  | [] => [[]]
  | c :: r =>
      match split_on sep r with
      | [] => [[]]
      | w :: ws => if is_ch sep c then [] :: w :: ws else (c :: w) :: ws
      end
  end.

(** parser.py 18-29: the regular expressions. *)
Definition r_dist : matcher :=
  re_seq (re_not_ahead (re_char (is_ch ".")))
    (re_seq (re_plus (re_seq (re_opt (re_char (is_ch "."))) (re_plus (re_char is_word))))
            (re_not_behind (is_ch "."))).
Definition r_version : matcher :=
  re_seq (re_ahead (re_char is_digit))
    (re_seq r_dist
      (re_seq (re_opt (re_seq (re_char (is_ch "-")) (re_plus (re_char is_word)))) re_end)).
Definition r_ws : matcher := re_plus (re_char (is_ch " ")).

(** 61-124: the tokens; [_OPERATOR_TO_SPEC] maps the comparison tokens to the constraint classes. *)
Inductive cmp := OEqual | ONot | OGeq | OGt | OLeq | OLt | OUpstream.
Global Instance cmp_eq_dec : EqDecision cmp.
Proof. solve_decision. Defined.
Inductive token :=
  | TVersion (t : text)
  | TName (t : text)
  | TCmp (o : cmp) (t : text)
  | TAny (t : option text).          (* the value of AnyToken() is None *)
Definition tok_value (k : token) : option text :=
  match k with TVersion t | TName t | TCmp _ t => Some t | TAny t => t end.
Definition cmp_constr (o : cmp) : version → constr :=
  match o with
  | OEqual => CEqual | ONot => CNot | OGeq => CGeq | OGt => CGt | OLeq => CLeq | OLt => CLt
  | OUpstream => CUpstream
  end.

(** 31-59: the lexicons of the two scanners, in order. *)
Definition lexicon : Type := list (matcher * (text → option token)).
Definition op_rules : lexicon :=
  [(re_lit (of_s "=="), λ t, Some (TCmp OEqual t));
   (re_lit (of_s ">="), λ t, Some (TCmp OGeq t));
   (re_lit (of_s ">"), λ t, Some (TCmp OGt t));
   (re_lit (of_s "<="), λ t, Some (TCmp OLeq t));
   (re_lit (of_s "<"), λ t, Some (TCmp OLt t));
   (re_lit (of_s "!="), λ t, Some (TCmp ONot t));
   (re_lit (of_s "^="), λ t, Some (TCmp OUpstream t));
   (re_lit (of_s "*"), λ t, Some (TAny (Some t)));
   (r_ws, λ _, None)].
Definition constraints_lexicon : lexicon := (r_version, λ t, Some (TVersion t)) :: op_rules.
Definition requirements_lexicon : lexicon :=
  (r_version, λ t, Some (TVersion t)) :: (r_dist, λ t, Some (TName t)) :: op_rules.

(** Python's re.Scanner.scan (parser.py 31-58): at each position the first alternative that matches; stops if there is none
    or if it matched nothing. *)
Fixpoint first_match (lx : lexicon) (p : pos) : option (pos * option token) :=
  match lx with
  | [] => None
  | (m, act) :: lx =>
      match m p with
      | q :: _ => Some (q, act (consumed p q))
      | [] => first_match lx p
      end
  end.
Fixpoint scan_go (lx : lexicon) (fuel : nat) (p : pos) : list token * text :=
  match fuel with
  | O => ([], p.2)
  | S fuel =>
      match first_match lx p with
      | None => ([], p.2)
      | Some (q, o) =>
          if decide (q = p) then ([], p.2)
          else let '(toks, rest) := scan_go lx fuel q in
               (match o with Some k => k :: toks | None => toks end, rest)
      end
  end.
Definition scan (lx : lexicon) (t : text) : list token * text := scan_go lx (S (List.length t)) ([], t).

(** 136-157: _tokenize *)
Definition tokenize (lx : lexicon) (s : text) : res (list (list token)) :=
  let s := strip s in
  match s with
  | [] => Ok [[TAny None]]
  | _ =>
      foldM (λ acc part,
        let '(toks, rest) := scan lx (strip part) in
        match rest with
        | _ :: _ => Raise InvalidConstraint
        | [] => Ok (match toks with [] => acc | _ => acc ++ [toks] end)
        end) (split_on "," s) []
  end.

Section parse.
  (** The version factory (EnpkgVersion.from_string, external); it may raise. *)
  Context (vparse : text → res version).

  (** 127-133 _spec_factory and 160-163 _operator_factory.  The value of an AnyToken without value
      cannot occur here. *)
  Definition operator_factory (op v : token) : res constr :=
    match op with
    | TCmp o _ => w ← vparse (default [] (tok_value v)); Ok (cmp_constr o w)
    | _ => Raise InvalidConstraint
    end.

  (** 166-189: _RawConstraintsParser.parse *)
  Definition constraint_block (b : list token) : res constr :=
    match b with
    | [op; v] => operator_factory op v
    | [k] => match k with TAny _ => Ok CAny | _ => Raise AssertionError end
    | _ => Raise InvalidConstraint
    end.
  Definition parse_constraints (s : text) : res (list constr) :=
    blocks ← tokenize constraints_lexicon s; mapM_res constraint_block blocks.

  (** 192-233: _RawRequirementParser.parse; the result is a dict, in order of insertion.  The name is the
      value of the first token. *)
  Definition requirement_block (b : list token) : res (option text * constr) :=
    match b with
    | [d; op; v] =>
        match d, v with
        | TName n, TVersion _ => c ← operator_factory op v; Ok (Some n, c)
        | _, _ => Raise InvalidConstraint
        end
    | [d; op] => match op with TAny _ => Ok (tok_value d, CAny) | _ => Raise InvalidConstraint end
    | [d] => Ok (tok_value d, CAny)
    | _ => Raise InvalidConstraint
    end.
  Fixpoint named_add (d : list (option text * list constr)) (n : option text) (c : constr)
    : list (option text * list constr) :=
    match d with
    | [] => [(n, [c])]
    | (m, cs) :: r => if decide (m = n) then (m, cs ++ [c]) :: r else (m, cs) :: named_add r n c
    end.
  Definition parse_requirements (s : text) : res (list (option text * list constr)) :=
    blocks ← tokenize requirements_lexicon s;
    foldM (λ d b, '(n, c) ← requirement_block b; Ok (named_add d n c)) blocks [].

  (** requirement.py 126-156: _from_string.  The name is None for the empty string. *)
  Definition named_from_string (s : text) : res (option text * list constr) :=
    d ← parse_requirements s;
    match d with
    | [] => Raise AssertionError
    | [nc] => Ok nc
    | _ => Raise InvalidDependencyString
    end.
  (** Simplification: a requirement whose name is None is represented by TypeError. *)
  Definition req_from_string (cls : rclass) (s : text) : res requirement :=
    '(n, cs) ← named_from_string s;
    n ← of_option TypeError n;
    Ok (Req cls (to_s n) cs).

  (** requirement.py 19-37: parse_package_full_name; [re.match] with the name and the version. *)
  Definition full_name_matches (s : text) : list (text * text) :=
    let p0 : pos := ([], s) in
    p1 ← r_dist p0;
    p2 ← re_char (is_ch "-") p1 ++ re_plus (re_char is_white) p1;
    p3 ← r_version p2;
    _ ← re_end p3;
    [(consumed p0 p1, consumed p2 p3)].
  Definition parse_package_full_name (s : text) : res (text * text) :=
    of_option SolverException (head (full_name_matches s)).
  (** requirement.py 158-178: from_package_string *)
  Definition from_package_string (cls : rclass) (s : text) : res requirement :=
    '(n, v) ← parse_package_full_name s;
    w ← vparse v;
    Ok (Req cls (to_s n) [CEqual w]).

  (** requirement.py 56-111: from_constraints, on the strings of the metadata. *)
  Definition from_constraint_strings (cls : rclass) (d : string * list (list text)) : res requirement :=
    let '(name, disjunction) := d in
    if (1 <? List.length disjunction)%nat then Raise InvalidConstraint
    else
      cs ← mapM_res parse_constraints
             (mjoin ((λ conj, match conj with [] => [of_s "*"] | _ => conj end) <$> disjunction));
      Ok (Req cls name (mjoin cs)).
End parse.

(** [_from_string(package.name)], as in rules_generator.py 367 and transaction.py 163: the name of a package is
    parsed as a requirement string.  Simplification: a name that contains a comparison and a version (such as
    "a == 1") is refused by the version factory here. *)
Definition name_requirement (cls : rclass) (name : string) : res requirement :=
  req_from_string (λ _, Raise ValueError) cls (of_s name).

(** kinds.py: [__str__] of the constraints (24, 55, 63, 71, 79, 87, 95, 110); [vstr] prints a version,
    [ustr] an upstream version. *)
Section print.
  Context (vstr : version → text) (ustr : version → text).
  Definition constr_str (c : constr) : text :=
    match c with
    | CAny => []
    | CEqual v => of_s "== " ++ vstr v
    | CNot v => of_s "!= " ++ vstr v
    | CGeq v => of_s ">= " ++ vstr v
    | CGt v => of_s "> " ++ vstr v
    | CLeq v => of_s "<= " ++ vstr v
    | CLt v => of_s "< " ++ vstr v
    | CUpstream v => of_s "^= " ++ ustr v
    end.
  (** requirement.py 113-124: to_constraints *)
  Definition to_constraint_strings (r : requirement) : string * list (list text) :=
    (r_name r, [(λ c, match c with CAny => of_s "*" | _ => constr_str c end) <$> r_cons r]).
  (** requirement.py 206-218: __str__ *)
  Fixpoint text_join (sep : text) (l : list text) : text :=
    match l with
    | [] => []
    | [t] => t
    | t :: r => t ++ sep ++ text_join sep r
    end.
  Definition requirement_str (r : requirement) : text :=
    let parts := filter (λ t, t ≠ of_s "*")
      ((λ c, match c with CAny => of_s "*" | _ => constr_str c end) <$> r_cons r) in
    match parts with
    | [] => of_s (r_name r)
    | _ => of_s (r_name r) ++ of_s " " ++ text_join (of_s ", ") parts
    end.
End print.
