(** * The texts of PolicyLogger (simplesat/sat/policy/policy_logger.py 33-102). *)
From Coq Require Import Ascii String.
From Verif Require Export PolicyLog Pool Dimacs.
Local Open Scope string_scope.
Local Open Scope list_scope.

(** [str.format]: ["{:<n}"] and ["{:>n}"] with a fill character; integers are aligned to the right by default, other values to the left. *)
Fixpoint fill_str (n : nat) (c : ascii) : string := match n with O => "" | S n => String c (fill_str n c) end.
Definition ljust (c : ascii) (n : nat) (s : string) : string := s +:+ fill_str (n - String.length s) c.
Definition rjust (n : nat) (s : string) : string := fill_str (n - String.length s) " " +:+ s.
(** [str] of None, True and False *)
Definition py_value (o : option bool) : string :=
  match o with None => "None" | Some true => "True" | Some false => "False" end.
Definition tab_str : string := String (ascii_of_N 9) "".

(** Simplified: [items] is the order of the items of a dict, which is the order of insertion in Python; [vstr] is [str(version)]. *)
Section text.
  Context (po : pool) (vstr : version → string) (items : changelog → list (Z * (option bool * option bool))).

  (** 44-52: _log_pretty_pkg_id; a plain PackageMetadata has no attribute [repository_info]. *)
  Definition pretty_pkg_id (k : Z) : res string :=
    p ← id_to_package po k;
    let name_ver := p_name p +:+ " " +:+ vstr (p_version p) in
    let fill : ascii := if decide (k mod 2 = 0) then " "%char else "."%char in
    let repo := default "installed" (p_repo p) in
    Ok (ljust fill 30 name_ver +:+ " " +:+ rjust 3 (str_of_Z k) +:+ " " +:+ repo).

  (** 33-42: _log_histogram, the text *)
  Definition histogram_line (kv : Z * nat) : res string :=
    pretty ← pretty_pkg_id kv.1;
    Ok (rjust 25 pretty +:+ " " +:+ rjust 5 (str_of_Z (Z.of_nat kv.2))).
  Definition histogram_text (suggestions : list Z) : res string :=
    lines ← mapM_res histogram_line (log_histogram suggestions);
    Ok (str_join nl_str lines).

  Context (with_assignments : bool) (m : log_meta).

  (** 59-61: pkg_key; 84: the items sorted by it, each with its key. *)
  Notation keyed := ((string * version) * (Z * (option bool * option bool)))%type.
  Definition log_key_lt (x y : keyed) : bool :=
    str_ltb x.1.1 y.1.1 || (bool_decide (x.1.1 = y.1.1) && ver_ltb x.1.2 y.1.2).
  Definition sorted_items (c : changelog) : res (list keyed) :=
    l ← mapM_res (λ pc : Z * (option bool * option bool), p ← id_to_package po pc.1; Ok ((p_name p, p_version p), pc)) (items c);
    Ok (sort_by log_key_lt l).

  (** 66-71: the header *)
  Definition header_line (pc : Z * (option bool * option bool)) : res (list string) :=
    name ← pretty_pkg_id pc.1;
    Ok (match pc.2.2 with Some _ => [name +:+ " : " +:+ py_value pc.2.2] | None => [] end).
  Definition header_text (c : changelog) : res string :=
    ls ← mapM_res header_line (items c);
    Ok (str_join nl_str (mjoin ls)).

  (** 89-93 *)
  Definition change_line (x : keyed) : res string :=
    pretty ← pretty_pkg_id x.2.1;
    Ok (ljust " " 10 (py_value x.2.2.1) +:+ " - " +:+ ljust " " 10 (py_value x.2.2.2) +:+ " : " +:+ pretty).
  (** 76-102: the body of the loop for suggestion number [i]; 94-95: the changes below the line, 96-97: the line itself, 98-99: BACKTRACKED. *)
  Definition decision_text (changes : list changelog) (i : nat) (sugg : Z) : res (list string) :=
    pretty ← pretty_pkg_id sugg;
    match changes !! S i with
    | None => Ok []
    | Some c =>
        sorted ← sorted_items c;
        p ← id_to_package po sugg;
        shown ← if with_assignments
                then mapM_res change_line (List.filter (λ x : keyed, bool_decide (x.1.1 ≠ p_name p)) sorted)
                else Ok [];
        let change_str := match shown with [] => "" | _ => str_join (nl_str +:+ tab_str) ("" :: shown) end in
        let R := if bool_decide (sugg ∈ lm_required m) then "R" else " " in
        let I := if bool_decide (sugg ∈ lm_installed m) then "I" else " " in
        Ok ((rjust 4 (str_of_Z (Z.of_nat i)) +:+ " " +:+ R +:+ I +:+ " - " +:+ pretty +:+ change_str)
            :: (if existsb (λ x : keyed, bool_decide (x.2.2.2 = None)) sorted then ["BACKTRACKED" +:+ nl_str] else []))
    end.
  Fixpoint decisions_text (changes : list changelog) (i : nat) (suggs : list Z) : res (list string) :=
    match suggs with
    | [] => Ok []
    | v :: r => l ← decision_text changes i v; ls ← decisions_text changes (S i) r; Ok (l ++ ls)
    end.
  (** 54-102: _log_report *)
  Definition log_report_text (suggestions : list Z) (changes : list changelog) : res string :=
    header ← match changes with
             | c :: _ => if with_assignments then h ← header_text c; Ok [h] else Ok []
             | [] => Ok []
             end;
    lines ← decisions_text changes 0 (Z.abs <$> suggestions);
    Ok (str_join nl_str (header ++ lines)).
End text.
