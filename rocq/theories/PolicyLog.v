(** * The log kept by PolicyLogger and its report (simplesat/sat/policy/policy_logger.py). *)
From Verif Require Export Policy Sorting.

(** One entry of [_log_assignment_changes]: variable -> (old value, new value). *)
Notation changelog := (gmap Z (option bool * option bool)).
(** The state of the wrapper, see [logged_policy]: the inner policy, [_log_suggestions] and
    [_log_assignment_changes]. *)
Notation logged P := (P * list Z * list changelog)%type.

(** policy_logger.py 28-31: add_requirements, on the parts of the logger that the report reads. *)
Record log_meta := LogMeta { lm_required : list Z; lm_installed : gset Z }.
(** 12, 15: [_log_installed] starts as [policy._installed_ids] if there is such an attribute;
    neither policy of the package has one, so the set is empty. *)
Definition log_meta_new : log_meta := LogMeta [] ∅.
Definition log_add_requirements (ids : list Z) (m : log_meta) : log_meta :=
  LogMeta (lm_required m ++ ids) (lm_installed m ∖ list_to_set ids).

(** 33-42: _log_histogram: Counter(ids).most_common(), without the text.  Counter counts occurrences and keeps
    the order of first occurrences; most_common() sorts by count, largest first, and is stable. *)
Definition count_occ_Z (l : list Z) (x : Z) : nat := length (filter (λ y, y = x) l).
Definition counter (l : list Z) : list (Z * nat) := (λ x, (x, count_occ_Z l x)) <$> fromkeys l.
Definition most_common (c : list (Z * nat)) : list (Z * nat) :=
  sort_by (λ a b, (b.2 <? a.2)%nat) c.
Definition log_histogram (suggestions : list Z) : list (Z * nat) :=
  most_common (counter (Z.abs <$> suggestions)).

(** 54-102: _log_report(with_assignments), as data instead of text: a header (66-71) with the changes of the first
    entry, and one line per suggestion (89-100), which carries the flags R and I, the changes
    listed below it (a map: their order in the text is not modelled) and whether a line "BACKTRACKED" follows.
    [name] is the name of [pool.id_to_package(id)], which raises ValueError for an unknown id (pool.py 100-106). *)
Record log_line := LogLine {
  ll_index : nat; ll_required : bool; ll_installed : bool; ll_package : Z;
  ll_changes : changelog; ll_backtracked : bool }.
Section report.
  Context (name : Z → res string) (with_assignments : bool) (m : log_meta).

  Definition known_keys (c : changelog) : res unit := foldM (λ _ k, n ← name k; Ok ()) (map_to_list c).*1 ().

  (** 88: [pkg_name(pkg) != pkg_name(sugg)] *)
  Definition other_name (n : string) (k : Z) : bool :=
    match name k with Ok n' => bool_decide (n' ≠ n) | Raise _ => false end.

  (** 76-102: the body of the loop for suggestion number [i]; the IndexError of [_log_assignment_changes[i + 1]]
      is caught (101-102): nothing is reported. *)
  Definition report_line (changes : list changelog) (i : nat) (sugg : Z) : res (list log_line) :=
    n ← name sugg;
    match changes !! S i with
    | None => Ok []
    | Some c =>
        _ ← known_keys c;                                     (* 84: the sort keys *)
        let shown := if with_assignments
                     then filter (λ kc, other_name n kc.1 = true) c else ∅ in
        Ok [LogLine i (bool_decide (sugg ∈ lm_required m)) (bool_decide (sugg ∈ lm_installed m)) sugg shown
              (existsb (λ kc, bool_decide (kc.2.2 = None)) (map_to_list c))]
    end.
  Fixpoint report_lines (changes : list changelog) (i : nat) (suggs : list Z) : res (list log_line) :=
    match suggs with
    | [] => Ok []
    | v :: r => l ← report_line changes i v; ls ← report_lines changes (S i) r; Ok (l ++ ls)
    end.

  Definition log_report (suggestions : list Z) (changes : list changelog) : res (option changelog * list log_line) :=
    header ← match changes with
             | c :: _ => if with_assignments
                         then _ ← known_keys c; Ok (Some (filter (λ kc, kc.2.2 ≠ None) c)) else Ok None
             | [] => Ok None
             end;
    lines ← report_lines changes 0 (Z.abs <$> suggestions);
    Ok (header, lines).
End report.
