(** * Specification of the printed report: the text of a rule, in terms of packages. *)
From Verif Require Export SpecReport.
From Coq Require Import String.
Open Scope list_scope.

Section spec.
  (** How versions and requirements are printed. *)
  Context (vstr : version → string) (rstr : requirement → string) (po : pool).

  Definition label (p : package) : string := (p_name p +:+ "-" +:+ vstr (p_version p))%string.
  Definition between (sep : string) (l : list string) : string := String.concat sep l.
  (** First occurrences only. *)
  Definition once (l : list string) : list string := rev (remove_dups (rev l)).
  (** In the order of their ids. *)
  Definition ordered (ps : list package) : Prop := ∃ ids, Forall2 (has_id po) ps ids ∧ StronglySorted Z.le ids.
  (** "+a-1 | +b-2"; if [unique], no text is repeated. *)
  Definition listing (unique : bool) (ps : list package) : string :=
    let l := (λ p, ("+" +:+ label p)%string) <$> ps in between " | " (if unique then once l else l).

  Definition described (pkgs inst : list package) (m : modifiers) (jobs : list job) (unique : bool) (ru : rule) (text : string) : Prop :=
    match ru_reason ru with
    | job_install => ∃ j r ps, j ∈ jobs ∧ (j_kind j = JInstall ∨ j_kind j = JSoftUpdate) ∧ j_req j = Some r ∧ ru_reqs ru = [r] ∧
        ordered ps ∧ (∀ p, p ∈ ps ↔ p ∈ pkgs ∧ req_meets r p) ∧
        text = ("Install command rule (" +:+ listing unique ps +:+ ")")%string
    | job_remove => ∃ j r p, j ∈ jobs ∧ j_kind j = JRemove ∧ j_req j = Some r ∧ ru_reqs ru = [r] ∧ p ∈ pkgs ∧ req_meets r p ∧
        text = ("Remove command rule (-" +:+ label p +:+ ")")%string
    | job_update => ∃ j r p, j ∈ jobs ∧ j_kind j = JHardUpdate ∧ j_req j = Some r ∧ ru_reqs ru = [r] ∧ hard_choice pkgs inst r p ∧
        text = ("Update to latest command rule (+" +:+ label p +:+ ")")%string
    | package_requires => ∃ p d r qs, p ∈ pkgs ∧ d ∈ p_requires p ∧ from_constraints RInstall d = Ok r ∧
        because pkgs m jobs p r (ru_reqs ru) ∧
        ordered qs ∧ (∀ q, q ∈ qs ↔ q ∈ pkgs ∧ q ≠ p ∧ dep_meets m d q) ∧
        text = (label p +:+ " requires (" +:+ listing unique qs +:+ ")")%string
    | package_broken => ∃ p d r, p ∈ pkgs ∧ d ∈ p_requires p ∧ from_constraints RInstall d = Ok r ∧
        because pkgs m jobs p r (ru_reqs ru) ∧ (¬ ∃ q, q ∈ pkgs ∧ dep_meets m d q) ∧
        text = ("+" +:+ label p +:+ " was ignored because it depends on missing packages")%string
    | package_same_name => ∃ p q x, p ∈ pkgs ∧ q ∈ pkgs ∧ ordered [p; q] ∧ p ≠ q ∧ p_name p = p_name q ∧ (x = p ∨ x = q) ∧
        because pkgs m jobs x (Req RConflict (p_name p) [CAny]) (ru_reqs ru) ∧
        text = ("Can only install one of: (" +:+ listing unique [q; p] +:+ ")")%string
    | package_conflicts => ∃ p q x y d r, p ∈ pkgs ∧ q ∈ pkgs ∧ ordered [p; q] ∧ p ≠ q ∧ (x = p ∧ y = q ∨ x = q ∧ y = p) ∧
        d ∈ p_conflicts x ∧ conflict_meets d y ∧ from_constraints RConflict d = Ok r ∧ because pkgs m jobs x r (ru_reqs ru) ∧
        text = (label q +:+ " conflicts with +" +:+ label p)%string
    end.

  Definition newline : string := String (Ascii.ascii_of_nat 10) EmptyString.
  (** The requirements, if any, come first, on a line of their own. *)
  Definition rule_line (pkgs inst : list package) (m : modifiers) (jobs : list job) (unique : bool) (ru : rule) (text : string) : Prop :=
    ∃ d, described pkgs inst m jobs unique ru d ∧
      (ru_reqs ru = [] ∧ text = d ∨
       ru_reqs ru ≠ [] ∧
         text = ("Requirements: " +:+ between " <- " ((λ r, "'" +:+ rstr r +:+ "'")%string <$> ru_reqs ru) +:+ newline +:+ "    " +:+ d)%string).

  (** The text of a report whose parts are the clauses [parts]: one line (or two) for each clause, that of a rule
      with these literals. *)
  Definition part_text pkgs inst m jobs (part : list (list Z)) (text : string) : Prop :=
    ∃ lines, Forall2 (λ cl line, ∃ ru, (∀ l, l ∈ cl ↔ l ∈ ru_lits ru) ∧ ru_reqs ru ≠ [] ∧ rule_line pkgs inst m jobs true ru line) part lines ∧
      text = (between newline ("Conflicting requirements:"%string :: lines) +:+ newline)%string.
  Definition report_text pkgs inst m jobs (parts : list (list (list Z))) (text : string) : Prop :=
    ∃ texts, Forall2 (part_text pkgs inst m jobs) parts texts ∧ text = between newline texts.
End spec.
