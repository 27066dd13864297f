(** * The unsatisfiability report (simplesat/sat/minisat.py 20-262, simplesat/errors.py 42-49,
      simplesat/rules_generator.py 83-140).

    [UNSAT] is built from the conflict clause, the learned clause and two dicts of the solver
    state; clause objects are heap indices of that state.  [Clause] objects are compared and hashed
    by identity.  *)
From Verif Require Export MiniSat Graph Rules.

(** minisat.py 166: [c.rule and c.rule._requirements] *)
Definition rule_of (s : solver) (i : nat) : option rule := s_heap s !! i ≫= c_rule.
Definition has_reqs (s : solver) (i : nat) : bool :=
  match rule_of s i with Some r => match ru_reqs r with [] => false | _ => true end | None => false end.
Definition learned_of (s : solver) (i : nat) : bool :=
  match s_heap s !! i with Some c => c_learned c | None => false end.
(** minisat.py 124 and 167: [clause.rule.reason.is_job] *)
Definition job_clause (s : solver) (i : nat) : res bool :=
  match rule_of s i with Some r => Ok (is_job (ru_reason r)) | None => Raise AttributeError end.

(** minisat.py 89-90: _key *)
Definition clause_key (s : solver) (i : nat) : list Z := sort_Z (lits_of s i).
(** The order of Python tuples and lists of integers. *)
Fixpoint lex_ltb (a b : list Z) : bool :=
  match a, b with
  | _, [] => false
  | [], _ => true
  | x :: a, y :: b => (x <? y) || ((x =? y) && lex_ltb a b)
  end.

(** minisat.py 212-235: clause_trail.  The state is the set [ignore] and the memo [_flat_clause_trails].
    Fuel bounds the recursion depth (Python's recursion limit is not modelled). *)
Notation memo := (gmap nat (list nat)).
Fixpoint clause_trail (s : solver) (fuel : nat) (c : nat) (st : gset nat * memo)
  : res (list nat * (gset nat * memo)) :=
  match fuel with
  | O => Raise OutOfFuel
  | S fuel =>
      let '(ign, ft) := st in
      if decide (c ∈ ign) then Ok ([], st)
      else
        let ign := {[c]} ∪ ign in
        match ft !! c with
        | Some l => Ok (l, (ign, ft))
        | None =>
            if learned_of s c then
              t ← of_option KeyError (s_ctrails s !! c);
              '(flat, (ign, ft)) ← foldM (λ '(acc, (ign, ft)) tc,
                '(l, (ign, ft)) ← (if learned_of s tc then clause_trail s fuel tc (ign, ft)
                                   else Ok ([tc], (ign, ft)));
                Ok (acc ++ l, ({[tc]} ∪ ign, ft))) t ([], (ign, ft));
              Ok (flat, (ign, <[c := flat]> ft))
            else Ok ([], (ign, <[c := []]> ft))
        end
  end.

(** minisat.py 183-210: clause_requirements.  The state adds the memo [_clause_requirements]; the calls of
    clause_trail start with an empty [ignore]. *)
Fixpoint clause_requirements (s : solver) (fuel : nat) (c : nat) (st : gset nat * (memo * memo))
  : res (list nat * (gset nat * (memo * memo))) :=
  match fuel with
  | O => Raise OutOfFuel
  | S fuel =>
      let '(ign, (cr, ft)) := st in
      if decide (c ∈ ign) then Ok ([], st)
      else
        let ign := {[c]} ∪ ign in
        match cr !! c with
        | Some l => Ok (l, (ign, (cr, ft)))
        | None =>
            let reqs := if has_reqs s c then [c] else [] in
            if learned_of s c then
              '(t, (_, ft)) ← clause_trail s fuel c (∅, ft);
              '(reqs, (ign, (cr, ft))) ← foldM (λ '(acc, st) c',
                '(l, st) ← clause_requirements s fuel c' st;
                Ok (acc ++ l, st)) t (reqs, (ign, (cr, ft)));
              Ok (reqs, (ign, (<[c := reqs]> cr, ft)))
            else Ok (reqs, (ign, (<[c := reqs]> cr, ft)))
        end
  end.

Section report.
  (** The iteration order of a Python set of clauses. *)
  Context (ord : gset nat → list nat).
  Context (s : solver).

  (** minisat.py 102-106: lit_to_clauses *)
  Definition lit_to_clauses (relevant : list nat) : gmap Z (gset nat) :=
    foldl (λ m c, foldl (λ m l, <[Z.abs l := {[c]} ∪ default ∅ (m !! Z.abs l)]> m) m (lits_of s c))
      ∅ relevant.
  (** minisat.py 108-112: get_neighbors.  [set.union] needs at least one argument. *)
  Definition get_neighbors (m : gmap Z (gset nat)) (c : nat) : res (list nat) :=
    sets ← mapM_res (λ l, of_option KeyError (m !! Z.abs l)) (lits_of s c);
    match sets with
    | [] => Raise TypeError
    | _ => Ok (sort_by (λ a b, lex_ltb (lits_of s a) (lits_of s b)) (ord (⋃ sets)))
    end.

  (** minisat.py 122-124: jobs_in_path *)
  Definition jobs_in_path (path : list nat) : res nat :=
    l ← mapM_res (job_clause s) path; Ok (length (filter (λ b, b = true) l)).

  (** minisat.py 126-133: the searches from each end to the following ones. *)
  Fixpoint all_searches (nb : nat → list nat) (fuel : nat) (ends : list nat) : res (list (list nat)) :=
    match ends with
    | [] => Ok []
    | [_] => Ok []
    | start :: rest =>
        ps ← breadth_first_search nb (λ x, x) fuel start (list_to_set rest : gset nat);
        more ← all_searches nb fuel rest;
        Ok (ps ++ more)
    end.

  (** minisat.py 143-151: keep a path if it mentions a clause not seen before. *)
  Fixpoint fresh_paths (seen : gset nat) (ps : list (list nat)) : list (list nat) :=
    match ps with
    | [] => []
    | p :: ps =>
        if forallb (λ c, bool_decide (c ∈ seen)) p then fresh_paths seen ps
        else p :: fresh_paths (list_to_set p ∪ seen) ps
    end.

  (** minisat.py 135-153: the paths with the most jobs, shortest first. *)
  Fixpoint first_group (l : list (nat * list nat)) : list (list nat) :=
    match l with
    | [] => []
    | (n, p) :: r => p :: match r with
                          | (m, _) :: _ => if (n =? m)%nat then first_group r else []
                          | [] => []
                          end
    end.
  Definition best_paths (raw : list (list nat)) : res (list (list nat)) :=
    keyed ← mapM_res (λ p, n ← jobs_in_path p; Ok (n, p)) raw;
    let group := first_group (sort_by (λ a b, (b.1 <? a.1)%nat) keyed) in
    Ok (fresh_paths ∅ (sort_by (λ a b, (length a <? length b)%nat) group)).

  (** minisat.py 92-153: _find_conflict_paths.  Simplification: the neighbours of all relevant clauses are
      computed before the search, so an exception of get_neighbors is raised even if the search
      would not have visited that clause.  [ends] has no duplicates (155-171). *)
  Definition find_conflict_paths (ends relevant : list nat) : res (list (list nat)) :=
    if decide (length ends < 2)%nat then Ok [ends]
    else
      let m := lit_to_clauses relevant in
      nbs ← mapM_res (λ c, l ← get_neighbors m c; Ok (c, l)) (fromkeys relevant);
      let nb c := default [] ((list_to_map nbs : gmap nat (list nat)) !! c) in
      raw ← all_searches nb (S (S (S (length relevant)))) ends;
      best_paths raw.

  (** minisat.py 155-171: _end_clauses.  [implicand in c] iterates over the literals. *)
  Definition end_clauses (relevant : list nat) (implicand : Z) : list nat :=
    let keep c := has_reqs s c && (bool_decide (implicand ∈ lits_of s c)
                    || match job_clause s c with Ok b => b | Raise _ => false end) in
    sort_by (λ a b, lex_ltb (clause_key s a) (clause_key s b))
      (ord (list_to_set (filter (λ c, keep c = true) relevant))).

  (** minisat.py 24-87: the attributes that are used after the construction. *)
  Record report := Report {
    rp_implicand : Z;
    rp_details : list nat;          (* _conflict_details *)
    rp_paths : list (list nat);     (* _conflict_paths *)
    rp_flat : memo }.               (* _flat_clause_trails *)

  (** minisat.py 24-87: UNSAT.__init__.  Every clause in [assigning_clauses] is an object, so the assertion on
      line 67 cannot fail. *)
  Definition unsat_report (conflict learned : nat) : res report :=
    let fuel := S (S (length (s_heap s))) in
    match lits_of s learned with
    | [x] =>
        let implicand := - x in
        ic ← of_option KeyError (s_reasons s !! Z.abs implicand);
        '(l1, (_, memos)) ← clause_requirements s fuel ic (∅, (∅, ∅));
        '(l2, (_, memos)) ← clause_requirements s fuel learned (∅, memos);
        '(l3, (_, memos)) ← clause_requirements s fuel conflict (∅, memos);
        let details := l1 ++ l2 ++ l3 in
        paths ← find_conflict_paths (end_clauses details implicand) details;
        Ok (Report implicand details paths (snd memos))
    | _ => Raise AssertionError
    end.

  (** rules are compared by their literals (rules_generator.py 144-152) *)
  Fixpoint fromkeys_by {A} (eq : A → A → bool) (l : list A) : list A :=
    match l with
    | [] => []
    | x :: r => x :: filter (λ y, eq x y = false) (fromkeys_by eq r)
    end.

  (** minisat.py 173-176: rules *)
  Definition report_rules (rp : report) : res (list rule) :=
    rs ← mapM_res (λ c, of_option AttributeError (rule_of s c)) (mjoin (rp_paths rp));
    Ok (fromkeys_by rule_eq rs).

  (** requirement.py 196-198: requirements are compared by name and constraints *)
  Definition req_eqb (a b : requirement) : bool :=
    bool_decide (r_name a = r_name b ∧ r_cons a = r_cons b).
  (** minisat.py 178-182: requirements *)
  Definition report_requirements (rp : report) : res (list requirement) :=
    rs ← report_rules rp;
    reqs ← mapM_res (λ r, of_option IndexError (ru_reqs r !! 0%nat)) rs;
    Ok (fromkeys_by req_eqb reqs).

  (** minisat.py 243-254: the clauses described for one path: setdefault keeps the first clause of each key. *)
  Definition path_clauses (rp : report) (path : list nat) : res (list nat) :=
    '(flat, _) ← foldM (λ '(acc, ft) c,
      '(l, (_, ft)) ← clause_trail s (S (S (length (s_heap s)))) c (∅, ft);
      Ok (acc ++ (match l with [] => [c] | _ => l end), ft)) path ([], rp_flat rp);
    Ok (fromkeys_by (λ a b, bool_decide (clause_key s a = clause_key s b)) flat).
End report.

(** ** The text of the report *)
(** [sep.join(l)] (minisat.py 239, 262, rules_generator.py 94-139) and [s[1:]] *)
Definition join (sep : string) (l : list string) : string := String.concat sep l.
Definition tail_str (t : string) : string := match t with EmptyString => EmptyString | String _ r => r end.

Section text.
  (** [str(version)] and [str(requirement)] *)
  Context (vstr : version → string) (rstr : requirement → string) (po : pool).

  (** pool.py 108-117: id_to_string *)
  Definition id_to_string (i : Z) : res string :=
    p ← of_option KeyError (zdict_get (po_i2p po) (Z.abs i));
    Ok ((if 0 <? i then "+" else "-") +:+ p_name p +:+ "-" +:+ vstr (p_version p)).

  (** rules_generator.py 91-97: _pretty_literals *)
  Definition pretty_literals (lits : list Z) (sign unique : bool) : res string :=
    parts ← mapM_res id_to_string lits;
    let parts := if sign then parts else tail_str <$> parts in
    Ok (join " | " (if unique then fromkeys parts else parts)).

  (** rules_generator.py 99-140: to_string *)
  Definition rule_desc (r : rule) (unique : bool) : res string :=
    t ← pretty_literals (ru_lits r) true unique;
    match ru_reason r with
    | job_install => Ok ("Install command rule (" +:+ t +:+ ")")
    | job_update => Ok ("Update to latest command rule (" +:+ t +:+ ")")
    | job_remove => Ok ("Remove command rule (" +:+ t +:+ ")")
    | package_same_name =>
        t ← pretty_literals (Z.abs <$> ru_lits r) true unique;
        Ok ("Can only install one of: (" +:+ t +:+ ")")
    | package_requires =>
        l ← of_option IndexError (ru_lits r !! 0%nat);
        src ← pretty_literals [Z.abs l] true unique;
        t ← pretty_literals (drop 1 (ru_lits r)) true unique;
        Ok (tail_str src +:+ " requires (" +:+ t +:+ ")")
    | package_conflicts =>
        a ← pretty_literals (take 1 (ru_lits r)) false false;
        b ← pretty_literals (Z.abs <$> drop 1 (ru_lits r)) true false;
        Ok (a +:+ " conflicts with " +:+ b)
    | package_broken =>
        l ← of_option IndexError (ru_lits r !! 0%nat);
        t ← id_to_string (Z.abs l);
        Ok (t +:+ " was ignored because it depends on missing packages")
    end.
  Definition nl : string := String (Ascii.ascii_of_nat 10) EmptyString.
  Definition rule_to_string (r : rule) (unique : bool) : res string :=
    d ← rule_desc r unique;
    Ok (match ru_reqs r with
        | [] => d
        | reqs => "Requirements: " +:+ join " <- " ((λ q, "'" +:+ rstr q +:+ "'") <$> reqs) +:+ nl +:+ "    " +:+ d
        end).

  (** minisat.py 237-241 and 243-262: to_string with a pool *)
  Definition path_string (s : solver) (rp : report) (path : list nat) : res string :=
    cs ← path_clauses s rp path;
    lines ← mapM_res (λ c, r ← of_option AttributeError (rule_of s c); rule_to_string r true) cs;
    Ok (join nl ("Conflicting requirements:"%string :: lines) +:+ nl).
  Definition report_to_string (s : solver) (rp : report) : res string :=
    ps ← mapM_res (path_string s rp) (rp_paths rp); Ok (join nl ps).
End text.

(** errors.py 42-49: SatisfiabilityError formats its message without a pool, as lists of literals. *)
Definition report_reason (s : solver) (rp : report) : res (list (list (list Z))) :=
  mapM_res (λ path, cs ← path_clauses s rp path; Ok (map (lits_of s) cs)) (rp_paths rp).
