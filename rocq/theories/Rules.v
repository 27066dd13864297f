(** * Rule generation (simplesat/rules_generator.py) *)
From Verif Require Export Pool Request Parser.

(** [max(l, key=...)], [lt a b] meaning [key(a) < key(b)]: the first maximal element. *)
Definition max_first {A} (lt : A → A → bool) (x : A) (l : list A) : A :=
  foldl (λ best y, if lt best y then y else best) x l.

(** 156-164: the mutable attributes: _rules_set (keys of an OrderedDict) and added_package_ids. *)
Record gst := Gst { g_rules : list rule; g_added : gset Z }.

(** 144-152: rules are compared by their literals. *)
Definition rule_eq (r s : rule) : bool := bool_decide (ru_lits r = ru_lits s).
(** 292-306: _add_rule *)
Definition add_rule (st : gst) (r : rule) : gst :=
  if existsb (rule_eq r) (g_rules st) then st else Gst (g_rules st ++ [r]) (g_added st).

Section gen.
  (** 155-164: the attributes that do not change: pool, installed_package_ids, strict. *)
  Context (po : pool) (installed : list (Z * package)) (strict : bool).

  (** A work queue entry: a package and the stack of requirements that led to it. *)
  Notation work := (package * option (list requirement))%type.

  (** 184-213: _create_dependency_rule *)
  Definition dependency_rule (p : package) (deps : list package) (reqs : option (list requirement))
    : res rule :=
    pid ← package_id po p;
    ids ← mapM_res (package_id po) (filter (λ q, pkg_eq q p = false) deps);
    Ok (mk_rule (- pid :: ids) package_requires reqs).

  (** 215-243: _create_conflicts_rule; [None] if issuer and provider are equal *)
  Definition conflicts_rule (p q : package) (t : rule_type) (reqs : option (list requirement))
    : res (option rule) :=
    if pkg_eq p q then Ok None
    else pid ← package_id po p; qid ← package_id po q; Ok (Some (mk_rule [- pid; - qid] t reqs)).

  (** 245-265: _create_install_one_of_rule *)
  Definition one_of_rule (ps : list package) (t : rule_type) (reqs : option (list requirement)) : res rule :=
    ids ← mapM_res (package_id po) ps; Ok (mk_rule ids t reqs).

  (** 267-287: _create_remove_rule *)
  Definition remove_rule (p : package) (t : rule_type) (reqs : option (list requirement)) : res rule :=
    pid ← package_id po p; Ok (mk_rule [- pid] t reqs).

  (** 333-346 and 400-408: what happens for a missing dependency or conflict in strict mode.
      [len(requirements)] is a TypeError for None. *)
  Definition strict_check (e : exn) (reqs : option (list requirement)) : res () :=
    if strict then
      match reqs with
      | None => Raise TypeError
      | Some rs => if (length rs =? 1)%nat then Raise e else Ok ()
      end
    else Ok ().

  (** 315-319, 374-377, 386-389: combined_requirements *)
  Definition combine (reqs : option (list requirement)) (r : requirement) : option (list requirement) :=
    (λ rs, rs ++ [r]) <$> reqs.

  (** 308-359: _add_install_requires_rules; returns the new state and the entries to queue. *)
  Fixpoint requires_rules (p : package) (reqs : option (list requirement)) (deps : list cdep)
      (acc : list work) (st : gst) : res (gst * list work) :=
    match deps with
    | [] => Ok (st, acc)
    | c :: rest =>
        preq ← from_constraints RInstall c;
        cands ← what_provides po preq true;
        let comb := combine reqs preq in
        match cands with
        | [] =>
            _ ← strict_check MissingInstallRequires reqs;
            r ← remove_rule p package_broken comb;
            Ok (add_rule st r, [])
        | _ =>
            r ← dependency_rule p cands comb;
            requires_rules p reqs rest (acc ++ ((λ q, (q, comb)) <$> cands)) (add_rule st r)
        end
    end.

  (** 378-383 and 414-418: adding the conflict rules for a list of providers. *)
  Definition add_conflicts (p : package) (t : rule_type) (comb : option (list requirement))
      (providers : list package) (st : gst) : res gst :=
    foldM (λ st q,
      o ← conflicts_rule p q t comb;
      Ok (match o with Some r => add_rule st r | None => st end)) providers st.

  (** 361-418: _add_conflicts_rules *)
  Definition same_name_rules (p : package) (reqs : option (list requirement)) (st : gst) : res gst :=
    preq ← name_requirement RConflict (p_name p);
    providers ← what_provides po preq true;
    add_conflicts p package_same_name (combine reqs preq)
      (filter (λ q, pkg_eq q p = false ∧ p_name q = p_name p) providers) st.
  Definition declared_conflicts (p : package) (reqs : option (list requirement)) (st : gst) : res gst :=
    foldM (λ st c,
      preq ← from_constraints RConflict c;
      providers ← what_provides po preq true;
      _ ← match providers with [] => strict_check MissingConflicts reqs | _ => Ok () end;
      add_conflicts p package_conflicts (combine reqs preq) providers st) (p_conflicts p) st.
  Definition conflicts_rules (p : package) (reqs : option (list requirement)) (st : gst) : res gst :=
    st ← same_name_rules p reqs st; declared_conflicts p reqs st.

  (** 427-435: one round of the loop of _add_package_rules *)
  Fixpoint package_rules_loop (fuel : nat) (queue : list work) (st : gst) : res gst :=
    match queue with
    | [] => Ok st
    | (p, reqs) :: queue =>
        match fuel with
        | O => Raise OutOfFuel
        | S fuel =>
            pid ← package_id po p;
            if decide (pid ∈ g_added st) then package_rules_loop fuel queue st
            else
              let st := Gst (g_rules st) ({[pid]} ∪ g_added st) in
              '(st, more) ← requires_rules p reqs (p_requires p) [] st;
              st ← conflicts_rules p reqs st;
              package_rules_loop fuel (queue ++ more) st
        end
    end.
  (** 420-435: _add_package_rules *)
  Definition package_rules (fuel : nat) (p : package) (reqs : option (list requirement)) (st : gst) : res gst :=
    package_rules_loop fuel [(p, reqs)] st.

  (** 437-456: _add_install_job_rules *)
  Definition install_job_rules (fuel : nat) (r : requirement) (st : gst) : res gst :=
    ps ← what_provides po r false;
    match ps with
    | [] => Raise NoPackageFound
    | _ =>
        st ← foldM (λ st p,
               pid ← package_id po p;
               if decide (pid ∈ installed.*1) then Ok st else package_rules fuel p (Some [r]) st) ps st;
        ru ← one_of_rule ps job_install (Some [r]);
        Ok (add_rule st ru)
    end.

  (** 458-464: _add_remove_job_rules *)
  Definition remove_job_rules (r : requirement) (st : gst) : res gst :=
    ps ← what_provides po r false;
    foldM (λ st p, ru ← remove_rule p job_remove (Some [r]); Ok (add_rule st ru)) ps st.

  (** 478-482: the key function of _add_update_job_rules.  [package_id] was successful for all
      packages of the pool (PoolProofs.v), so the exception is not propagated from here. *)
  Definition is_installed_id (p : package) : bool :=
    match package_id po p with Ok i => bool_decide (i ∈ installed.*1) | Raise _ => false end.
  Definition update_lt (p q : package) : bool :=
    ver_ltb (p_version p) (p_version q)
    || (ver_eqb (p_version p) (p_version q) && negb (is_installed_id p) && is_installed_id q).

  (** 466-489: _add_update_job_rules *)
  Definition update_job_rules (fuel : nat) (r : requirement) (st : gst) : res gst :=
    ps ← what_provides po r false;
    match ps with
    | [] => Ok st
    | p :: rest =>
        let best := max_first update_lt p rest in
        st ← package_rules fuel best (Some [r]) st;
        pid ← package_id po best;
        Ok (add_rule st (mk_rule [pid] job_update (Some [r])))
    end.

  (** 491-494: _add_installed_package_rules *)
  Definition installed_package_rules (fuel : nat) (p : package) (st : gst) : res gst :=
    foldM (λ st q, package_rules fuel q None st) (name_to_packages po (p_name p)) st.

  (** 496-506: _add_job_rules.  A job of another kind raises NotImplementedError; a job without
      requirement is an upgrade job. *)
  Definition job_rules (fuel : nat) (j : job) (st : gst) : res gst :=
    match j_kind j, j_req j with
    | (JInstall | JSoftUpdate), Some r => install_job_rules fuel r st
    | JRemove, Some r => remove_job_rules r st
    | JHardUpdate, Some r => update_job_rules fuel r st
    | _, _ => Raise NotImplementedError
    end.

  (** 166-179: iter_rules *)
  Definition iter_rules (fuel : nat) (jobs : list job) : res gst :=
    st ← foldM (λ st j, job_rules fuel j st) jobs (Gst [] ∅);
    foldM (λ st ip, st ← installed_package_rules fuel ip.2 st; package_rules fuel ip.2 None st) installed st.
End gen.
