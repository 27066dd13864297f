(** * Export to PHP's Composer (simplesat/utils/_composer_utils.py). *)
From Verif Require Export Parser Repository Request Dimacs.
From Coq Require Import Ascii String.
Open Scope list_scope.

(** 16-28: _TO_NORMALIZE *)
Definition TO_NORMALIZE : list (text * text) :=
  (λ p, (of_s p.1, of_s p.2)) <$>
  [("1.0a3", "1.0.0"); ("1.0b1", "1.0.0"); ("2010o", "2010.15.0.0"); ("2011n", "2011.14.0.0");
   ("2011g", "2011.7.0.0"); ("0.14.1rc1", "0.14.1.0"); ("0.11rc1", "0.11.0.0"); ("0.9.0rc2", "0.9.0");
   ("2.3b1.dev4669", "2.3.0"); ("1.2.dev213", "1.2.0"); ("0.4.2.dev2", "0.4.2")]%string.
Definition normalize_get (t : text) : text :=
  match list_find (λ kv, kv.1 = t) TO_NORMALIZE with Some (_, (_, v)) => v | None => t end.

(** [t.count(".")] *)
Definition count_dots (t : text) : nat := List.length (filter (λ c, c = "."%char) t).

(** 114-115 and 125-126: [while upstream.count(".") < 3: upstream += ".0"].  Every round adds a dot, so that there are
    at most three. *)
Fixpoint pad (rounds : nat) (t : text) : text :=
  match rounds with
  | O => t
  | S rounds => if (count_dots t <? 3)%nat then pad rounds (t ++ of_s ".0") else t
  end.

(** 31-34: JOB_KIND_TO_PHP_METHOD *)
Definition php_method (k : job_kind) : res text :=
  match k with
  | JInstall => Ok (of_s "install")
  | JRemove => Ok (of_s "remove")
  | _ => Raise KeyError
  end.

Section composer.
  (** [str(version.upstream)] and [str(version)] *)
  Context (ustr : version → text) (vstr : version → text).

  (** 112-115 and 123-126: the upstream part *)
  Definition php_upstream (v : version) : text := pad 3 (normalize_get (ustr v)).
  (** 116 and 131: the build number *)
  Definition patch (v : version) : text := of_s "-patch" ++ of_s (str_of_Z (build v)).
  (** 108-116: _normalize_php_version *)
  Definition php_version (v : version) : text := php_upstream v ++ patch v.
  (** 119-131: _normalize_php_version_constraint *)
  Definition php_version_constraint (v : version) : text :=
    if decide (build v = 0) then php_upstream v else php_version v.

  (** 134-153: _requirement_to_php_constraints *)
  Definition php_job_constraint (c : constr) : res text :=
    match c with
    | CGeq v => Ok (of_s ">=" ++ of_s " " ++ php_version_constraint v)
    | CGt v => Ok (of_s ">" ++ of_s " " ++ php_version_constraint v)
    | CLeq v => Ok (of_s "<=" ++ of_s " " ++ php_version_constraint v)
    | CLt v => Ok (of_s "<" ++ of_s " " ++ php_version_constraint v)
    | CAny => Ok (of_s "*")
    | CEqual _ | CNot _ | CUpstream _ => Raise ValueError
    end.
  Definition requirement_to_php_constraints (r : option requirement) : res (string * text) :=
    match r with
    | None => Raise AttributeError
    | Some r =>
        parts ← mapM_res php_job_constraint (r_cons r);
        Ok (r_name r, text_join (of_s ", ") parts)
    end.

  (** 72-79: request_to_php_parts *)
  Definition job_to_php (j : job) : res (text * string * text) :=
    '(name, cs) ← requirement_to_php_constraints (j_req j);
    m ← php_method (j_kind j);
    Ok (m, name, cs).
  Definition request_to_php_parts (jobs : list job) : res (list (text * string * text)) :=
    mapM_res job_to_php jobs.

  (** 156-171: _requirement_to_php_string *)
  Definition php_dep_constraint (c : constr) : res text :=
    match c with
    | CUpstream v => Ok (of_s "~" ++ php_version_constraint v)
    | CAny => Ok (of_s "*")
    | CEqual v => Ok (php_version_constraint v)
    | _ => Raise NotImplementedError
    end.
  Definition requirement_to_php_string (r : requirement) : res text :=
    parts ← mapM_res php_dep_constraint (r_cons r);
    Ok (text_join (of_s ", ") parts).

  (** 174-188: _requirements_to_php_dict *)
  Fixpoint dict_append (d : list (string * list text)) (k : string) (t : text) : list (string * list text) :=
    match d with
    | [] => [(k, [t])]
    | (k', ts) :: d => if decide (k' = k) then (k', ts ++ [t]) :: d else (k', ts) :: dict_append d k t
    end.
  Definition requirements_to_php_dict (rs : list requirement) : res (list (string * text)) :=
    d ← (foldM (λ d r, t ← requirement_to_php_string r; Ok (dict_append d (r_name r) t)) rs [] : res (list (string * list text)));
    Ok (map (λ kv, (kv.1, text_join (of_s ", ") kv.2)) d).

  (** 37-69: the entries of repository_to_composer_json_dict, consumed by [list] (88, 94) *)
  Record entry := Entry { e_name : string; e_version : text; e_normalized : text; e_require : list (string * text) }.
  Definition package_to_entry (p : package) : res entry :=
    requires ← mapM_res (from_constraints RInstall) (p_requires p);
    req ← requirements_to_php_dict requires;
    Ok (Entry (p_name p) (vstr (p_version p)) (php_version (p_version p)) req).
  Definition repository_to_composer (r : repository) : res (list entry) := mapM_res package_to_entry (repo_iter r).
End composer.
