(** * The texts of transactions and hints (simplesat/transaction.py 51-87, simplesat/request.py 31-32,
      simplesat/errors.py 63-70). *)
From Verif Require Export Parser Transaction Request.
From Coq Require Import Ascii String.
Open Scope list_scope.

Definition line_feed : text := [ascii_of_nat 10].
Definition tabulator : text := [ascii_of_nat 9].

Section texts.
  (** [str(version)], [repr(package)] (the packages have no [__str__]) and [str(requirement)] *)
  Context (vstr : version → text) (prepr : package → text) (rstr : requirement → text).

  (** transaction.py 51-68: to_string *)
  Definition op_string (o : operation) : text :=
    match o with
    | InstallOp p => of_s "Installing:" ++ line_feed ++ tabulator ++ prepr p
    | UpdateOp p q => of_s "Updating:" ++ line_feed ++ tabulator ++ prepr q ++ line_feed ++ tabulator ++ prepr p
    | RemoveOp p => of_s "Removing" ++ line_feed ++ tabulator ++ prepr p
    end.
  Definition ops_to_string (ops : list operation) : text := text_join line_feed (op_string <$> ops).

  (** transaction.py 70-87: to_simple_string *)
  Definition simple_pkg (p : package) : text := of_s (p_name p) ++ of_s " (" ++ vstr (p_version p) ++ of_s ")".
  Definition simple_op (o : operation) : text :=
    match o with
    | InstallOp p => of_s "Installing " ++ simple_pkg p
    | UpdateOp p q => of_s "Updating " ++ simple_pkg q ++ of_s " to " ++ simple_pkg p
    | RemoveOp p => of_s "Removing " ++ simple_pkg p
    end.
  Definition to_simple_string (t : transaction) : text := text_join line_feed (simple_op <$> t_ops t).

  (** request.py 9-16: the names of job types; 31-32: [_Job.__str__] *)
  Definition job_type_name (k : job_kind) : text :=
    match k with
    | JInstall => of_s "install"
    | JRemove => of_s "remove"
    | JSoftUpdate => of_s "soft_update"
    | JHardUpdate => of_s "hard_update"
    | JUpgrade => of_s "upgrade"
    end.
  Definition job_str (j : job) : text :=
    job_type_name (j_kind j) ++ of_s " " ++ match j_req j with Some r => rstr r | None => of_s "None" end.
  (** errors.py 63-70: hint_pretty_string *)
  Definition hint_pretty_string (jobs : list job) : text :=
    of_s "The following jobs are conflicting:" ++ line_feed ++
    text_join line_feed ((λ j, of_s "    " ++ job_str j) <$> jobs).
End texts.
