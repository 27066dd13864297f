(** * Transactions (simplesat/transaction.py) *)
From Verif Require Export Graph Rules.

(** 9-26: the operations. *)
Inductive operation :=
  | InstallOp (p : package)
  | RemoveOp (p : package)
  | UpdateOp (p source : package).
Global Instance operation_eq_dec : EqDecision operation.
Proof. solve_decision. Defined.
Definition op_package (o : operation) : package :=
  match o with InstallOp p => p | RemoveOp p => p | UpdateOp p _ => p end.

(** 31-39: a transaction has the attributes operations and pretty_operations. *)
Record transaction := Trans { t_ops : list operation; t_pretty : list operation }.

Definition abs_lt (a b : Z) : bool := Z.abs a <? Z.abs b.

Section trans.
  Context (po : pool).

  (** 47-49: _package_key *)
  Definition package_key (i : Z) : res (string * version) :=
    p ← id_to_package po i; Ok (p_name p, p_version p).

  (** 33-36: _local_packages; later entries overwrite earlier ones.  [inst] lists the set
      [installed_package_ids] in its iteration order. *)
  Definition local_packages (inst : list Z) : res (list ((string * version) * Z)) :=
    mapM_res (λ i, k ← package_key i; Ok (k, i)) inst.
  Fixpoint local_get (l : list ((string * version) * Z)) (k : string * version) : option Z :=
    match l with
    | [] => None
    | (k', i) :: r =>
        match local_get r k with
        | Some j => Some j
        | None => if decide (k' = k) then Some i else None
        end
    end.

  (** 120-130: the loop over the groups; the sorted groups are concatenated.
      Simplification: [sorted(group, key=abs)] could only depend on the iteration order of the set
      if it contained both a literal and its negation. *)
  Definition ordered_lits (groups : list (gset Z)) : list Z :=
    mjoin ((λ g, sort_by abs_lt (elements g)) <$> groups).
  Definition split_lits (inst : list Z) (lits : list Z) : list Z * list Z :=
    (Z.opp <$> filter (λ l, l < 0 ∧ - l ∈ inst) lits,
     filter (λ l, 0 < l ∧ l ∉ inst) lits).

  Fixpoint remove_first (x : Z) (l : list Z) : list Z :=
    match l with
    | [] => []
    | y :: r => if decide (y = x) then r else y :: remove_first x r
    end.

  (** 136-151: the loop over installs *)
  Fixpoint install_loop (loc : list ((string * version) * Z)) (installs removals : list Z)
      (ops : list operation) : res (list Z * list operation) :=
    match installs with
    | [] => Ok (removals, ops)
    | i :: rest =>
        k ← package_key i;
        let preferred := default i (local_get loc k) in
        if decide (preferred = i) then
          p ← id_to_package po i;
          install_loop loc rest removals (ops ++ [InstallOp p])
        else
          install_loop loc rest
            (if decide (preferred ∈ removals) then remove_first preferred removals else removals) ops
    end.

  (** 114-157: _safe_operations.  [decisions] lists the decisions in iteration order. *)
  Definition safe_operations (decisions : list Z) (inst : list Z) : res (list operation) :=
    loc ← local_packages inst;
    g ← lit_graph po decisions true;
    groups ← toposort g;
    let lits := ordered_lits groups in
    _ ← (if decide (Forall (λ l, l ∈ decisions) lits) then Ok () else Raise AssertionError);
    let '(removals, installs) := split_lits inst lits in
    '(removals, iops) ← install_loop loc installs removals [];
    rops ← mapM_res (λ i, p ← id_to_package po i; Ok (RemoveOp p)) (reverse removals);
    Ok (rops ++ iops).

  (** 159-166: _find_other_providers *)
  Definition find_other_providers (p : package) : res (list package) :=
    r ← name_requirement RInstall (p_name p);
    ps ← what_provides po r true;
    Ok (filter (λ q, pkg_eq q p = false) ps).

  (** The OrderedDict pkg_to_ops. *)
  Definition odict := list (package * list operation).
  Fixpoint od_get (d : odict) (p : package) : option (list operation) :=
    match d with
    | [] => None
    | (q, o) :: r => if pkg_eq q p then Some o else od_get r p
    end.
  Fixpoint od_set (d : odict) (p : package) (o : list operation) : odict :=
    match d with
    | [] => [(p, o)]
    | (q, o') :: r => if pkg_eq q p then (q, o) :: r else (q, o') :: od_set r p o
    end.
  Fixpoint od_del (d : odict) (p : package) : odict :=
    match d with
    | [] => []
    | (q, o) :: r => if pkg_eq q p then r else (q, o) :: od_del r p
    end.

  (** 100-105: _merge_operations.  Unpacking anything but two operations is a ValueError. *)
  Definition op_rank (o : operation) : res nat :=
    match o with InstallOp _ => Ok 0%nat | RemoveOp _ => Ok 1%nat | UpdateOp _ _ => Raise ValueError end.
  Definition op_lt (a b : operation) : bool :=
    match a, b with InstallOp _, RemoveOp _ => true | _, _ => false end.
  Definition merge_operations (ops : list operation) : res operation :=
    match ops with
    | [o] => Ok o
    | _ =>
        _ ← mapM_res op_rank ops;
        match sort_by op_lt ops with
        | [a; b] => Ok (UpdateOp (op_package a) (op_package b))
        | _ => Raise ValueError
        end
    end.

  (** 89-98: _as_pretty_operations *)
  Definition pretty_operations (ops : list operation) : res (list operation) :=
    let d := foldl (λ d o, od_set d (op_package o) [o]) [] ops in
    d ← foldM (λ d pkg,
          match od_get d pkg with
          | None => Ok d
          | Some _ =>
              others ← find_other_providers pkg;
              foldM (λ d q,
                (* [pkg_to_ops[pkg] += pkg_to_ops.pop(q, [])] *)
                mine ← of_option KeyError (od_get d pkg);
                let extra := default [] (od_get d q) in
                Ok (od_set (od_del d q) pkg (mine ++ extra))) others d
          end) (reverse d.*1) d;
    mapM_res (λ e, merge_operations e.2) d.

  (** 31-39: __init__ *)
  Definition mk_transaction (decisions : list Z) (inst : list Z) : res transaction :=
    ops ← safe_operations decisions inst;
    pretty ← pretty_operations ops;
    Ok (Trans ops pretty).
End trans.
