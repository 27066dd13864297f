(** * Decision policies (simplesat/sat/policy). *)
From Verif Require Export MiniSat.

(** policy.py 35-47: DefaultPolicy.  It has no state. *)
Definition default_policy : policy unit := λ _ a _,
  match filter (λ kv, snd kv = None) (aset_items a) with
  | [] => Raise StopIteration
  | (v, _) :: _ => Ok (v, (), a)
  end.

(** undetermined_clause_policy.py 16-31.  [uc_version] is [pkg_id_to_version(pool, .)]
    (policy.py 6-7), [None] where it raises ValueError (pool.py 100-106).  [uc_order] is the iteration order of the
    sets over which [max] runs; it may differ from one call to the next. *)
Record uc_env := UcEnv {
  uc_version : Z → option version;
  uc_order : nat → gset Z → list Z;
  uc_prefer : list Z }.                 (* _prefer_installed_pkg_ids *)
Record uc_state := UcState {
  uc_clock : nat;
  uc_decision : gset Z;                 (* _decision_set *)
  uc_requirements : gset Z;             (* _requirements *)
  uc_all : gset Z }.                    (* _all_ids *)
(** 29-31 *)
Definition uc_new : uc_state := UcState 0 ∅ ∅ ∅.

(** 33-34: add_requirements *)
Definition uc_add_requirements (ids : list Z) (p : uc_state) : uc_state :=
  UcState (uc_clock p) (uc_decision p) (uc_requirements p ∪ list_to_set ids) (uc_all p).

(** [max(l, key=version)]: the first element with a maximal key. *)
Fixpoint max_from (ver : Z → option version) (l : list Z) (best : Z) (bv : version) : res Z :=
  match l with
  | [] => Ok best
  | x :: r =>
      v ← of_option ValueError (ver x);
      if ver_ltb bv v then max_from ver r x v else max_from ver r best bv
  end.
Definition max_by_version (ver : Z → option version) (l : list Z) : res (option Z) :=
  match l with
  | [] => Ok None
  | x :: r => v ← of_option ValueError (ver x); Some <$> max_from ver r x v
  end.

Section uc.
  Context (env : uc_env).

  (** 66-67, 74-83: _best_candidate; the second component is the unassigned part. *)
  Definition best_candidate (clock : nat) (ids : gset Z) (a : aset) : res (option Z * gset Z) :=
    let unassigned := ids ∖ a_assigned a in
    match max_by_version (uc_version env) (uc_order env clock unassigned) with
    | Ok o => Ok (o, unassigned)
    | Raise ValueError => Ok (None, unassigned)      (* 82-83 *)
    | Raise e => Raise e
    end.

  (** 69-72: _best_sorted_candidate *)
  Definition best_sorted (a : aset) : option Z :=
    head (filter (λ v, v ∉ a_assigned a) (uc_prefer env)).

  (** 85-102: _refresh_decision_set *)
  Definition refresh (a : aset) (cls : list (list Z)) (p : uc_state) : uc_state * aset :=
    let '(_, a) := consume_changelog a in
    let all := list_to_set (Z.abs <$> mjoin cls) ∪ list_to_set (uc_prefer env) in
    let unsat := filter (λ c, Forall (λ l, aset_value a l ≠ Some true) c) cls in
    let dec := list_to_set (Z.abs <$> mjoin unsat) ∖ a_assigned a in
    (UcState (uc_clock p) dec (uc_requirements p) all, a).

  Definition tick (p : uc_state) : uc_state :=
    UcState (S (uc_clock p)) (uc_decision p) (uc_requirements p) (uc_all p).
  Definition set_decision (d : gset Z) (p : uc_state) : uc_state :=
    UcState (uc_clock p) d (uc_requirements p) (uc_all p).

  (** 61-64: the final assertion; a [None] makes [assume] raise TypeError (minisat.py 414). *)
  Definition uc_return (c : option Z) (p : uc_state) (a : aset) : res (Z * uc_state * aset) :=
    match c with
    | None => Raise TypeError
    | Some v => match aset_value a v with
                | None => Ok (v, p, a)
                | Some _ => Raise AssertionError
                end
    end.

  (** 36-64: get_next_package_id *)
  Definition uc_policy : policy uc_state := λ p a cls,
    let '(p, a) := if decide (a_new a = ∅) then (p, a) else refresh a cls p in
    match best_sorted a with
    | Some v => uc_return (Some v) p a
    | None =>
        '(c, _) ← best_candidate (uc_clock p) (uc_requirements p) a;
        let p := tick p in
        match c with
        | Some v => uc_return (Some v) p a
        | None =>
            '(c, un) ← best_candidate (uc_clock p) (uc_decision p) a;
            let p := set_decision un (tick p) in
            match c with
            | Some v => uc_return (Some v) p a
            | None =>
                let '(p, a) := refresh a cls p in
                '(c, _) ← best_candidate (uc_clock p) (uc_decision p) a;
                let p := tick p in
                match c with
                | Some v => uc_return (Some v) p a
                | None =>
                    '(c, _) ← best_candidate (uc_clock p) (uc_all p) a;
                    uc_return c (tick p) a
                end
            end
        end
    end.
End uc.

(** policy_logger.py 21-26: the logging wrapper around any policy; its log only records values
    returned by [get_changelog] and the inner policy. *)
Definition logged_policy {P} (pol : policy P)
  : policy (P * list Z * list (gmap Z (option bool * option bool))) :=
  λ p a cls,
    let '(q, sugg, changes) := p in
    let '(ch, a) := get_changelog a in
    '(v, q, a) ← pol q a cls;
    let '(_, a) := consume_changelog a in
    Ok (v, (q, sugg ++ [v], changes ++ [ch]), a).
