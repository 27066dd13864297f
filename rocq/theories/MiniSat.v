(** * Clauses and the CDCL solver (simplesat/sat/clause.py, simplesat/sat/minisat.py).

    [Clause] objects are mutable and shared between the clause list, the watch lists, the
    reasons and the trails of learned clauses.  They live in a heap [list clause]; a clause
    object is its index in the heap.  Index 0 is the [Clause([])] that is the default value of
    the [cause] parameter of [assume] (minisat.py 561).  *)
From Verif Require Export AssignmentSet Package.

(** clause.py 10-29: Clause.__init__ *)
Record clause := Clause { c_lits : list Z; c_learned : bool; c_rule : option rule }.
Definition mk_clause (lits : list Z) (learned : bool) (r : option rule) : clause :=
  Clause (fromkeys lits) learned r.
Definition clause_nil : clause := mk_clause [] false None.

(** clause.py 64-68: the search for a literal of [lits[2:]] that is not false; the found
    literal is returned together with the tail in which it is replaced by [neg]. *)
Fixpoint find_watch (a : aset) (neg : Z) (rest : list Z) : option (Z * list Z) :=
  match rest with
  | [] => None
  | o :: r =>
      if decide (aset_value a o = Some false) then
        match find_watch a neg r with
        | Some (w, r') => Some (w, o :: r')
        | None => None
        end
      else Some (o, neg :: r)
  end.

(** clause.py 31-72: rewatch; returns the reordered literals and the unit information. *)
Definition rewatch (a : aset) (lits : list Z) (lit : Z) : res (list Z * option Z) :=
  match lits with
  | [] => Raise AssertionError
  | [x] => if decide (x = - lit) then Raise IndexError else Raise AssertionError
  | x :: y :: rest =>
      if decide (x = - lit ∨ y = - lit) then
        let '(x, y) := if decide (x = - lit) then (y, - lit) else (x, y) in
        if decide (aset_value a x = Some true) then Ok (x :: y :: rest, None)
        else match find_watch a (- lit) rest with
             | Some (w, rest') => Ok (x :: w :: rest', None)
             | None => Ok (x :: y :: rest, Some x)
             end
      else Raise AssertionError
  end.

(** clause.py 74-85: calculate_reason *)
Definition calculate_reason (lits : list Z) (p : option Z) : list Z :=
  Z.opp <$> filter (λ l, Some l ≠ p) lits.

(** minisat.py 288-319: MiniSATSolver.__init__ (without the policy, passed separately). *)
Record solver := Solver {
  s_heap : list clause;
  s_clauses : list nat;             (* clauses *)
  s_watches : gmap Z (list nat);    (* watches: defaultdict(list) *)
  s_asg : aset;                     (* assignments *)
  s_ctrails : gmap nat (list nat);  (* clause_trails *)
  s_levels : gmap Z Z;              (* levels: defaultdict(int) *)
  s_queue : list Z;                 (* prop_queue *)
  s_trail : list Z;                 (* trail, last element first *)
  s_lims : list nat;                (* trail_lim, last element first *)
  s_reasons : gmap Z nat;           (* assigning_clauses *)
  s_status : option bool }.         (* status *)

(** 288-319: __init__().  The address 0 is the clause [Clause([])] of line 561. *)
Definition solver_new : solver :=
  Solver [clause_nil] [] ∅ aset_empty ∅ ∅ [] [] [] ∅ None.

(** Reading the defaultdicts watches and levels (291, 300), and the literals of a Clause object (clause.py 29) *)
Definition watch_list (s : solver) (lit : Z) : list nat := default [] (s_watches s !! lit).
Definition level_of (s : solver) (v : Z) : Z := default 0 (s_levels s !! v).
Definition lits_of (s : solver) (i : nat) : list Z :=
  match s_heap s !! i with Some c => c_lits c | None => [] end.

(** 577-581: decision_level; 565-569: number_assigned; 571-575: number_variables. *)
Definition decision_level (s : solver) : Z := Z.of_nat (length (s_lims s)).
Definition number_assigned (s : solver) : nat := num_assigned (s_asg s).
Definition number_variables (s : solver) : nat := aset_len (s_asg s).

(** Updates of the attributes of 288-319 *)
Definition set_watch (lit : Z) (l : list nat) (s : solver) : solver :=
  Solver (s_heap s) (s_clauses s) (<[lit := l]> (s_watches s)) (s_asg s) (s_ctrails s)
    (s_levels s) (s_queue s) (s_trail s) (s_lims s) (s_reasons s) (s_status s).
Definition push_watch (lit : Z) (i : nat) (s : solver) : solver :=
  set_watch lit (watch_list s lit ++ [i]) s.
Definition set_lits (i : nat) (lits : list Z) (s : solver) : solver :=
  Solver (alter (λ c, Clause lits (c_learned c) (c_rule c)) i (s_heap s))
    (s_clauses s) (s_watches s) (s_asg s) (s_ctrails s)
    (s_levels s) (s_queue s) (s_trail s) (s_lims s) (s_reasons s) (s_status s).
Definition set_queue (q : list Z) (s : solver) : solver :=
  Solver (s_heap s) (s_clauses s) (s_watches s) (s_asg s) (s_ctrails s)
    (s_levels s) q (s_trail s) (s_lims s) (s_reasons s) (s_status s).
Definition set_asg (a : aset) (s : solver) : solver :=
  Solver (s_heap s) (s_clauses s) (s_watches s) a (s_ctrails s)
    (s_levels s) (s_queue s) (s_trail s) (s_lims s) (s_reasons s) (s_status s).
Definition set_lims (l : list nat) (s : solver) : solver :=
  Solver (s_heap s) (s_clauses s) (s_watches s) (s_asg s) (s_ctrails s)
    (s_levels s) (s_queue s) (s_trail s) l (s_reasons s) (s_status s).
Definition set_status (b : option bool) (s : solver) : solver :=
  Solver (s_heap s) (s_clauses s) (s_watches s) (s_asg s) (s_ctrails s)
    (s_levels s) (s_queue s) (s_trail s) (s_lims s) (s_reasons s) b.
Definition push_clause (i : nat) (s : solver) : solver :=
  Solver (s_heap s) (s_clauses s ++ [i]) (s_watches s) (s_asg s) (s_ctrails s)
    (s_levels s) (s_queue s) (s_trail s) (s_lims s) (s_reasons s) (s_status s).
(** clause.py 12-29: creation of a Clause object *)
Definition alloc (c : clause) (s : solver) : nat * solver :=
  (length (s_heap s),
   Solver (s_heap s ++ [c]) (s_clauses s) (s_watches s) (s_asg s) (s_ctrails s)
    (s_levels s) (s_queue s) (s_trail s) (s_lims s) (s_reasons s) (s_status s)).
Definition set_ctrail (i : nat) (t : list nat) (s : solver) : solver :=
  Solver (s_heap s) (s_clauses s) (s_watches s) (s_asg s) (<[i := t]> (s_ctrails s))
    (s_levels s) (s_queue s) (s_trail s) (s_lims s) (s_reasons s) (s_status s).

(** 397-420: enqueue.  The [cause] is always a clause object in the calls of this module. *)
Definition enqueue (lit : Z) (cause : nat) (s : solver) : res (bool * solver) :=
  match aset_value (s_asg s) lit with
  | Some status => Ok (status, s)
  | None =>
      a ← aset_set (Z.abs lit) (Some (0 <? lit)) (s_asg s);
      Ok (true,
          Solver (s_heap s) (s_clauses s) (s_watches s) a (s_ctrails s)
            (<[Z.abs lit := decision_level s]> (s_levels s)) (s_queue s ++ [lit])
            (lit :: s_trail s) (s_lims s) (<[Z.abs lit := cause]> (s_reasons s)) (s_status s))
  end.

(** The outcome of an operation that may raise SatisfiabilityError(UNSAT(conflict, learned,
    clause_trails, assigning_clauses)); the last two arguments are those of the state. *)
Inductive out (A : Type) :=
  | Normal (a : A)
  | Unsat (conflict learned : nat) (s : solver).
Arguments Normal {_} _.
Arguments Unsat {_} _ _ _.

(** 335-358: add_clause applied to a Clause object. *)
Definition add_clause_ref (i : nat) (s : solver) : res (out solver) :=
  match lits_of s i with
  | [] => Ok (Normal (set_status (Some false) s))
  | [l] =>
      '(b, s') ← enqueue l i s;
      if b : bool then Ok (Normal (push_clause i s')) else Ok (Unsat i i s')
  | p :: q :: _ =>
      Ok (Normal (push_clause i (push_watch (- q) i (push_watch (- p) i s))))
  end.

(** 321-358: add_clause applied to a list of literals. *)
Definition add_clause (lits : list Z) (r : option rule) (s : solver) : res (out solver) :=
  let '(i, s) := alloc (mk_clause lits false r) s in add_clause_ref i s.

(** 360-367: _setup_assignments.  Python iterates over a set here; the resulting AssignmentSet
    (a record of sets) is the same for every order, we use the order of occurrence. *)
Definition clause_lits (s : solver) : list (list Z) := lits_of s <$> s_clauses s.
Definition setup_assignments (s : solver) : res solver :=
  a ← foldM (λ a v, if aset_contains a v then Ok a else aset_set v None a)
            (Z.abs <$> mjoin (clause_lits s)) (s_asg s);
  Ok (set_asg a s).

(** 266-286: from_rules, on pairs (literals, rule). *)
Fixpoint add_clauses (rules : list (list Z * option rule)) (s : solver) : res (out solver) :=
  match rules with
  | [] => Ok (Normal s)
  | (lits, r) :: rest =>
      o ← add_clause lits r s;
      match o with
      | Normal s' => add_clauses rest s'
      | Unsat c l s' => Ok (Unsat c l s')
      end
  end.
Definition from_clauses (rules : list (list Z * option rule)) : res (out solver) :=
  o ← add_clauses rules solver_new;
  match o with
  | Normal s => s' ← setup_assignments s; Ok (Normal s')
  | Unsat c l s => Ok (Unsat c l s)
  end.
Definition from_rules (rules : list rule) : res (out solver) :=
  from_clauses ((λ r, (ru_lits r, Some r)) <$> rules).

(** 375-395: the inner loop of propagate.  [pending] is the detached watch list in the order in
    which it is popped (from its end). *)
Fixpoint prop_watch (lit : Z) (pending : list nat) (s : solver) : res (option nat * solver) :=
  match pending with
  | [] => Ok (None, s)
  | i :: rest =>
      '(lits, unit) ← rewatch (s_asg s) (lits_of s i) lit;
      w ← of_option IndexError (lits !! 1%nat);
      let s := push_watch (- w) i (set_lits i lits s) in
      match unit with
      | None => prop_watch lit rest s
      | Some u =>
          if decide (aset_value (s_asg s) u = Some false) then
            Ok (Some i, set_queue [] (set_watch lit (watch_list s lit ++ rev rest) s))
          else
            '(_, s) ← enqueue u i s;
            prop_watch lit rest s
      end
  end.

(** 369-395: propagate.  Fuel bounds the number of dequeued literals. *)
Fixpoint propagate (fuel : nat) (s : solver) : res (option nat * solver) :=
  match s_queue s with
  | [] => Ok (None, s)
  | lit :: q =>
      match fuel with
      | O => Raise OutOfFuel
      | S fuel =>
          let pending := rev (watch_list s lit) in
          '(c, s) ← prop_watch lit pending (set_watch lit [] (set_queue q s));
          match c with
          | Some i => Ok (Some i, s)
          | None => propagate fuel s
          end
      end
  end.

(** 539-545: undo_one *)
Definition undo_one (s : solver) : res solver :=
  match s_trail s with
  | [] => Raise IndexError
  | p :: t =>
      let v := Z.abs p in
      a ← aset_set v None (s_asg s);
      Ok (Solver (s_heap s) (s_clauses s) (s_watches s) a (s_ctrails s)
            (<[v := -1]> (s_levels s)) (s_queue s) t (s_lims s) (s_reasons s) (s_status s))
  end.

(** 466-479: the local variables of analyze. *)
Record astate := AState {
  an_counter : Z; an_seen : gset Z; an_learned : list Z; an_bt : Z; an_trail : list nat }.

(** 485-496: the loop over the reason. *)
Definition trace_lit (s : solver) (st : astate) (lit : Z) : astate :=
  let var := Z.abs lit in
  if decide (var ∈ an_seen st) then st
  else if decide (level_of s var = decision_level s) then
    AState (an_counter st + 1) ({[var]} ∪ an_seen st) (an_learned st) (an_bt st) (an_trail st)
  else
    AState (an_counter st) ({[var]} ∪ an_seen st) (an_learned st ++ [- lit])
           (Z.max (an_bt st) (level_of s var)) (an_trail st).
Definition trace_reason (s : solver) (st : astate) (reason : list Z) : astate :=
  foldl (trace_lit s) st reason.

(** 499-509: the inner loop popping the trail, followed by the next round of the outer loop
    (482-496); [t] is the current trail, consumed by [undo_one]. *)
Fixpoint analyze_pop (t : list Z) (st : astate) (s : solver) : res (Z * astate * solver) :=
  match t with
  | [] => Raise IndexError
  | p :: t' =>
      conflict ← of_option KeyError (s_reasons s !! Z.abs p);
      let st := AState (an_counter st) (an_seen st) (an_learned st) (an_bt st)
                       (an_trail st ++ [conflict]) in
      s' ← undo_one s;
      if decide (Z.abs p ∈ an_seen st) then
        let st := AState (an_counter st - 1) (an_seen st) (an_learned st) (an_bt st) (an_trail st) in
        if decide (an_counter st = 0) then Ok (p, st, s')
        else analyze_pop t' (trace_reason s' st (calculate_reason (lits_of s' conflict) (Some p))) s'
      else analyze_pop t' st s'
  end.

(** 463-514: analyze; returns the learned clause and the backtracking level. *)
Definition analyze (conflict : nat) (s : solver) : res (nat * Z * solver) :=
  let st := trace_reason s (AState 0 ∅ [] 0 [conflict]) (calculate_reason (lits_of s conflict) None) in
  '(p, st, s) ← analyze_pop (s_trail s) st s;
  let '(i, s) := alloc (mk_clause (an_learned st ++ [- p]) true None) s in
  Ok (i, an_bt st, set_ctrail i (an_trail st) s).

(** 553-559: cancel *)
Fixpoint undo_n (n : nat) (s : solver) : res solver :=
  match n with
  | O => Ok s
  | S n => s' ← undo_one s; undo_n n s'
  end.
Definition cancel (s : solver) : res solver :=
  match s_lims s with
  | [] => Raise IndexError
  | k :: lims => undo_n (length (s_trail s) - k) (set_lims lims s)
  end.

(** 547-551: cancel_until (every cancel pops one entry of trail_lim). *)
Fixpoint cancel_loop (n : nat) (level : Z) (s : solver) : res solver :=
  if decide (level < decision_level s) then
    match n with
    | O => Raise OutOfFuel
    | S n => s' ← cancel s; cancel_loop n level s'
    end
  else Ok s.
Definition cancel_until (level : Z) (s : solver) : res solver :=
  cancel_loop (length (s_lims s)) level s.

(** [lits[i], lits[j] = lits[j], lits[i]] *)
Definition swap (i j : nat) (l : list Z) : list Z :=
  match l !! i, l !! j with
  | Some x, Some y => <[j := x]> (<[i := y]> l)
  | _, _ => l
  end.

(** [max(enumerate(ls), key=...)[0]]: the first index of a maximal element. *)
Fixpoint argmax_from (n : nat) (ls : list Z) (best : nat) (bv : Z) : nat :=
  match ls with
  | [] => best
  | x :: r => if bv <? x then argmax_from (S n) r n x else argmax_from (S n) r best bv
  end.
Definition argmax (ls : list Z) : nat :=
  match ls with [] => 0%nat | x :: r => argmax_from 1 r 0 x end.

(** 516-537: record *)
Definition record_order (s : solver) (lits : list Z) : list Z :=
  let lits := swap 0 (pred (length lits)) lits in
  let max_i := argmax ((λ l, level_of s (Z.abs l)) <$> lits) in
  if decide (2 ≤ length lits)%nat then swap 1 max_i lits else lits.
Definition record (i : nat) (s : solver) : res (out solver) :=
  match lits_of s i with
  | [] => Raise IndexError
  | _ =>
      let s := set_lits i (record_order s (lits_of s i)) s in
      o ← add_clause_ref i s;
      match o with
      | Unsat c l s => Ok (Unsat c l s)
      | Normal s =>
          l ← of_option IndexError (lits_of s i !! 0%nat);
          '(_, s) ← enqueue l i s;
          Ok (Normal s)
      end
  end.

(** 561-563: assume(lit) with the default cause. *)
Definition assume (lit : Z) (s : solver) : res (bool * solver) :=
  enqueue lit 0%nat (set_lims (length (s_trail s) :: s_lims s) s).

(** policy/policy.py 21-32: get_next_package_id(assignments, clauses).  A policy has a state and
    may update the bookkeeping of the assignments object. *)
Definition policy (P : Type) : Type :=
  P → aset → list (list Z) → res (Z * P * aset).

Inductive step_res (P : Type) :=
  | Continue (p : P) (s : solver)
  | Found (p : P) (s : solver)
  | Failed (conflict learned : nat) (s : solver).
Arguments Continue {_} _ _.
Arguments Found {_} _ _.
Arguments Failed {_} _ _ _.

Section search.
  Context {P : Type} (pol : policy P).

  (** 427-451: one round of the loop of search. *)
  Definition search_step (fuel : nat) (root_level : Z) (p : P) (s : solver) : res (step_res P) :=
    '(conflict, s) ← propagate fuel s;
    match conflict with
    | None =>
        if decide (number_assigned s = number_variables s) then Ok (Found p s)
        else
          '(v, p, a) ← pol p (s_asg s) (clause_lits s);
          '(_, s) ← assume v (set_asg a s);
          Ok (Continue p s)
    | Some c =>
        '(learned, bt, s) ← analyze c s;
        if decide (root_level = decision_level s) then Ok (Failed c learned s)
        else
          s ← cancel_until (Z.max bt root_level) s;
          o ← record learned s;
          match o with
          | Normal s => Ok (Continue p s)
          | Unsat c l s => Ok (Failed c l s)
          end
    end.

  Fixpoint search_loop (pfuel fuel : nat) (root_level : Z) (p : P) (s : solver)
    : res (out (P * solver)) :=
    match fuel with
    | O => Raise OutOfFuel
    | S fuel =>
        r ← search_step pfuel root_level p s;
        match r with
        | Continue p s => search_loop pfuel fuel root_level p s
        | Found p s => Ok (Normal (p, s))
        | Failed c l s => Ok (Unsat c l s)
        end
    end.

  (** 422-451: search.  The returned solution is [assignments.copy()]. *)
  Definition search (fuel : nat) (p : P) (s : solver) : res (out aset) :=
    o ← search_loop fuel fuel (decision_level s) p s;
    match o with
    | Normal (_, s) => Ok (Normal (aset_copy (s_asg s)))
    | Unsat c l s => Ok (Unsat c l s)
    end.

  (** from_rules(rules, policy).search() on literal lists. *)
  Definition solve_clauses (fuel : nat) (p : P) (rules : list (list Z * option rule))
    : res (out aset) :=
    o ← from_clauses rules;
    match o with
    | Normal s => search fuel p s
    | Unsat c l s => Ok (Unsat c l s)
    end.
End search.

(** 453-461: validate *)
Definition solution_literals (m : list (Z * option bool)) : list Z :=
  (λ kv, match snd kv with Some true => fst kv | _ => - fst kv end) <$> m.
Definition validate (s : solver) (m : list (Z * option bool)) : bool :=
  negb (existsb (λ i, forallb (λ l, negb (bool_decide (l ∈ solution_literals m))) (lits_of s i))
                (s_clauses s)).
