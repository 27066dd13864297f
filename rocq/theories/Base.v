(** * Base: exceptions as values and small Python-list helpers. *)
From stdpp Require Export base list gmap strings sorting.
From Coq Require Export ZArith Lia.
Global Open Scope Z_scope.

(** Python exceptions that can escape from the modelled functions.  [OutOfFuel]
    is not a Python exception: it marks an exhausted recursion bound of the model. *)
Inductive exn :=
  | KeyError | IndexError | AssertionError | TypeError | ValueError
  | StopIteration | NotImplementedError | AttributeError
  (* simplesat/errors.py 5-70 *)
  | UnexpectedlySatisfiable | InvalidConstraint | InvalidDependencyString
  | NoPackageFound | MissingInstallRequires | MissingConflicts
  | SatisfiabilityError | SolverException
  | RecursionError
  | OutOfFuel.
Global Instance exn_eq_dec : EqDecision exn.
Proof. solve_decision. Defined.

Inductive res (A : Type) := Ok (a : A) | Raise (e : exn).
Arguments Ok {_} _.
Arguments Raise {_} _.

Global Instance res_ret : MRet res := λ A a, Ok a.
Global Instance res_bind : MBind res := λ A B f m,
  match m with Ok a => f a | Raise e => Raise e end.
Global Instance res_fmap : FMap res := λ A B f m,
  match m with Ok a => Ok (f a) | Raise e => Raise e end.

Definition of_option {A} (e : exn) (o : option A) : res A :=
  match o with Some a => Ok a | None => Raise e end.

Definition is_ok {A} (m : res A) : bool :=
  match m with Ok _ => true | Raise _ => false end.

(** [OrderedDict.fromkeys(l).keys()]: first occurrences, in order. *)
Fixpoint fromkeys {A} `{EqDecision A} (l : list A) : list A :=
  match l with
  | [] => []
  | x :: r => x :: filter (λ y, y ≠ x) (fromkeys r)
  end.

(** [for x in l: s = f(s, x)] where the body may raise. *)
Fixpoint foldM {A B} (f : B → A → res B) (l : list A) (b : B) : res B :=
  match l with
  | [] => Ok b
  | x :: r => b' ← f b x; foldM f r b'
  end.

(** [[f(x) for x in l]] where [f] may raise. *)
Fixpoint mapM_res {A B} (f : A → res B) (l : list A) : res (list B) :=
  match l with
  | [] => Ok []
  | x :: r => y ← f x; ys ← mapM_res f r; Ok (y :: ys)
  end.
