(** * DefaultOrderedDict (simplesat/utils/_collections.py).
    The values are mutable lists, as in the pool (pool.py 32); objects live in a heap and are known by their index.
    Keys are integers (the class does nothing with keys but compare them). *)
From Verif Require Export Base.

Notation objs := (list (list Z)).

(** What can be passed as default_factory: [list], a function that always returns the same object, or something that cannot be
    called. *)
Inductive factory := FList | FConst (o : nat) | FNotCallable.

(** 8-11: the attributes; [od_items] in insertion order *)
Record odict := ODict { od_factory : factory; od_items : list (Z * nat) }.
Definition od_new (f : factory) : odict := ODict f [].

Definition od_lookup (d : odict) (k : Z) : option nat := (list_find (λ kv, kv.1 = k) (od_items d)) ≫= λ x, Some x.2.2.

(** [OrderedDict.__setitem__]: a new key goes to the end, an old one keeps its place. *)
Fixpoint items_set (l : list (Z * nat)) (k : Z) (o : nat) : list (Z * nat) :=
  match l with
  | [] => [(k, o)]
  | (k', o') :: r => if decide (k' = k) then (k, o) :: r else (k', o') :: items_set r k o
  end.
Definition od_set (d : odict) (k : Z) (o : nat) : odict := ODict (od_factory d) (items_set (od_items d) k o).
(** [OrderedDict.__delitem__] *)
Definition od_del (d : odict) (k : Z) : res odict :=
  match od_lookup d k with
  | None => Raise KeyError
  | Some _ => Ok (ODict (od_factory d) (filter (λ kv, kv.1 ≠ k) (od_items d)))
  end.

(** default_factory() *)
Definition call_factory (f : factory) (h : objs) : res (nat * objs) :=
  match f with
  | FList => Ok (length h, h ++ [[]])
  | FConst o => Ok (o, h)
  | FNotCallable => Raise TypeError
  end.

(** 13-21: __getitem__ and __missing__ *)
Definition od_getitem (d : odict) (k : Z) (h : objs) : res (nat * odict * objs) :=
  match od_lookup d k with
  | Some o => Ok (o, d, h)
  | None => '(o, h) ← call_factory (od_factory d) h; Ok (o, od_set d k o, h)
  end.
(** [get(k)] and [k in d], inherited: they do not call __missing__. *)
Definition od_get (d : odict) (k : Z) : option nat := od_lookup d k.
Definition od_contains (d : odict) (k : Z) : bool := bool_decide (is_Some (od_lookup d k)).

(** [o.append(x)] *)
Definition append_obj (o : nat) (x : Z) (h : objs) : objs := alter (λ l, l ++ [x]) o h.
(** [d[k].append(x)] *)
Definition od_append (d : odict) (k : Z) (x : Z) (h : objs) : res (odict * objs) :=
  '(o, d, h) ← od_getitem d k h; Ok (d, append_obj o x h).

(** 27-31: copy and __copy__: a new dict from the items. *)
Definition od_copy (d : odict) : odict :=
  foldl (λ e kv, od_set e kv.1 kv.2) (od_new (od_factory d)) (od_items d).

(** 33-35: __deepcopy__: every item is copied by itself. *)
Definition deep_item (st : odict * objs) (kv : Z * nat) : odict * objs :=
  let '(e, h) := st in (od_set e kv.1 (length h), h ++ [default [] (h !! kv.2)]).
Definition od_deepcopy (d : odict) (h : objs) : odict * objs :=
  foldl deep_item (od_new (od_factory d), h) (od_items d).

(** 23-25: __reduce__: [pickle.loads(pickle.dumps(d))].  The argument of the constructor is [default_factory()], an
    object that is pickled by its value.  The values are pickled in one go, so that shared ones stay shared; the
    heap of the new objects is separate.  Simplification: a list is the only thing a factory returns here. *)
Definition pickle_item (st : odict * objs * list (nat * nat)) (o : objs) (kv : Z * nat) : odict * objs * list (nat * nat) :=
  let '(e, h, m) := st in
  match list_find (λ x, x.1 = kv.2) m with
  | Some (_, (_, o')) => (od_set e kv.1 o', h, m)
  | None => (od_set e kv.1 (length h), h ++ [default [] (o !! kv.2)], m ++ [(kv.2, length h)])
  end.
Definition od_pickled (d : odict) (h : objs) : res (odict * objs) :=
  '(_, h) ← call_factory (od_factory d) h;
  let '(e, h', _) := foldl (λ st kv, pickle_item st h kv) (od_new FNotCallable, h, []) (od_items d) in
  Ok (e, h').

(** What a reader of the dict sees: keys and contents in order. *)
Definition od_view (d : odict) (h : objs) : list (Z * list Z) :=
  (λ kv, (kv.1, default [] (h !! kv.2))) <$> od_items d.
