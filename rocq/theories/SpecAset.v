(** * Specification of assignment collections: a finite map from variables (positive integers)
    to "known but unassigned" ([None]) or a truth value ([Some b]). *)
From Verif Require Import Base.

Notation amap := (gmap Z (option bool)).

(** The value a literal has in the map. *)
Definition amap_val (m : amap) (v : Z) : option bool := mjoin (m !! v).
Definition amap_value (m : amap) (lit : Z) : option bool :=
  if decide (0 < lit) then amap_val m lit else negb <$> amap_val m (- lit).

(** The calls a client can make: [a[k] = b], [a[k] = None], [del a[k]]. *)
Inductive aop := OpSet (k : Z) (v : option bool) | OpDel (k : Z).
Definition aop_key (o : aop) : Z := match o with OpSet k _ => k | OpDel k => k end.

(** Setting a negative literal sets the variable to the opposite value. *)
Definition amap_step (m : amap) (o : aop) : amap :=
  match o with
  | OpSet k v => <[Z.abs k := if decide (0 < k) then v else negb <$> v]> m
  | OpDel k => delete (Z.abs k) m
  end.
Definition amap_run (ops : list aop) : amap := foldl amap_step ∅ ops.

(** Histories with reads of the changelog: the map at the last consumption is remembered, and so
    are the variables that became known since then.  [Copy]: the collection is replaced by its copy(). *)
Inductive cop := Plain (o : aop) | Consume | Peek | Copy.
Record chist := CHist { ch_now : amap; ch_base : amap; ch_new : gset Z }.
Definition chist_step (h : chist) (o : cop) : chist :=
  match o with
  | Plain o =>
      CHist (amap_step (ch_now h) o) (ch_base h)
            (match o with
             | OpSet k _ => if decide (is_Some (ch_now h !! Z.abs k)) then ch_new h
                            else {[Z.abs k]} ∪ ch_new h
             | OpDel _ => ch_new h
             end)
  | Consume => CHist (ch_now h) (ch_now h) ∅
  | Peek => h
  | Copy => h
  end.
Definition chist_run (ops : list cop) : chist := foldl chist_step (CHist ∅ ∅ ∅) ops.

(** A changelog is right when it lists exactly the variables whose value differs, with both values. *)
Definition changelog_ok (h : chist) (c : gmap Z (option bool * option bool)) : Prop :=
  ∀ k old new, c !! k = Some (old, new) ↔
    old = amap_val (ch_base h) k ∧ new = amap_val (ch_now h) k ∧ old ≠ new.

(** Keys are not zero. *)
Definition cop_nonzero (o : cop) : Prop := match o with Plain o => aop_key o ≠ 0 | _ => True end.
(** Unassignment is only done through positive keys (what the solver does). *)
Definition cop_ok (o : cop) : Prop :=
  match o with
  | Plain (OpSet k (Some _)) => k ≠ 0
  | Plain (OpSet k None) => 0 < k
  | Plain (OpDel k) => 0 < k
  | _ => True
  end.
