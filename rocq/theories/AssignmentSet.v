(** * AssignmentSet (simplesat/sat/assignment_set.py) *)
From Verif Require Export Base.

(** assignment_set.py 11-21: the attributes. *)
Record aset := ASet {
  a_data : gmap Z bool;                                 (* _data *)
  a_orig : gmap Z (option bool);                        (* _orig *)
  a_seen : gset Z;                                      (* _seen *)
  a_cached : option (gmap Z (option bool * option bool)); (* _cached_changelog *)
  a_assigned : gset Z;                                  (* _assigned_ids *)
  a_new : gset Z }.                                     (* new_keys *)

(** 11-21: __init__() *)
Definition aset_empty : aset := ASet ∅ ∅ ∅ None ∅ ∅.

(** 81-89: _update_diff *)
Definition update_diff (key : Z) (value : option bool) (a : aset) : aset :=
  let key := match value with Some _ => if key <? 0 then - key else key | None => key end in
  let prev := a_data a !! key in
  let orig := match a_orig a !! key with Some _ => a_orig a | None => <[key := prev]> (a_orig a) end in
  ASet (a_data a) orig (a_seen a) None (a_assigned a) (a_new a).

(** 40-47: __delitem__ *)
Definition aset_del (key : Z) (a : aset) : res aset :=
  let a := ASet (a_data a) (a_orig a) (a_seen a ∖ {[Z.abs key]}) (a_cached a) (a_assigned a) (a_new a) in
  match a_data a !! key with
  | None => Ok a
  | Some _ =>
      let a := update_diff key None a in
      let data := delete key (a_data a) in
      match data !! (- key) with
      | None => Raise KeyError
      | Some _ =>
          Ok (ASet (delete (- key) data) (a_orig a) (a_seen a) (a_cached a)
                   (a_assigned a ∖ {[Z.abs key]}) (a_new a))
      end
  end.

(** 23-38: __setitem__ *)
Definition aset_set (key : Z) (value : option bool) (a : aset) : res aset :=
  let abskey := Z.abs key in
  let a := if decide (abskey ∈ a_seen a) then a
           else ASet (a_data a) (a_orig a) (a_seen a) (a_cached a) (a_assigned a)
                     ({[abskey]} ∪ a_new a) in
  a ← match value with
      | None => aset_del key a
      | Some b =>
          let a := update_diff key value a in
          Ok (ASet (<[- key := negb b]> (<[key := b]> (a_data a))) (a_orig a) (a_seen a)
                   (a_cached a) ({[Z.abs key]} ∪ a_assigned a) (a_new a))
      end;
  Ok (ASet (a_data a) (a_orig a) ({[abskey]} ∪ a_seen a) (a_cached a) (a_assigned a) (a_new a)).

(** 11-21: __init__(assignments) on the items of a dict. *)
Definition aset_of (items : list (Z * option bool)) : res aset :=
  foldM (λ a kv, aset_set (fst kv) (snd kv) a) items aset_empty.

(** 49-53: __getitem__ *)
Definition aset_getitem (key : Z) (a : aset) : res (option bool) :=
  match a_data a !! key with
  | Some b => Ok (Some b)
  | None => if decide (Z.abs key ∈ a_seen a) then Ok None else Raise KeyError
  end.

(** 55-56 [get(key)] and 120-122 [value(lit)] *)
Definition aset_value (a : aset) (lit : Z) : option bool := a_data a !! lit.

(** 58-59 __len__, 64-65 __contains__, 124-126 num_assigned, 132-134 unassigned_ids *)
Definition aset_len (a : aset) : nat := size (a_seen a).
Definition aset_contains (a : aset) (key : Z) : bool := bool_decide (Z.abs key ∈ a_seen a).
Definition num_assigned (a : aset) : nat := size (a_assigned a).
Definition unassigned_ids (a : aset) : gset Z := a_seen a ∖ a_assigned a.

(** 67-70: items(): sorted by key (keys are distinct, so values are never compared). *)
Definition aset_items (a : aset) : list (Z * option bool) :=
  (λ k, (k, a_data a !! k)) <$> merge_sort Z.le (elements (a_seen a)).

(** 91-99: get_changelog *)
Definition compute_changelog (a : aset) : gmap Z (option bool * option bool) :=
  omap (λ p, if decide (snd p = fst p) then None else Some p)
       (map_imap (λ key old, Some (old, a_data a !! key)) (a_orig a)).
Definition get_changelog (a : aset) : gmap Z (option bool * option bool) * aset :=
  match a_cached a with
  | Some c => (c, a)
  | None => let c := compute_changelog a in
            (c, ASet (a_data a) (a_orig a) (a_seen a) (Some c) (a_assigned a) (a_new a))
  end.

(** 101-106: consume_changelog *)
Definition consume_changelog (a : aset) : gmap Z (option bool * option bool) * aset :=
  let '(old, a) := get_changelog a in
  (old, ASet (a_data a) ∅ (a_seen a) (Some ∅) (a_assigned a) ∅).

(** 108-115: copy *)
Definition aset_copy (a : aset) : aset :=
  ASet (a_data a) (a_orig a) (a_seen a) None (a_assigned a) (a_new a).
