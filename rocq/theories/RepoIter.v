(** * Iterating a repository that may change meanwhile (simplesat/repository.py 63-66, 68-92, 137-144).
    [Repository.__iter__] is a generator over live lists: the list iterators over [_names] and over the packages of
    one name hold a position, and look at the lists when they are advanced. *)
From Verif Require Export Repository.

(** repository.py 64-66: the positions of the two loops.  [cu_names] is the position in [_names]; [cu_bucket] the
    name whose packages are listed and the position among them ([None]: the inner loop is not running). *)
Record cursor := Cursor { cu_names : nat; cu_bucket : option (string * nat) }.
Definition cur_start : cursor := Cursor 0 None.

(** 64-65: the outer loop goes to the next name that has a package; [ns] is what [_names] holds from position [i]. *)
Fixpoint scan_names (r : repository) (i : nat) (ns : list string) : res (option (package * cursor)) :=
  match ns with
  | [] => Ok None
  | n :: ns =>
      match rp_map r !! n with
      | None => Raise KeyError
      | Some [] => scan_names r (S i) ns
      | Some (p :: _) => Ok (Some (p, Cursor (S i) (Some (n, 1%nat))))
      end
  end.

(** 63-66: the next package, or the end of the iteration.  [list.sort] and [append] (87-92) change the list of a name in
    place, so the inner loop goes on in the changed list. *)
Definition iter_next (r : repository) (c : cursor) : res (option (package * cursor)) :=
  let outer := scan_names r (cu_names c) (drop (cu_names c) (rp_names r)) in
  match cu_bucket c with
  | None => outer
  | Some (n, j) =>
      match default [] (rp_map r !! n) !! j with
      | Some p => Ok (Some (p, Cursor (cu_names c) (Some (n, S j))))
      | None => outer
      end
  end.

(** repository.py 63-66: [list(repository)] *)
Fixpoint iter_all (fuel : nat) (r : repository) (c : cursor) : res (list package) :=
  match fuel with
  | O => Raise OutOfFuel
  | S fuel =>
      o ← iter_next r c;
      match o with
      | None => Ok []
      | Some (p, c) => l ← iter_all fuel r c; Ok (p :: l)
      end
  end.

(** 137-144: [r.update(q)] for another repository object [q] *)
Fixpoint update_from (fuel : nat) (r q : repository) (c : cursor) : res repository :=
  match fuel with
  | O => Raise OutOfFuel
  | S fuel =>
      o ← iter_next q c;
      match o with
      | None => Ok r
      | Some (p, c) => update_from fuel (add_package r p) q c
      end
  end.

(** 137-144: [r.update(r)] *)
Fixpoint update_self (fuel : nat) (r : repository) (c : cursor) : res repository :=
  match fuel with
  | O => Raise OutOfFuel
  | S fuel =>
      o ← iter_next r c;
      match o with
      | None => Ok r
      | Some (p, c) => update_self fuel (add_package r p) c
      end
  end.

(** A client loop [for p in r: r.add_package(q)], where [adds p] lists what it adds when it sees [p]; it sees the
    packages returned. *)
Fixpoint iter_adding (fuel : nat) (adds : package → list package) (r : repository) (c : cursor)
  : res (list package * repository) :=
  match fuel with
  | O => Raise OutOfFuel
  | S fuel =>
      o ← iter_next r c;
      match o with
      | None => Ok ([], r)
      | Some (p, c) =>
          '(l, r) ← iter_adding fuel adds (repo_update r (adds p)) c;
          Ok (p :: l, r)
      end
  end.
