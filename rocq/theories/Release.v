(** * Publishing releases (.github/actions).  The world is a server that keeps the assets of a release by name. *)
From Coq Require Import String.
From Verif Require Export Base.
Local Open Scope string_scope.
Local Open Scope list_scope.

(** ** upload-assets/utils/upload_assets.py *)
(** Requests that change the release (64-118 delete_asset, upload_asset). *)
Inductive action := ADelete (name : string) | AUpload (name data : string).
(** What the server does; [None]: it refuses, and [raise_for_status] raises (62, 99): there is no such asset, or there is one of this name.
    Simplified: nobody else changes the release meanwhile; asset names on the server are different. *)
Definition perform (a : action) (st : gmap string string) : option (gmap string string) :=
  match a with
  | ADelete n => match st !! n with Some _ => Some (delete n st) | None => None end
  | AUpload n d => match st !! n with Some _ => None | None => Some (<[n := d]> st) end
  end.
Fixpoint perform_all (l : list action) (st : gmap string string) : option (gmap string string) :=
  match l with [] => Some st | a :: r => match perform a st with Some st' => perform_all r st' | None => None end end.

Section upload.
  (** [hash]: sha256.  [force], [replace]: the options. *)
  Context (hash : string → string) (force replace : bool).
  (** 157-187: the body of the loop for the file [f] of the folder; [assets] is the list got at the beginning (156).  The second component: [exit(-1)]. *)
  Definition for_archive (assets : gmap string string) (f : string * string) : list action * bool :=
    match assets !! f.1 with
    | None => ([AUpload f.1 f.2], false)
    | Some d =>
        if force then ([ADelete f.1; AUpload f.1 f.2], false)
        else if decide (hash f.2 = hash d) then ([], false)
        else if replace then ([ADelete f.1; AUpload f.1 f.2], false)
        else ([], true)
    end.
  (** 157: the loop over the files, in the order in which [glob] finds them. *)
  Fixpoint upload_plan (assets : gmap string string) (folder : list (string * string)) : list action * bool :=
    match folder with
    | [] => ([], false)
    | f :: r =>
        let '(l, stop) := for_archive assets f in
        if stop then (l, true) else let '(l', stop') := upload_plan assets r in (l ++ l', stop')
    end.
  (** The whole script on a release: all requests and whether it exits with -1. *)
  Definition upload_main (folder : list (string * string)) (st : gmap string string) : option (gmap string string) * bool :=
    let '(l, stop) := upload_plan st folder in (perform_all l st, stop).
  (** The script is killed before its request number [k]. *)
  Definition upload_killed (k : nat) (folder : list (string * string)) (st : gmap string string) : option (gmap string string) :=
    perform_all (take k (upload_plan st folder).1) st.
End upload.

(** ** prepare-release/utils/retry.py, common.py *)
(** 41-78: sleeping_retry with a loop body that succeeds in round [k] if [ok k]; [now k] is what the clock shows after the pause that follows round [k]
    (32: the test of busy_retry).  Result: the end, and the pauses made.  [None] for the end: the body left the loop. *)
Inductive loop_end := Found (round : nat) | Timeout | Gave_up.
Section retry.
  Context (deadline max_delay : Z) (error : bool) (ok : nat → bool) (now : nat → Z).
  (** [n] bounds the number of rounds. *)
  Fixpoint rounds (n k : nat) (delay : Z) : option (loop_end * list Z) :=
    match n with
    | O => None
    | S n =>
        if ok k then Some (Found k, [])
        else if decide (deadline ≤ now k) then Some (if error then Timeout else Gave_up, [delay])
        else match rounds n (S k) (Z.min (delay * 2) max_delay) with Some (e, l) => Some (e, delay :: l) | None => None end
    end.
End retry.
(** [sleeping_retry(timeout, init_delay=, max_delay=, error=)]; 27-28: a timeout that is not positive is refused.  Times are numbers of some unit. *)
Definition sleeping_retry (timeout init_delay max_delay : Z) (error : bool) (start : Z) (ok : nat → bool) (now : nat → Z) (n : nat)
  : res (option (loop_end * list Z)) :=
  if decide (timeout ≤ 0) then Raise ValueError else Ok (rounds (start + timeout) max_delay error ok now n 0 init_delay).
(** common.py 51-60: verify_release, in milliseconds; [error] is not passed, so it is True. *)
Definition verify_release (max_delay start : Z) (ok : nat → bool) (now : nat → Z) (n : nat) : res (option (list Z)) :=
  r ← sleeping_retry 2000 10 max_delay true start ok now n;
  match r with
  | None => Ok None
  | Some (Found _, l) => Ok (Some l)
  | Some (Timeout, _) => Raise AssertionError
  | Some (Gave_up, _) => Raise ValueError
  end.
