(** * Requests (simplesat/request.py) *)
From Verif Require Export Package.

(** request.py 10-15: JobType *)
Inductive job_kind := JInstall | JRemove | JSoftUpdate | JHardUpdate | JUpgrade.
Global Instance job_kind_eq_dec : EqDecision job_kind.
Proof. solve_decision. Defined.

(** 18-32: _Job.  [None] is only allowed for upgrade jobs (22-29). *)
Record job := Job { j_req : option requirement; j_kind : job_kind }.
Global Instance job_eq_dec : EqDecision job.
Proof. solve_decision. Defined.
Definition mk_job (r : option requirement) (k : job_kind) : res job :=
  match r with
  | None => if decide (k = JUpgrade) then Ok (Job r k) else Raise ValueError
  | Some _ => Ok (Job r k)
  end.

(** 35-66: Request *)
Record request := Request { rq_mods : modifiers; rq_jobs : list job }.
Definition request_new (m : modifiers) : request := Request m [].

(** 92-100: _add_job *)
Definition add_job (rq : request) (r : option requirement) (k : job_kind) : res request :=
  if (0 <? length (rq_jobs rq))%nat
     && (existsb (λ j, bool_decide (j_kind j = JUpgrade)) (rq_jobs rq) || bool_decide (k = JUpgrade))
  then Raise ValueError
  else j ← mk_job r k; Ok (Request (rq_mods rq) (rq_jobs rq ++ [j])).

(** 68-90: the calls a client can make. *)
Inductive rcall :=
  | CallInstall (r : requirement) | CallRemove (r : requirement) | CallUpgrade
  | CallHardUpdate (r : requirement) | CallSoftUpdate (r : requirement)
  | CallAllowNewer (n : string) | CallAllowAny (n : string) | CallAllowOlder (n : string).
Definition do_call (rq : request) (c : rcall) : res request :=
  let m := rq_mods rq in
  match c with
  | CallInstall r => add_job rq (Some r) JInstall
  | CallRemove r => add_job rq (Some r) JRemove
  | CallUpgrade => add_job rq None JUpgrade
  | CallHardUpdate r => add_job rq (Some r) JHardUpdate
  | CallSoftUpdate r => add_job rq (Some r) JSoftUpdate
  | CallAllowNewer n => Ok (Request (Mods ({[n]} ∪ allow_newer m) (allow_any m) (allow_older m)) (rq_jobs rq))
  | CallAllowAny n => Ok (Request (Mods (allow_newer m) ({[n]} ∪ allow_any m) (allow_older m)) (rq_jobs rq))
  | CallAllowOlder n => Ok (Request (Mods (allow_newer m) (allow_any m) ({[n]} ∪ allow_older m)) (rq_jobs rq))
  end.

(** A client that goes on after a ValueError keeps the old request. *)
Definition do_call_catch (rq : request) (c : rcall) : request :=
  match do_call rq c with Ok rq' => rq' | Raise _ => rq end.
