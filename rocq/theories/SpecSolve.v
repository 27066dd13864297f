(** * Specification of the dependency solver's answers: what a request asks for and what is present
    after a transaction (with SpecInstall.v: what a valid installation is). *)
From Verif Require Export SpecInstall DepSolver.

(** The packages a job is about: its candidates; the newest one for a hard update. *)
Definition job_about (pkgs inst : list package) (j : job) (p : package) : Prop :=
  ∃ r, j_req j = Some r ∧
    match j_kind j with
    | JInstall | JSoftUpdate | JRemove => p ∈ pkgs ∧ req_meets r p
    | JHardUpdate => hard_choice pkgs inst r p
    | JUpgrade => False
    end.
(** The installed packages that a soft update leaves to be chosen anew. *)
Definition soft (jobs : list job) (p : package) : Prop :=
  ∃ j r, j ∈ jobs ∧ j_kind j = JSoftUpdate ∧ j_req j = Some r ∧ req_meets r p.

(** The packages present after the operations. *)
Definition after (inst : list package) (ops : list operation) (p : package) : Prop :=
  (p ∈ inst ∧ RemoveOp p ∉ ops) ∨ InstallOp p ∈ ops.
(** [q] is present, possibly as an installed package of the same name and version. *)
Definition present (inst : list package) (ops : list operation) (q : package) : Prop :=
  ∃ q', (q' = q ∨ (q' ∈ inst ∧ p_name q' = p_name q ∧ p_version q' = p_version q)) ∧ after inst ops q'.

(** An upgrade request stands for the request to install, for each installed package that has remote
    packages of its name, exactly the newest version of these. *)
Definition newest_remote (remote : list (list package)) (n : string) (v : version) : Prop :=
  (∃ q, q ∈ mjoin remote ∧ p_name q = n ∧ p_version q = v) ∧
  ∀ q, q ∈ mjoin remote → p_name q = n → ¬ vlt v (p_version q).
Definition exactly (n : string) (v : version) : requirement := Req RInstall n [CEqual v].

(** The jobs a request asks for. *)
Definition asks (ds : dep_solver) (rq : request) (jobs : list job) : Prop :=
  ((∀ j, j ∈ rq_jobs rq → j_kind j ≠ JUpgrade) ∧ jobs = rq_jobs rq) ∨
  ((∃ j, rq_jobs rq = [j] ∧ j_kind j = JUpgrade) ∧
   ∀ j, j ∈ jobs ↔ ∃ p v, p ∈ ds_installed ds ∧ newest_remote (ds_remote ds) (p_name p) v ∧
                          j = Job (Some (exactly (p_name p) v)) JInstall).

(** A solver whose pool holds the packages of [repos], among them the installed ones.  [well_formed] (SpecInstall.v):
    packages that Python considers equal are equal. *)
Record setting (repos : list (list package)) (ds : dep_solver) : Prop := {
  sv_pool : ∃ m, pool_of repos m = Ok (ds_pool ds);
  sv_installed : ∀ p, p ∈ ds_installed ds → p ∈ mjoin repos;
  sv_keys : well_formed (mjoin repos) }.

(** Assumptions on metadata some properties need.  No name is provided by packages of two names
    (packages that are provided virtually by others break several guarantees, see C17, C23, C50). *)
Definition single_names (pkgs : list package) : Prop :=
  ∀ p q n, p ∈ pkgs → q ∈ pkgs → provides p n → provides q n → p_name p = p_name q.
(** An installed package and the same release of it in a repository carry the same metadata. *)
Definition same_metadata (pkgs inst : list package) : Prop :=
  ∀ p q, p ∈ inst → q ∈ pkgs → p_name p = p_name q → p_version p = p_version q →
    p_requires p = p_requires q ∧ p_conflicts p = p_conflicts q ∧ p_provides p = p_provides q.
(** Remove jobs name something that is installed, or rule out every version of the packages they are about. *)
Definition removes_known (pkgs inst : list package) (jobs : list job) : Prop :=
  ∀ j r, j ∈ jobs → j_kind j = JRemove → j_req j = Some r →
    (∃ i, i ∈ inst ∧ provides i (r_name r)) ∨
    (∀ p q, p ∈ pkgs → q ∈ pkgs → req_meets r p → p_name q = p_name p → req_meets r q).
