(** * Specification of scenario files: what the loaded data says. *)
From Verif Require Export SpecPretty SpecSolve Scenario.
From Coq Require Import Ascii String.
Open Scope list_scope.

Section spec.
  Context (vparse : text → res version) (vtext : text → text).

  (** The version text of a package string: it begins, after blanks, with a name, spaces and the version, followed
      by blanks or by ";". *)
  Definition version_of_line (s v : text) : Prop :=
    ∃ b pre rest n, s = b ++ pre ++ rest ∧ blank b ∧ (blank rest ∨ ∃ r, rest = ";"%char :: r) ∧ preamble_of pre n v.
  (** A line of "packages" describes the package [m] (C61) under the name "name version". *)
  Definition describes (s full : text) (m : metadata) : Prop :=
    parse_to_package vparse s = Ok m ∧ ∃ v, version_of_line s v ∧ full = of_s (mt_name m) ++ of_s " " ++ vtext v.
  (** The package known by a full name is the one the last line with this name describes. *)
  Definition known (lines : list text) (full : text) (m : metadata) : Prop :=
    ∃ l1 s l2, lines = l1 ++ s :: l2 ∧ describes s full m ∧ ∀ s' m', s' ∈ l2 → ¬ describes s' full m'.
  (** The full names in the order of their first lines. *)
  Definition all_names (lines names : list text) : Prop :=
    ∃ fulls, Forall2 (λ s f, ∃ m, describes s f m) lines fulls ∧ names = rev (remove_dups (rev fulls)).

  (** Jobs. *)
  Definition operation_kind (op : string) (k : job_kind) : Prop :=
    (op = "install" ∧ k = JInstall) ∨ (op = "remove" ∧ k = JRemove) ∨
    (op = "hard_update" ∧ k = JHardUpdate) ∨ (op = "soft_update" ∧ k = JSoftUpdate).
  Definition is_update_all (rd : request_data) : Prop := rd_operation rd = Some "update_all".
  Global Instance is_update_all_dec rd : Decision (is_update_all rd).
  Proof. unfold is_update_all. apply _. Defined.
  (** [s] is the requirement [r] (C55). *)
  Definition reads (s : text) (r : requirement) : Prop := req_from_string vparse RBase s = Ok r.
  Definition entry_job (rd : request_data) (j : job) : Prop :=
    ∃ op s r k, rd_operation rd = Some op ∧ rd_requirement rd = Some s ∧ reads s r ∧ operation_kind op k ∧ j = Job (Some r) k.
  (** The marked entries that are left: each request for a name takes away one entry that is this name, the first
      ones first.  The [i]-th entry is left if there are at least as many equal entries before it as there are requests
      for it. *)
  Definition count (x : text) (l : list text) : nat := List.length (filter (λ y, y = x) l).
  Definition left_over (names marked left : list text) : Prop :=
    left = omap id (imap (λ i s, if decide (count s names ≤ count s (take i marked))%nat then Some s else None) marked).
  Definition asked_name (j : job) : text := match j_req j with Some r => of_s (r_name r) | None => [] end.

  Record request_loaded (d : scenario_data) (rq : request) : Prop := {
    rl_newer : ∀ n, n ∈ allow_newer (rq_mods rq) ↔ ∃ ns, ("allow_newer", ns) ∈ sd_modifiers d ∧ n ∈ ns;
    rl_any : ∀ n, n ∈ allow_any (rq_mods rq) ↔ ∃ ns, ("allow_any", ns) ∈ sd_modifiers d ∧ n ∈ ns;
    rl_older : ∀ n, n ∈ allow_older (rq_mods rq) ↔ ∃ ns, ("allow_older", ns) ∈ sd_modifiers d ∧ n ∈ ns;
    rl_kinds : ∀ k ns, (k, ns) ∈ sd_modifiers d → ns ≠ [] → k = "allow_newer" ∨ k = "allow_any" ∨ k = "allow_older";
    rl_jobs : ∃ asked left kept, rq_jobs rq = asked ++ kept ∧
      Forall2 entry_job (filter (λ rd, ¬ is_update_all rd) (sd_request d)) asked ∧
      left_over (asked_name <$> asked) (sd_marked d) left ∧
      Forall2 (λ s j, ∃ r k, reads s r ∧ j = Job (Some r) k ∧
                 ((k = JHardUpdate ∧ Exists is_update_all (sd_request d)) ∨
                  (k = JInstall ∧ ¬ Exists is_update_all (sd_request d)))) left kept }.

  (** Expected operations. *)
  Definition says_package (s : option text) (m : metadata) : Prop := ∃ t full, s = Some t ∧ describes t full m.
  Definition op_says (o : op_data) (x : expected_op) : Prop :=
    (od_kind o = Some "install" ∧ ∃ p, says_package (od_package o) p ∧ x = ExpInstall p) ∨
    (od_kind o = Some "update" ∧ ∃ p q, says_package (od_to o) p ∧ says_package (od_from o) q ∧ x = ExpUpdate p q) ∨
    (od_kind o = Some "remove" ∧ ∃ p, says_package (od_package o) p ∧ x = ExpRemove p).

  Record loaded (d : scenario_data) (sc : scenario) : Prop := {
    ld_request : request_loaded d (sc_request sc);
    ld_packages : all_names (sd_packages d) (sc_packages sc).*1 ∧
                  ∀ f m, (f, m) ∈ sc_packages sc → known (sd_packages d) f m;
    ld_remote : match sd_remote d with
                | Some names => Forall2 (known (sd_packages d)) names (sc_remote sc)
                | None => sc_remote sc = (sc_packages sc).*2
                end;
    ld_installed : Forall2 (known (sd_packages d)) (sd_installed d) (sc_installed sc);
    ld_operations : Forall2 op_says (sd_transaction d) (sc_operations sc);
    ld_pretty : Forall2 op_says (sd_pretty d) (sc_pretty sc);
    ld_failure : sc_failure sc = sd_failure d }.

  (** A package of the pool stems from a line of "packages" whose full name is listed. *)
  Definition dep_said (d : rdep) (c : cdep) : Prop := c.1 = d.1 ∧ metadata_says vparse d.2 c.2.
  Definition package_said (info : string) (m : metadata) (p : package) : Prop :=
    p_name p = mt_name m ∧ p_version p = mt_version m ∧ Forall2 dep_said (mt_requires m) (p_requires p) ∧
    Forall2 dep_said (mt_conflicts m) (p_conflicts p) ∧ Forall2 dep_said (mt_provides m) (p_provides p) ∧ p_repo p = Some info.
End spec.
