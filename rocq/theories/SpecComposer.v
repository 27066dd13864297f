(** * What the export to Composer says: the specification of C76. *)
From Verif Require Import Parser Package Request.
From Verif Require Import Dimacs.
From Coq Require Import Ascii String.
Open Scope list_scope.

Definition dots (t : text) : nat := List.length (filter (λ c, c = "."%char) t).
(** The versions that have a fixed replacement. *)
Definition replacements : list (string * string) :=
  [("1.0a3", "1.0.0"); ("1.0b1", "1.0.0"); ("2010o", "2010.15.0.0"); ("2011n", "2011.14.0.0");
   ("2011g", "2011.7.0.0"); ("0.14.1rc1", "0.14.1.0"); ("0.11rc1", "0.11.0.0"); ("0.9.0rc2", "0.9.0");
   ("2.3b1.dev4669", "2.3.0"); ("1.2.dev213", "1.2.0"); ("0.4.2.dev2", "0.4.2")]%string.
Definition replaced (t u : text) : Prop :=
  (∃ a b, (a, b) ∈ replacements ∧ t = of_s a ∧ u = of_s b) ∨ ((∀ a b, (a, b) ∈ replacements → t ≠ of_s a) ∧ u = t).
(** [u] is [t], followed by ".0" as often as needed to have three dots. *)
Definition completed (t u : text) : Prop :=
  ∃ n, u = t ++ mjoin (replicate n (of_s ".0")) ∧ (3 ≤ dots u)%nat ∧ (n = 0%nat ∨ dots u = 3%nat).

Section spec.
  Context (ustr : version → text).
  Definition upstream_text (v : version) (u : text) : Prop := ∃ t, replaced (ustr v) t ∧ completed t u.
  Definition full_text (v : version) (u : text) : Prop :=
    ∃ t, upstream_text v t ∧ u = t ++ of_s "-patch" ++ of_s (str_of_Z (build v)).
  (** In constraints, build number 0 is left out. *)
  Definition bound_text (v : version) (u : text) : Prop :=
    (build v = 0 ∧ upstream_text v u) ∨ (build v ≠ 0 ∧ full_text v u).

  (** Constraints of jobs and of dependencies *)
  Inductive job_text : constr → text → Prop :=
    | jt_geq v t : bound_text v t → job_text (CGeq v) (of_s ">= " ++ t)
    | jt_gt v t : bound_text v t → job_text (CGt v) (of_s "> " ++ t)
    | jt_leq v t : bound_text v t → job_text (CLeq v) (of_s "<= " ++ t)
    | jt_lt v t : bound_text v t → job_text (CLt v) (of_s "< " ++ t)
    | jt_any : job_text CAny (of_s "*").
  Inductive dep_text : constr → text → Prop :=
    | dt_up v t : bound_text v t → dep_text (CUpstream v) (of_s "~" ++ t)
    | dt_eq v t : bound_text v t → dep_text (CEqual v) t
    | dt_any : dep_text CAny (of_s "*").
  Definition comma_list (S : constr → text → Prop) (cs : list constr) (t : text) : Prop :=
    ∃ ts, Forall2 S cs ts ∧ t = text_join (of_s ", ") ts.

  Definition job_part (j : job) (p : text * string * text) : Prop :=
    ∃ r m t, j_req j = Some r ∧ p = (of_s m, r_name r, t) ∧ comma_list job_text (r_cons r) t ∧
      ((j_kind j = JInstall ∧ m = "install"%string) ∨ (j_kind j = JRemove ∧ m = "remove"%string)).

  (** A dependency with its list of alternatives; more than one is an error, none means nothing is said. *)
  Inductive dep_says : cdep → string * list constr → Prop :=
    | ds_none n : dep_says (n, []) (n, [])
    | ds_any n : dep_says (n, [[]]) (n, [CAny])
    | ds_one n c cs : dep_says (n, [c :: cs]) (n, mjoin (c :: cs)).
  (** The mapping: each name once, in the order of first mention, with all that is said of it. *)
  Definition mapping (said : list (string * text)) (d : list (string * text)) : Prop :=
    d.*1 = fromkeys said.*1 ∧
    ∀ n t, (n, t) ∈ d → t = text_join (of_s ", ") (filter (λ x, x.1 = n) said).*2.
  Definition requires_map (ds : list cdep) (d : list (string * text)) : Prop :=
    ∃ said, Forall2 (λ x y, ∃ cs, dep_says x (y.1, cs) ∧ comma_list dep_text cs y.2) ds said ∧ mapping said d.
End spec.
