(** * What the files for PHP's Composer say: the specification of C93. *)
From Coq Require Import Ascii String.
From Verif Require Export Parser Repository SpecComposer SpecJsonValue.
Local Open Scope string_scope.
Local Open Scope list_scope.

Section spec.
  Context (ustr vstr : version → text).
  (** The object of a package: name, version, version for Composer and dependencies. *)
  Definition says_package (p : package) (j : json) : Prop :=
    ∃ normalized require, full_text ustr (p_version p) normalized ∧ requires_map ustr (p_requires p) require ∧
      j = JObject [("name", JString (p_name p)); ("version", JString (to_s (vstr (p_version p)))); ("version_normalized", JString (to_s normalized));
                   ("require", JObject ((λ nt : string * text, (nt.1, JString (to_s nt.2))) <$> require))].
  (** A file that says what a repository has: one object for each package, in the order of the repository. *)
  Definition says_repository (r : repository) (t : string) : Prop :=
    ∃ l, text_says t (JArray l) ∧ Forall2 says_package (repo_iter r) l.
End spec.
