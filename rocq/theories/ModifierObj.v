(** * ConstraintModifiers objects (simplesat/constraints/constraint_modifiers.py 67-117). *)
From Coq Require Import Ascii String.
From Verif Require Export Constraints Sorting.
Open Scope list_scope.

(** What is given as a collection of names: a string or an iterable of strings. *)
Inductive names_arg := AString (s : string) | ANames (l : list string).
(** 67-76: as_set, the converter of the three attributes (79-87) *)
Definition as_set (c : names_arg) : gset string :=
  match c with AString s => {[s]} | ANames l => list_to_set l end.
(** 84-88: ConstraintModifiers(allow_newer, allow_any, allow_older); the default of each is () (79) *)
Definition mods_new (newer any older : option names_arg) : modifiers :=
  Mods (as_set (default (ANames []) newer)) (as_set (default (ANames []) any)) (as_set (default (ANames []) older)).
(** 90-91: asdict.  [attr.asdict] gives the attributes in the order of the class. *)
Definition mods_asdict (m : modifiers) : list (string * list string) :=
  (λ kv : string * gset string, (kv.1, sort_by str_ltb (elements kv.2))) <$>
    [("allow_newer", allow_newer m); ("allow_any", allow_any m); ("allow_older", allow_older m)]%string.
(** 93-97: update; 99-113: remove.  What the object is after the call. *)
Definition call_update (m other : modifiers) : modifiers := mods_update m other.
Definition call_remove (m : modifiers) (packages : names_arg) : res modifiers :=
  match packages with AString _ => Raise TypeError | ANames l => Ok (mods_remove m (list_to_set l)) end.
(** Calls on one object, one after the other; a call that raises leaves it as it is. *)
Inductive mods_call := CallUpdate (other : modifiers) | CallRemoveNames (packages : names_arg).
Definition mods_step (m : modifiers) (c : mods_call) : modifiers :=
  match c with
  | CallUpdate o => call_update m o
  | CallRemoveNames p => match call_remove m p with Ok m' => m' | Raise _ => m end
  end.
(** ConstraintModifiers with the items of the dict as keywords.  Simplification: other keys are ignored (TypeError). *)
Definition mods_of_dict (d : list (string * list string)) : modifiers :=
  let get k := snd <$> head (filter (λ kv : string * list string, kv.1 = k) d) in
  mods_new (ANames <$> get "allow_newer"%string) (ANames <$> get "allow_any"%string) (ANames <$> get "allow_older"%string).
