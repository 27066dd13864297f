(** * The files for PHP's Composer (simplesat/utils/_composer_utils.py 82-98). *)
From Coq Require Import Ascii String.
From Verif Require Export Composer SpecJsonValue.
Local Open Scope string_scope.
Local Open Scope list_scope.

(** [json.dumps(v, indent=4)] (the standard library's encoder).  Simplification: Python 3, where no blank follows the comma at the end of a line. *)
Definition line_start (level : nat) : string := String (ascii_of_N 10) (String.concat "" (repeat "    " level)).
Fixpoint dumps (level : nat) (v : json) : string :=
  let block o c parts := match parts with
    | [] => o +:+ c
    | _ => o +:+ line_start (S level) +:+ str_join ("," +:+ line_start (S level)) parts +:+ line_start level +:+ c
    end in
  match v with
  | JString s => json_string s
  | JArray l => block "[" "]" (map (dumps (S level)) l)
  | JObject l => block "{" "}" (map (λ m : string * json, json_string m.1 +:+ ": " +:+ dumps (S level) m.2) l)
  end.

(** 59-69: the dict of an entry *)
Definition entry_json (e : entry) : json :=
  JObject [("name", JString (e_name e)); ("version", JString (to_s (e_version e)));
           ("version_normalized", JString (to_s (e_normalized e)));
           ("require", JObject ((λ kv : string * text, (kv.1, JString (to_s kv.2))) <$> e_require e))].

Section files.
  Context (ustr vstr : version → text).
  (** 86-88, 92-94: the file is opened for writing, which empties it, then the entries are made, then written. *)
  Definition write_definition (files : gmap string string) (name : string) (r : repository) : gmap string string * res unit :=
    match repository_to_composer ustr vstr r with
    | Ok es => (<[name := dumps 0 (JArray (entry_json <$> es))]> files, Ok tt)
    | Raise e => (<[name := ""]> files, Raise e)
    end.
  (** 82-98: scenario_to_php_template_variables.  [remotes], [installed], [jobs]: of the scenario.  The value: the two names and the parts. *)
  Definition template_variables (files : gmap string string) (remotes : list repository) (installed : repository) (jobs : list job)
      (remote_definition installed_definition : string)
    : gmap string string * res (string * string * list (text * string * text)) :=
    match remotes with
    | [] => (files, Raise IndexError)
    | remote :: _ =>
        match write_definition files remote_definition remote with
        | (files, Raise e) => (files, Raise e)
        | (files, Ok _) =>
            match write_definition files installed_definition installed with
            | (files, Raise e) => (files, Raise e)
            | (files, Ok _) => (files, parts ← request_to_php_parts ustr jobs; Ok (remote_definition, installed_definition, parts))
            end
        end
    end.
End files.
