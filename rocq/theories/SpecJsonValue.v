(** * JSON texts (RFC 8259): strings, arrays and objects. *)
From Coq Require Import Ascii String.
From Verif Require Export Base SpecJson.
Local Open Scope string_scope.
Local Open Scope list_scope.

(** A value; an object lists its members in the order of the text. *)
Inductive json := JString (s : string) | JArray (l : list json) | JObject (l : list (string * json)).

(** The tokens of a text: blanks and line feeds between tokens are skipped. *)
Definition line_feed_token : json_token := TPunct (ascii_of_N 10).
Global Instance json_token_eq_dec : EqDecision json_token.
Proof. solve_decision. Defined.
Definition tokens_of (s : string) : option (list json_token) :=
  filter (λ t, t ≠ line_feed_token) <$> read_tokens (String.length s) s.

(** The grammar. *)
Inductive json_says : json → list json_token → Prop :=
  | js_string s : json_says (JString s) [TString s]
  | js_array_empty : json_says (JArray []) [TPunct "["; TPunct "]"]
  | js_array x xs ts us : json_says x ts → items_say xs us → json_says (JArray (x :: xs)) (TPunct "[" :: ts ++ us)
  | js_object_empty : json_says (JObject []) [TPunct "{"; TPunct "}"]
  | js_object k x ms ts us : json_says x ts → members_say ms us →
      json_says (JObject ((k, x) :: ms)) (TPunct "{" :: TString k :: TPunct ":" :: ts ++ us)
with items_say : list json → list json_token → Prop :=
  | is_end : items_say [] [TPunct "]"]
  | is_item x xs ts us : json_says x ts → items_say xs us → items_say (x :: xs) (TPunct "," :: ts ++ us)
with members_say : list (string * json) → list json_token → Prop :=
  | ms_end : members_say [] [TPunct "}"]
  | ms_member k x ms ts us : json_says x ts → members_say ms us →
      members_say ((k, x) :: ms) (TPunct "," :: TString k :: TPunct ":" :: ts ++ us).
Definition text_says (s : string) (v : json) : Prop := ∃ ts, tokens_of s = Some ts ∧ json_says v ts.
