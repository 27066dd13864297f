(** * A reader of JSON objects whose values are strings (RFC 8259). *)
From Coq Require Import Ascii String.
From Verif Require Import Base.
Local Open Scope string_scope.

(** A hexadecimal digit. *)
Definition hex_value (c : ascii) : option N :=
  let n := N_of_ascii c in
  if (48 <=? n)%N && (n <=? 57)%N then Some (n - 48)%N
  else if (97 <=? n)%N && (n <=? 102)%N then Some (n - 87)%N
  else if (65 <=? n)%N && (n <=? 70)%N then Some (n - 55)%N
  else None.
(** A character code of four digits; the characters here are those below 256. *)
Definition code_point (a b c d : ascii) : option ascii :=
  match hex_value a, hex_value b, hex_value c, hex_value d with
  | Some a, Some b, Some c, Some d =>
      let n := (((a * 16 + b) * 16 + c) * 16 + d)%N in
      if (n <? 256)%N then Some (ascii_of_N n) else None
  | _, _, _, _ => None
  end.
(** The one-letter escapes. *)
Definition escape (c : ascii) : option ascii :=
  match c with
  | """"%char => Some """"%char
  | "\"%char => Some "\"%char
  | "/"%char => Some "/"%char
  | "b"%char => Some (ascii_of_N 8)
  | "f"%char => Some (ascii_of_N 12)
  | "n"%char => Some (ascii_of_N 10)
  | "r"%char => Some (ascii_of_N 13)
  | "t"%char => Some (ascii_of_N 9)
  | _ => None
  end.
(** The rest of a string literal after its opening quotation mark: the string and what follows it. *)
Fixpoint read_chars (s : string) : option (string * string) :=
  match s with
  | "" => None
  | String """" r => Some ("", r)
  | String "\" (String "u" (String a (String b (String c (String d r))))) =>
      match code_point a b c d, read_chars r with
      | Some x, Some (t, r') => Some (String x t, r')
      | _, _ => None
      end
  | String "\" (String e r) =>
      match escape e, read_chars r with
      | Some x, Some (t, r') => Some (String x t, r')
      | _, _ => None
      end
  | String c r =>
      if (N_of_ascii c <? 32)%N then None
      else match read_chars r with Some (t, r') => Some (String c t, r') | None => None end
  end.
(** Tokens: string literals and punctuation; blanks are skipped.  [n] bounds the number of characters. *)
Inductive json_token := TString (s : string) | TPunct (c : ascii).
Fixpoint read_tokens (n : nat) (s : string) : option (list json_token) :=
  match n, s with
  | _, "" => Some []
  | O, _ => None
  | S n, String " " r => read_tokens n r
  | S n, String """" r =>
      match read_chars r with
      | Some (t, r') => match read_tokens n r' with Some ts => Some (TString t :: ts) | None => None end
      | None => None
      end
  | S n, String c r => match read_tokens n r with Some ts => Some (TPunct c :: ts) | None => None end
  end.
(** key : value, key : value, ... } *)
Fixpoint read_members (ts : list json_token) : option (list (string * string)) :=
  match ts with
  | TString k :: TPunct ":" :: TString v :: TPunct "," :: r =>
      match read_members r with Some l => Some ((k, v) :: l) | None => None end
  | [TString k; TPunct ":"; TString v; TPunct "}"] => Some [(k, v)]
  | _ => None
  end.
Definition read_json (s : string) : option (list (string * string)) :=
  match read_tokens (String.length s) s with
  | Some [TPunct "{"; TPunct "}"] => Some []
  | Some (TPunct "{" :: r) => read_members r
  | _ => None
  end.
