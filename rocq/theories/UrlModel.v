(** The parts of the url, percent-encoding and form_urlencoded crates used by
    src/core/http/request_template.rs.  A text is a list of bytes. *)
From Coq Require Import String Ascii NArith Bool List.
From Verif Require Import Base.
Import ListNotations.
Open Scope list_scope.
Open Scope string_scope.

(** percent_encoding: upper-case hexadecimal digits. *)
Definition hex_digit (n : N) : ascii :=
  if N.ltb n 10 then ascii_of_N (48 + n) else ascii_of_N (55 + n).
Definition hex_value (c : ascii) : option N :=
  let n := N_of_ascii c in
  if (N.leb 48 n && N.leb n 57)%bool then Some (n - 48)%N
  else if (N.leb 65 n && N.leb n 70)%bool then Some (n - 55)%N
  else if (N.leb 97 n && N.leb n 102)%bool then Some (n - 87)%N
  else None.

(** url's SPECIAL_QUERY set: controls, everything beyond ASCII, and six more. *)
Definition query_escaped (c : ascii) : bool :=
  let n := N_of_ascii c in
  (N.ltb n 32 || N.leb 127 n || N.eqb n 32 || N.eqb n 34 || N.eqb n 35 || N.eqb n 60 || N.eqb n 62 || N.eqb n 39)%bool.
(** Tabs and line ends are dropped by url's parser. *)
Definition query_dropped (c : ascii) : bool :=
  let n := N_of_ascii c in (N.eqb n 9 || N.eqb n 10 || N.eqb n 13)%bool.

(** [Url::set_query] (and the query part of [Url::parse]) for http and https. *)
Fixpoint encode_query (s : string) : string :=
  match s with
  | EmptyString => ""
  | String c t =>
      if query_dropped c then encode_query t
      else if query_escaped c then
        let n := N_of_ascii c in
        String "%" (String (hex_digit (N.div n 16)) (String (hex_digit (N.modulo n 16)) (encode_query t)))
      else String c (encode_query t)
  end.

(** form_urlencoded's decoding of a name or value: plus signs are spaces, then
    percent-decoding; a percent sign not followed by two digits stays. *)
Fixpoint decode_form (s : string) : string :=
  match s with
  | EmptyString => ""
  | String c t =>
      if Ascii.eqb c "+" then String " " (decode_form t)
      else if Ascii.eqb c "%" then
        match t with
        | String a (String b r) =>
            match hex_value a, hex_value b with
            | Some x, Some y => String (ascii_of_N (16 * x + y)) (decode_form r)
            | _, _ => String c (decode_form t)
            end
        | _ => String c (decode_form t)
        end
      else String c (decode_form t)
  end.

Fixpoint split_on (c : ascii) (s : string) : list string :=
  match s with
  | EmptyString => [""]
  | String d t =>
      if Ascii.eqb d c then "" :: split_on c t
      else match split_on c t with
           | [] => [String d ""]
           | h :: r => String d h :: r
           end
  end.
(** The text before the first [c], and what follows it. *)
Fixpoint cut_at (c : ascii) (s : string) : string * option string :=
  match s with
  | EmptyString => ("", None)
  | String d t => if Ascii.eqb d c then ("", Some t)
                  else let '(a, b) := cut_at c t in (String d a, b)
  end.

(** form_urlencoded::parse, as in [Url::query_pairs]. *)
Definition form_pair (item : string) : list (string * string) :=
  if String.eqb item "" then []
  else let '(k, v) := cut_at "=" item in
       [(decode_form k, decode_form (match v with Some v => v | None => "" end))].
Definition form_pairs (query : string) : list (string * string) :=
  flat_map form_pair (split_on "&" query).

(** A URL: everything before the query, and the query.  The fragment is never sent and
    is left out. *)
Record url : Type := { u_base : string; u_query : option string }.
Definition url_text (u : url) : string :=
  match u_query u with Some q => u_base u ++ "?" ++ q | None => u_base u end.
Definition query_pairs (u : url) : list (string * string) :=
  match u_query u with Some q => form_pairs q | None => [] end.
Definition set_query (q : option string) (u : url) : url :=
  {| u_base := u_base u; u_query := option_map encode_query q |}.

Section Parse.
  (** [Url::parse] on what precedes the query: the normalised text, or an error. *)
  Variable parse_base : string -> option string.

  Definition parse_url (s : string) : option url :=
    let '(s, _) := cut_at "#" s in
    let '(b, q) := cut_at "?" s in
    match parse_base b with
    | Some b => Some {| u_base := b; u_query := option_map encode_query q |}
    | None => None
    end.
End Parse.
