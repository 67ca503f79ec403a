(** Vocabulary for headers (C29, C39). *)
From Coq Require Import String Ascii ZArith NArith Bool List.
From Verif Require Import Base.
Import ListNotations.
Open Scope string_scope.
Open Scope list_scope.

(** The same letter, up to ASCII case. *)
Definition same_char (c d : ascii) : Prop :=
  c = d \/
  exists k, (k < 26)%N /\
    ((c = ascii_of_N (65 + k) /\ d = ascii_of_N (97 + k)) \/ (c = ascii_of_N (97 + k) /\ d = ascii_of_N (65 + k))).
Inductive same_name : string -> string -> Prop :=
| same_nil : same_name "" ""
| same_cons c d s t : same_char c d -> same_name s t -> same_name (String c s) (String d t).

(** A name on the allow-list. *)
Definition on_list (allowed : list string) (n : string) : Prop := exists a, In a allowed /\ same_name a n.

(** [v] is the last value of [n] in a list of headers. *)
Definition last_value (hs : list (string * string)) (n v : string) : Prop :=
  exists a b, hs = a ++ (n, v) :: b /\ ~ In n (map fst b).

(** The header a browser looks for before it lets a page read an answer. *)
Definition acao : string := "access-control-allow-origin".
Definition acac : string := "access-control-allow-credentials".

(** The headers that must not be "*" next to credentials. *)
Definition wildcard_headers : list string :=
  [acao; "access-control-allow-methods"; "access-control-allow-headers"; "access-control-expose-headers"].
