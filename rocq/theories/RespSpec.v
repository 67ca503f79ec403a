(** Vocabulary for C55 (headers of the answer), C56 (GraphQL as a request body) and C57
    (routes). *)
From Coq Require Import String Ascii ZArith NArith Bool List.
From Verif Require Import Base RequestSpec RespModel.
Import ListNotations.
Open Scope list_scope.
Open Scope string_scope.

(** All values of a header, in order. *)
Fixpoint values (n : string) (h : list (string * string)) : list string :=
  match h with
  | [] => []
  | (m, v) :: t => if String.eqb n m then v :: values n t else values n t
  end.

(** The last answer that carries the header gives its first value. *)
Inductive last_sent (n : string) : list upstream_answer -> string -> Prop :=
| last_sent_here a rest v more : values n (w_headers a) = v :: more ->
    (forall b, In b rest -> values n (w_headers b) = []) -> last_sent n (a :: rest) v
| last_sent_later a rest v : last_sent n rest v -> last_sent n (a :: rest) v.
(** No answer carries the header. *)
Definition never_sent (n : string) (answers : list upstream_answer) : Prop :=
  forall a, In a answers -> values n (w_headers a) = [].

(** The first cookie of every successful answer, one after the other. *)
Fixpoint cookies (answers : list upstream_answer) : list string :=
  match answers with
  | [] => []
  | a :: rest => (if w_success a then match values "set-cookie" (w_headers a) with c :: _ => [c] | [] => [] end else []) ++ cookies rest
  end%list.
(** Texts separated by a semicolon and a space. *)
Fixpoint semicolons (l : list string) : string :=
  match l with
  | [] => ""
  | [s] => s
  | s :: rest => s ++ "; " ++ semicolons rest
  end.

(** A text of printable ASCII, spaces and tabs. *)
Definition printable (s : string) : Prop :=
  every (fun c => let n := N_of_ascii c in ((N.leb 32 n && N.ltb n 127) || N.eqb n 9)%bool) s.

(** What a header name may be, and lower case. *)
Definition token (s : string) : Prop :=
  s <> "" /\ forall c, In c (list_ascii_of_string s) ->
    In c (list_ascii_of_string "!#$%&'*+-.^_`|~0123456789abcdefghijklmnopqrstuvwxyzABCDEFGHIJKLMNOPQRSTUVWXYZ").
Definition small (c : ascii) : ascii :=
  let n := N_of_ascii c in if (N.leb 65 n && N.leb n 90)%bool then ascii_of_N (n + 32) else c.
Definition small_letters (s : string) : string := string_of_list_ascii (map small (list_ascii_of_string s)).

(** The JSON text of a request for the operation. *)
Definition requests (body operation : string) : Prop :=
  exists content, body = "{""query"": " ++ """" ++ content ++ """" ++ " }" /\ json_chars content operation.
(** Printable characters without the backslash, tabs and line ends. *)
Definition graphql_char (c : ascii) : bool :=
  let n := N_of_ascii c in
  ((N.leb 32 n && negb (N.eqb n 127) && negb (N.eqb n 92)) || N.eqb n 9 || N.eqb n 10 || N.eqb n 13)%bool.
