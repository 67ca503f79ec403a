(** Vocabulary for the hosts (C100). *)
From Coq Require Import String Ascii NArith Bool List.
From Verif Require Import Base JsonModel HoModel.
Import ListNotations.
Open Scope string_scope.

Definition http_methods : list string := ["GET"; "POST"; "PUT"; "PATCH"; "DELETE"; "HEAD"; "OPTIONS"; "CONNECT"; "TRACE"].
(** Segments of a path with what separates them *)
Inductive joined : list string -> string -> Prop :=
| joined_none : joined [] ""
| joined_one : forall x, joined [x] x
| joined_more : forall x y l t, joined (y :: l) t -> joined (x :: y :: l) (x ++ "/" ++ t)%string.
(** The values of the parameters of one name, in their order *)
Inductive values_of (k : string) : list (string * string) -> list string -> Prop :=
| values_none : values_of k [] []
| values_this : forall v l vs, values_of k l vs -> values_of k ((k, v) :: l) (v :: vs)
| values_other : forall j v l vs, j <> k -> values_of k l vs -> values_of k ((j, v) :: l) vs.
(** The text has the given query. *)
Definition has_query (t q : string) : Prop := exists a, t = (a ++ "?" ++ q)%string.
Definition without_mark (t : string) : Prop := forall a b, t <> (a ++ "?" ++ b)%string.

(** The query of a request names a configuration. *)
Definition names (params : string -> option (list (string * string))) (query : option string) (f : string) : Prop :=
  exists q l, query = Some q /\ params q = Some l /\ In ("config", f) l /\ forall g, In ("config", g) l -> g = f.
Definition names_nothing (params : string -> option (list (string * string))) (query : option string) : Prop :=
  forall q l f, query = Some q -> params q = Some l -> ~ In ("config", f) l.
(** Names of parameters are the keys of a map. *)
Definition keys_once (params : string -> option (list (string * string))) : Prop := forall q l, params q = Some l -> NoDup (map fst l).

(** JSON can begin in this way: the names of objects are in quotes. *)
Definition blank (c : ascii) : Prop := c = " "%char \/ c = ascii_of_N 9 \/ c = ascii_of_N 10 \/ c = ascii_of_N 13.
Fixpoint blanks (w : string) : Prop := match w with "" => True | String c t => blank c /\ blanks t end.
Inductive json_start : string -> Prop :=
| start_other : forall c s, c <> "{"%char -> c <> "["%char -> json_start (String c s)
| start_object : forall w c s, blanks w -> c = """"%char \/ c = "}"%char -> json_start (String "{" (w ++ String c s)%string)
| start_list : forall w s, blanks w -> json_start s -> json_start (String "[" (w ++ s)%string).
(** A name as GraphQL has it begins with a letter or an underscore. *)
Definition name_start (c : ascii) : Prop :=
  ((65 <= N_of_ascii c <= 90) \/ (97 <= N_of_ascii c <= 122) \/ N_of_ascii c = 95)%N.
(** Objects, lists of objects, lists of lists of objects, ... *)
Inductive objects_first : value -> Prop :=
| first_object : forall c k v m, name_start c -> objects_first (VObj ((String c k, v) :: m))
| first_list : forall v l, objects_first v -> objects_first (VList (v :: l)).
(** JSON texts of values without objects that have fields and without enums *)
Section Texts.
  Variable number_json : number -> string.
  Variable string_json : string -> string.
  Inductive separated : list string -> string -> Prop :=
  | sep_none : separated [] ""
  | sep_one : forall x, separated [x] x
  | sep_more : forall x w y l t, blanks w -> separated (y :: l) t -> separated (x :: y :: l) (x ++ "," ++ w ++ t)%string.
  Inductive json_text : string -> value -> Prop :=
  | text_null : json_text "null" VNull
  | text_true : json_text "true" (VBool true)
  | text_false : json_text "false" (VBool false)
  | text_number : forall n, json_text (number_json n) (VNum n)
  | text_string : forall s, json_text (string_json s) (VStr s)
  | text_list : forall ts l t, Forall2 json_text ts l -> separated ts t -> json_text ("[" ++ t ++ "]")%string (VList l)
  | text_object : json_text "{}" (VObj []).
End Texts.
Inductive plain : value -> Prop :=
| plain_null : plain VNull
| plain_bool : forall b, plain (VBool b)
| plain_num : forall n, plain (VNum n)
| plain_str : forall s, plain (VStr s)
| plain_list : forall l, (forall v, In v l -> plain v) -> plain (VList l)
| plain_empty : plain (VObj []).

(** The word, in any case *)
Inductive letter_of : ascii -> ascii -> Prop :=
| letter_small : forall n, (97 <= n <= 122)%N -> letter_of (ascii_of_N n) (ascii_of_N n)
| letter_big : forall n, (97 <= n <= 122)%N -> letter_of (ascii_of_N n) (ascii_of_N (n - 32)).
Inductive in_any_case : string -> string -> Prop :=
| any_nil : in_any_case "" ""
| any_cons : forall c d s t, letter_of c d -> in_any_case s t -> in_any_case (String c s) (String d t).
(** The variable that decides: the long name before the short one *)
Inductive decides (env : string -> option string) : string -> Prop :=
| decides_long : forall v, env "TAILCALL_TRACKER" = Some v -> decides env v
| decides_short : forall v, env "TAILCALL_TRACKER" = None -> env "TC_TRACKER" = Some v -> decides env v.
