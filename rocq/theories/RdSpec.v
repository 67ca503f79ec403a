(** Vocabulary for reading REST endpoints (C99). *)
From Coq Require Import String Ascii ZArith NArith Bool List.
From Verif Require Import Base JsonModel RestModel RdModel.
Import ListNotations.
Open Scope string_scope.

(** Arguments are given once, as GraphQL wants it. *)
Definition given_once {A} (args : list (string * A)) : Prop := NoDup (map fst args).
(** A method as it is written, in any case, and its name *)
Inductive upper : ascii -> ascii -> Prop :=
| upper_small : forall n, (97 <= n <= 122)%N -> upper (ascii_of_N n) (ascii_of_N (n - 32))
| upper_other : forall c, ~ (97 <= N_of_ascii c <= 122)%N -> upper c c.
Inductive names_method : string -> string -> Prop :=
| names_nil : names_method "" ""
| names_cons : forall c d s t, upper c d -> names_method s t -> names_method (String c s) (String d t).
Definition http_method (m : string) : Prop :=
  m = "GET" \/ m = "POST" \/ m = "PUT" \/ m = "PATCH" \/ m = "DELETE" \/ m = "HEAD" \/ m = "OPTIONS" \/ m = "CONNECT" \/ m = "TRACE".
(** What a directive says *)
Record says (args : list (string * arg)) (path method : string) (query : list (string * string)) (body : option string) : Prop :=
  { says_path : In ("path", AStr path) args;
    says_method : exists n, In ("method", AName n) args /\ names_method n method /\ http_method method;
    says_query : forall k v, In (k, v) query <-> exists l, In ("query", AObject l) args /\ In (k, AVar v) l;
    says_body : forall v, body = Some v <-> In ("body", AVar v) args }.
(** Objects have each name once, too. *)
Definition objects_once (args : list (string * arg)) : Prop := forall k l, In (k, AObject l) args -> given_once l.
(** The operation has the directive, and this is the first one. *)
Inductive first_rest : list (string * list (string * arg)) -> list (string * arg) -> Prop :=
| first_here : forall args l, first_rest (("rest", args) :: l) args
| first_later : forall n a l args, n <> "rest" -> first_rest l args -> first_rest ((n, a) :: l) args.
Definition without_rest (l : list (string * list (string * arg))) : Prop := forall args, ~ In ("rest", args) l.
(** The endpoints of operations: one for each operation with the directive, none for others *)
Inductive endpoints : list operation -> list endpoint_of -> Prop :=
| ends_nil : endpoints [] []
| ends_other : forall op ops es, without_rest (p_directives op) -> endpoints ops es -> endpoints (op :: ops) es
| ends_rest : forall op ops es args path method query body e,
    first_rest (p_directives op) args -> read_rest args = Ok (path, method, query, body) ->
    make_endpoint (p_types op) method path query body = Ok e ->
    endpoints ops es -> endpoints (op :: ops) ({| n_operation := op; n_endpoint := e |} :: es).
(** At most one endpoint fits a request. *)
Definition unambiguous (parse_f64 : string -> option value) (es : list endpoint_of) (r : request) : Prop :=
  forall a b c x y, es = (a ++ x :: b ++ y :: c)%list -> match_endpoint parse_f64 (n_endpoint x) r = None \/ match_endpoint parse_f64 (n_endpoint y) r = None.
(** Values of the types of variables *)
Inductive of_type : url_type -> value -> Prop :=
| of_string : forall s, of_type UString (VStr s)
| of_int : forall z, of_type UInt (VNum (NInt z))
| of_float : forall s, of_type UFloat (VNum (NFloat s))
| of_boolean : forall b, of_type UBoolean (VBool b).
