(** Vocabulary for answers of GraphQL servers and errors of an answer (C90). *)
From Coq Require Import String Ascii ZArith Bool List.
From Verif Require Import Base JsonModel ErSpec UgModel.
Import ListNotations.
Open Scope string_scope.
Open Scope list_scope.

(** An error of a GraphQL answer, as JSON; what is empty is left out *)
Definition member {A} (name : string) (f : list A -> value) (l : list A) : list (string * value) := match l with [] => [] | _ => [(name, f l)] end.
Definition error_json (message : string) (locations : list pos) (path : list segment) (extensions : list (string * value)) : value :=
  VObj (("message", VStr message)
    :: member "locations" (fun l => VList (map (fun p => VObj [("line", VNum (NInt (line p))); ("column", VNum (NInt (column p)))]) l)) locations
    ++ member "path" (fun l => VList (map (fun s => match s with SField n => VStr n | SIndex i => VNum (NInt i) end) l)) path
    ++ member "extensions" VObj extensions).

(** The texts of errors *)
Inductive message_of : jit_error -> string -> Prop :=
| m_build : forall t, message_of (BuildError t) ("Build error: " ++ t)
| m_parse : forall t ps, message_of (ParseError t ps) t
| m_validation : forall t, message_of (Validation t) t
| m_unknown : message_of Unknown "Unexpected error"
| m_server : forall e, message_of (ServerErr e) (se_message e)
| m_io : forall m, message_of (IR (IO m)) ("IOException: " ++ m)
| m_grpc : forall code d m details, message_of (IR (GRPC code d m details))
    ("gRPC Error: status: " ++ Z_to_string code ++ ", description: `" ++ d ++ "`, message: `" ++ m ++ "`")
| m_api_none : message_of (IR (APIValidation [])) "API Validation Error"
| m_api : forall es, es <> [] -> message_of (IR (APIValidation es)) (text_of ("API Validation Error" :: "Caused by:" :: flat_map (fun e => as_item (lines e)) es))
| m_expr : forall m, message_of (IR (ExprEval m)) ("Expression Evaluation Error: " ++ m)
| m_deserialize : forall m, message_of (IR (Deserialize m)) ("Deserialization Error: " ++ m)
| m_auth : forall t, message_of (IR (Auth t)) ("Authentication Failure: " ++ t)
| m_worker : forall t, message_of (IR (Worker t)) ("Worker Error: " ++ t)
| m_cache : forall t, message_of (IR (Cache t)) ("Cache Error: " ++ t)
| m_entity : forall m, message_of (IR (Entity m)) ("Entity Resolver Error: " ++ m).
(** Only errors of gRPC have extensions. *)
Definition extensions_of (e : jit_error) : list (string * value) :=
  match e with
  | IR (GRPC code d m details) => [("grpcCode", VNum (NInt code)); ("grpcDescription", VStr d); ("grpcStatusDetails", details); ("grpcStatusMessage", VStr m)]
  | _ => []
  end.
(** How an error of a server that was asked is told: with its first location, or 0:0 *)
Definition passed_on (e : server_error) : value :=
  error_json (se_message e) [hd {| line := 0; column := 0 |} (se_locations e)] (se_path e) [].

Section History.
  Variable decode : value -> result (value * list server_error) string.
  (** [g] left a value for [f] in the cache. *)
  Definition leaves_value (f g : fetch) : bool :=
    (f_cached g && String.eqb (f_key g) (f_key f) && negb (match f_askers g with [] => true | _ => false end) && is_ok (decode (f_body g)))%bool.
  (** The server is asked. *)
  Definition fresh (before : list fetch) (f : fetch) : bool := negb (f_cached f && existsb (leaves_value f) before).
  Definition errors_in (f : fetch) : list server_error := match decode (f_body f) with Ok (_, es) => es | Err _ => [] end.
  (** The errors that the servers gave to what [r] itself asked them for *)
  Fixpoint errors_for (r : nat) (before fs : list fetch) : list server_error :=
    match fs with
    | [] => []
    | f :: rest =>
        (match hd_error (f_askers f) with Some leader => if Nat.eqb leader r && fresh before f then errors_in f else [] | None => [] end)
        ++ errors_for r (before ++ [f]) rest
    end.
  (** What an answer gives for a field *)
  Inductive value_in (body : value) (field : string) : result value ir_error -> Prop :=
  | v_bad : forall e, decode body = Err e -> value_in body field (Err (Deserialize e))
  | v_there : forall m v es, decode body = Ok (VObj m, es) -> aget field m = Some v -> value_in body field (Ok v)
  | v_missing : forall m es, decode body = Ok (VObj m, es) -> aget field m = None -> value_in body field (Ok VNull)
  | v_none : forall d es, decode body = Ok (d, es) -> (forall m, d <> VObj m) -> value_in body field (Ok VNull).
End History.
