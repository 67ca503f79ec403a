(** Reading REST endpoints from operations: src/core/rest/directive.rs, endpoint.rs, endpoint_set.rs and operation.rs. *)
From Coq Require Import String Ascii ZArith NArith Bool List.
From Verif Require Import Base JsonModel RestModel.
Import ListNotations.
Open Scope string_scope.
Open Scope list_scope.

(** [async_graphql_value::Value], as far as the directive looks at it: names are enum values, [true], [false] and [null]; [AOther] are numbers and lists *)
Inductive arg : Type := AVar (name : string) | AName (n : string) | AStr (s : string) | AObject (l : list (string * arg)) | AOther.
(** [str::to_uppercase], for names of GraphQL *)
Definition upper_char (c : ascii) : ascii :=
  let n := N_of_ascii c in if (N.leb 97 n && N.leb n 122)%bool then ascii_of_N (n - 32) else c.
Fixpoint to_uppercase (s : string) : string := match s with "" => "" | String c t => String (upper_char c) (to_uppercase t) end.
(** http/method.rs:16-27, read by serde *)
Definition methods : list string := ["GET"; "POST"; "PUT"; "PATCH"; "DELETE"; "HEAD"; "OPTIONS"; "CONNECT"; "TRACE"].
(** directive.rs:15-24: [None] for the path and the method if [has_path] and [has_method] are false; the order of the [BTreeMap] is that of insertion *)
Record rest : Type := { r_path : option string; r_method : option string; r_query : list (string * string); r_body : option string }.
Inductive read_error : Type := NotAPath | NotAMethod | Missing (msg : string) | OfEndpoint (e : rest_error).
(** directive.rs:47-60 *)
Fixpoint insert_variables (l : list (string * arg)) (m : list (string * string)) : list (string * string) :=
  match l with
  | [] => m
  | (k, AVar v) :: t => insert_variables t (aset k v m)
  | (_, _) :: t => insert_variables t m
  end.
(** directive.rs:35-67: the text of a string is its JSON, that of another value is not the JSON of a string; characters that GraphQL and JSON escape differently are left out *)
Fixpoint read_args (args : list (string * arg)) (r : rest) : result rest read_error :=
  match args with
  | [] => Ok r
  | (k, v) :: t =>
      if String.eqb k "path" then
        match v with
        | AStr p => read_args t {| r_path := Some p; r_method := r_method r; r_query := r_query r; r_body := r_body r |}
        | _ => Err NotAPath
        end
      else if String.eqb k "method" then
        match v with
        | AName n =>
            if smem (to_uppercase n) methods
            then read_args t {| r_path := r_path r; r_method := Some (to_uppercase n); r_query := r_query r; r_body := r_body r |}
            else Err NotAMethod
        | _ => Err NotAMethod
        end
      else if String.eqb k "query" then
        match v with
        | AObject l => read_args t {| r_path := r_path r; r_method := r_method r; r_query := insert_variables l (r_query r); r_body := r_body r |}
        | _ => read_args t r
        end
      else if String.eqb k "body" then
        match v with
        | AVar b => read_args t {| r_path := r_path r; r_method := r_method r; r_query := r_query r; r_body := Some b |}
        | _ => read_args t r
        end
      else read_args t r
  end.
(** directive.rs:29-83: the path, the method, the query and the body *)
Definition read_rest (args : list (string * arg)) : result (string * string * list (string * string) * option string) read_error :=
  match read_args args {| r_path := None; r_method := None; r_query := []; r_body := None |} with
  | Err e => Err e
  | Ok r =>
      match r_method r, r_path r with
      | Some m, Some p => Ok (p, m, r_query r, r_body r)
      | Some _, None => Err (Missing "Path not provided in the directive")
      | None, Some _ => Err (Missing "Method not provided in the directive")
      | None, None => Err (Missing "Method and Path not provided in the directive")
      end
  end.
(** An operation of a document: its variables, those that must be given and its directives *)
Record operation : Type := { p_name : string; p_types : list (string * var_type); p_required : list string; p_directives : list (string * list (string * arg)) }.
Record endpoint_of : Type := { n_operation : operation; n_endpoint : endpoint }.
(** endpoint.rs:44-86; the operations in the order that the map of the document gives *)
Fixpoint try_new (ops : list operation) : result (list endpoint_of) read_error :=
  match ops with
  | [] => Ok []
  | op :: t =>
      match aget "rest" (p_directives op) with
      | None => try_new t
      | Some args =>
          match read_rest args with
          | Err e => Err e
          | Ok (path, method, query, body) =>
              match make_endpoint (p_types op) method path query body with
              | Err e => Err (OfEndpoint e)
              | Ok e => match try_new t with Ok es => Ok ({| n_operation := op; n_endpoint := e |} :: es) | Err e => Err e end
              end
          end
      end
  end.
(** endpoint.rs:98-121 *)
Definition default_of (t : url_type) : value :=
  match t with UString => VStr "" | UInt => VNum (NInt 0) | UFloat => VNum (NFloat "0.0") | UBoolean => VBool false end.
Fixpoint default_variables (segs : list segment) (vars : list (string * value)) : list (string * value) :=
  match segs with
  | [] => vars
  | Literal _ :: t => default_variables t vars
  | Param p :: t => default_variables t (aset (v_name p) (default_of (v_type p)) vars)
  end.
(** operation.rs:22-52 and endpoint_set.rs:60-82: an operation that uses a variable which must be given and is not fails; whatever else is checked is left out *)
Definition variables_given (n : endpoint_of) : bool :=
  forallb (fun v => amem v (default_variables (e_path (n_endpoint n)) [])) (p_required (n_operation n)).
Definition into_checked (es : list endpoint_of) : bool := forallb variables_given es.
Section Serve.
  Variable parse_f64 : string -> option value.
  (** endpoint_set.rs:86-88: the operation that answers, and its variables *)
  Fixpoint answers (es : list endpoint_of) (r : request) : option (string * list (string * value)) :=
    match es with
    | [] => None
    | n :: t => match match_endpoint parse_f64 (n_endpoint n) r with
                | Some vars => Some (p_name (n_operation n), vars)
                | None => answers t r
                end
    end.
End Serve.
