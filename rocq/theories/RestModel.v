(** REST endpoints: src/core/rest and [handle_rest_apis] of
    src/core/http/request_handler.rs. *)
From Coq Require Import String Ascii ZArith NArith Bool Arith List.
From Verif Require Import Base JsonModel.
Import ListNotations.
Open Scope string_scope.
Open Scope list_scope.

(** [path.split('/').filter(|s| !s.is_empty())]: rest/path.rs:38 and 55. *)
Fixpoint split_slash (s : string) (cur : string) : list string :=
  match s with
  | EmptyString => [cur]
  | String c t =>
      if Ascii.eqb c "/" then cur :: split_slash t ""
      else split_slash t (String.append cur (String c ""))
  end.
Definition pieces (s : string) : list string :=
  filter (fun x => negb (String.eqb x "")) (split_slash s "").

(** rest/typed_variables.rs:6-17 *)
Inductive url_type : Type := UString | UInt | UFloat | UBoolean.

(** async_graphql's [Type], as far as typed_variables.rs:38-53 looks at it: nullability
    plays no role, lists are refused. *)
Inductive var_type : Type := TNamed (n : string) | TList.

(** typed_variables.rs:38-53 *)
Definition url_type_of (t : var_type) : option url_type :=
  match t with
  | TNamed n =>
      if String.eqb n "String" then Some UString
      else if String.eqb n "Int" then Some UInt
      else if String.eqb n "Boolean" then Some UBoolean
      else if String.eqb n "Float" then Some UFloat
      else None
  | TList => None
  end.

(** typed_variables.rs:54-60; [nullable] is always false and unused here. *)
Record typed_variable : Type := { v_type : url_type; v_name : string }.

(** path.rs:8-11 *)
Inductive segment : Type := Literal (s : string) | Param (v : typed_variable).

(** [str::parse::<i64>()]. *)
Fixpoint digits_value (acc : N) (s : string) : option N :=
  match s with
  | EmptyString => Some acc
  | String c t => match digit_value c with
                  | Some d => digits_value (10 * acc + d)%N t
                  | None => None
                  end
  end.
Definition in_i64 (z : Z) : bool := ((- 2 ^ 63 <=? z) && (z <? 2 ^ 63))%Z.
Definition parse_i64 (s : string) : option Z :=
  let finish (neg : bool) (t : string) :=
    match t with
    | EmptyString => None
    | _ => match digits_value 0 t with
           | Some n => let z := if neg then (- Z.of_N n)%Z else Z.of_N n in if in_i64 z then Some z else None
           | None => None
           end
    end in
  match s with
  | String c t => if Ascii.eqb c "+" then finish false t else if Ascii.eqb c "-" then finish true t else finish false s
  | EmptyString => None
  end.

Inductive rest_error : Type :=
| UndefinedParam (key : string)                  (** path.rs:40-43 *)
| UndefinedQueryParam (key : string)             (** query_params.rs:27 *)
| UnexpectedType (t : var_type).                 (** typed_variables.rs:47, 50 *)

Section Rest.
  (** [str::parse::<f64>()] followed by [ConstValue::from]: an oracle. *)
  Variable parse_f64 : string -> option value.

  (** typed_variables.rs:19-36 *)
  Definition to_value (t : url_type) (x : string) : option value :=
    match t with
    | UString => Some (VStr x)
    | UInt => match parse_i64 x with Some z => Some (VNum (NInt z)) | None => None end
    | UFloat => parse_f64 x
    | UBoolean => if String.eqb x "true" then Some (VBool true)
                  else if String.eqb x "false" then Some (VBool false) else None
    end.

  (** typed_variables.rs:67-70 *)
  Definition typed (t : var_type) (name : string) : result typed_variable rest_error :=
    match url_type_of t with
    | Some u => Ok {| v_type := u; v_name := name |}
    | None => Err (UnexpectedType t)
    end.

  (** path.rs:34-51; the type map is [types] (type_map.rs). *)
  Fixpoint parse_segments (types : list (string * var_type)) (l : list string) : result (list segment) rest_error :=
    match l with
    | [] => Ok []
    | s :: t =>
        match s with
        | String c key =>
            if Ascii.eqb c "$" then
              match aget key types with
              | None => Err (UndefinedParam s)
              | Some ty =>
                  match typed ty key with
                  | Err e => Err e
                  | Ok v => match parse_segments types t with Ok r => Ok (Param v :: r) | Err e => Err e end
                  end
              end
            else match parse_segments types t with Ok r => Ok (Literal s :: r) | Err e => Err e end
        | EmptyString => match parse_segments types t with Ok r => Ok (Literal s :: r) | Err e => Err e end
        end
    end.
  Definition parse_path (types : list (string * var_type)) (input : string) : result (list segment) rest_error :=
    parse_segments types (pieces input).

  (** path.rs:53-76.  [zip] asks the declared segments first, so a request segment is
      only consumed together with a declared one.  [Variables] is a map: [aset]. *)
  Fixpoint match_segments (segs : list segment) (reqs : list string) (vars : list (string * value))
    : option (list (string * value)) :=
    match segs, reqs with
    | [], [] => Some vars
    | [], _ :: _ => None                                       (* 71-73 *)
    | _ :: _, [] => Some vars                                  (* [zip] ends *)
    | Literal s :: segs', r :: reqs' => if String.eqb s r then match_segments segs' reqs' vars else None
    | Param v :: segs', r :: reqs' =>
        match to_value (v_type v) r with
        | Some x => match_segments segs' reqs' (aset (v_name v) x vars)
        | None => None
        end
    end.
  Definition match_path (segs : list segment) (path : string) : option (list (string * value)) :=
    match_segments segs (pieces path) [].

  (** query_params.rs:23-33; [map] is a [BTreeMap] from parameter to variable name. *)
  Fixpoint query_params (types : list (string * var_type)) (map : list (string * string))
    : result (list (string * typed_variable)) rest_error :=
    match map with
    | [] => Ok []
    | (k, v) :: t =>
        match aget k types with
        | None => Err (UndefinedQueryParam k)
        | Some ty =>
            match typed ty v with
            | Err e => Err e
            | Ok tv => match query_params types t with Ok r => Ok ((k, tv) :: r) | Err e => Err e end
            end
        end
    end.

  (** query_params.rs:35-44 *)
  Fixpoint match_query (params : list (string * typed_variable)) (q : list (string * string))
           (vars : list (string * value)) : option (list (string * value)) :=
    match params with
    | [] => Some vars
    | (k, tv) :: t =>
        match aget k q with
        | None => match_query t q vars
        | Some x => match to_value (v_type tv) x with
                    | Some v => match_query t q (aset (v_name tv) v vars)
                    | None => None
                    end
        end
    end.

  (** rest/endpoint.rs:21-29, without the document.  Methods are their names
      (http/method.rs:29-43 is the identity on names). *)
  Record endpoint : Type :=
    { e_method : string; e_path : list segment; e_query : list (string * typed_variable); e_body : option string }.

  (** endpoint.rs:67-79: from the variables declared by the operation and the
      arguments of its @rest directive. *)
  Definition make_endpoint (types : list (string * var_type)) (method path : string)
             (query : list (string * string)) (body : option string) : result endpoint rest_error :=
    match parse_path types path with
    | Err e => Err e
    | Ok segs =>
        match query_params types query with
        | Err e => Err e
        | Ok ps => Ok {| e_method := method; e_path := segs; e_query := ps; e_body := body |}
        end
    end.

  (** hyper's request, as far as it is looked at: the decoded pairs of the query. *)
  Record request : Type := { u_method : string; u_path : string; u_query : list (string * string) }.

  (** endpoint.rs:140-144: [serde_urlencoded] into a [BTreeMap]; a repeated name keeps
      its last value. *)
  Definition query_map (q : list (string * string)) : list (string * string) :=
    fold_left (fun m kv => aset (fst kv) (snd kv) m) q [].

  (** endpoint.rs:172-184 *)
  Definition merge_variables (a b : list (string * value)) : list (string * value) :=
    fold_left (fun m kv => aset (fst kv) (snd kv) m) b (fold_left (fun m kv => aset (fst kv) (snd kv) m) a []).

  (** endpoint.rs:139-169 *)
  Definition match_endpoint (e : endpoint) (r : request) : option (list (string * value)) :=
    if String.eqb (e_method e) (u_method r) then
      match match_path (e_path e) (u_path r) with
      | None => None
      | Some path =>
          match match_query (e_query e) (query_map (u_query r)) [] with
          | None => None
          | Some query => Some (merge_variables (merge_variables [] path) query)
          end
      end
    else None.

  (** endpoint_set.rs:86-88: the matching endpoint's position and variables. *)
  Fixpoint match_set (es : list endpoint) (r : request) : option (nat * list (string * value)) :=
    match es with
    | [] => None
    | e :: t => match match_endpoint e r with
                | Some vars => Some (0, vars)
                | None => match match_set t r with Some (n, vars) => Some (S n, vars) | None => None end
                end
    end.

  (** [str::replace(pat, "")]: non-overlapping occurrences, left to right. *)
  Fixpoint remove_all (pat : string) (skip : nat) (s : string) : string :=
    match s with
    | EmptyString => EmptyString
    | String c t =>
        match skip with
        | S n => remove_all pat n t
        | O => if String.prefix pat s then remove_all pat (String.length pat - 1) t
               else String c (remove_all pat 0 t)
        end
    end.

  (** http's [Uri] from a text that has neither scheme nor query: a path, or a bare
      word, which is read as an authority with an empty path; anything else is
      refused.  Simplification: no check of the characters. *)
  Definition uri_path (s : string) : option string :=
    match s with
    | EmptyString => None
    | String c _ => if Ascii.eqb c "/" then Some s
                    else match pieces s with [p] => if String.eqb p s then Some "" else None | _ => None end
    end.

  (** http/request_handler.rs:249-256: what the REST handler matches a request against. *)
  Definition rest_request (r : request) : option request :=
    match uri_path (remove_all "/api" 0 (u_path r)) with
    | Some p => Some {| u_method := u_method r; u_path := p; u_query := [] |}
    | None => None
    end.
  Inductive rest_outcome : Type := BadUri | NotFound | Found (n : nat) (vars : list (string * value)).
  Definition handle_rest (es : list endpoint) (r : request) : rest_outcome :=
    match rest_request r with
    | None => BadUri
    | Some r' => match match_set es r' with Some (n, vars) => Found n vars | None => NotFound end
    end.
End Rest.
