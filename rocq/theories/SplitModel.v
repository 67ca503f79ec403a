(** Batching of upstream GraphQL and gRPC calls: src/core/graphql/data_loader.rs,
    src/core/grpc/data_loader.rs, and how a caller reads its answer
    (src/core/ir/eval_http.rs:168-173 and 259-264). *)
From Coq Require Import String Ascii Bool Arith List.
From Verif Require Import Base JsonModel DlModel HttpBatchModel.
Import ListNotations.
Open Scope string_scope.
Open Scope list_scope.

(** [load_one(..)?.unwrap_or_default()]: eval_http.rs:168-173, 259-264. *)
Definition answer_of {Meta} (default : Meta) (listed : list string)
    (m : list (key * resp (Meta := Meta))) (r : req) : resp (Meta := Meta) :=
  match lookup key_dec (key_of listed r) m with
  | Some v => v
  | None => {| r_meta := default; r_body := VNull |}
  end.

Section Gql.
  Context {Meta Raw E : Type}.
  Notation resp := (resp (Meta := Meta)).
  Variable listed : list string.
  Variable execute : req -> result Raw E.            (** [runtime.http.execute] *)
  Variable to_json : Raw -> result resp E.           (** [Response::to_json] *)

  Inductive trouble : Type :=
  | Failed (e : E)
  | Panicked.                                         (** [first().unwrap()] of line 85 *)

  (** graphql/data_loader.rs:66-80.  Simplification: bodies are texts, so the conversion
      to UTF-8 never fails. *)
  Definition collect_request_bodies (rs : list req) : string :=
    String.append "[" (String.append
      (String.concat "," (map (fun r => match q_body r with Some b => b | None => "" end) rs)) "]").

  (** graphql/data_loader.rs:82-91 *)
  Definition create_batched_request (rs : list req) : option req :=
    match rs with
    | [] => None
    | first :: _ => Some (with_body first (collect_request_bodies rs))
    end.

  (** graphql/data_loader.rs:93-117; [i] is the index of the head of [rs]. *)
  Fixpoint hand_out (res : resp) (values : list value) (i : nat) (rs : list req) (m : list (key * resp)) :
    list (key * resp) :=
    match rs with
    | [] => m
    | r :: t =>
        hand_out res values (S i) t
          (hput key_dec (key_of listed r)
             {| r_meta := r_meta res; r_body := match nth_error values i with Some v => v | None => VNull end |} m)
    end.
  Definition extract_responses (result : result resp E) (rs : list req) : list (key * resp) :=
    match result with
    | Ok res => match r_body res with VList values => hand_out res values 0 rs [] | _ => [] end
    | Err _ => []
    end.

  (** graphql/data_loader.rs:55-61 *)
  Fixpoint collect_each (rs : list req) (m : list (key * resp)) : result (list (key * resp)) trouble :=
    match rs with
    | [] => Ok m
    | r :: t =>
        match rbind (execute r) to_json with
        | Err e => Err (Failed e)
        | Ok v => collect_each t (hput key_dec (key_of listed r) v m)
        end
    end.

  (** graphql/data_loader.rs:40-63 *)
  Definition gql_load (batch : bool) (keys : list req) : result (list (key * resp)) trouble :=
    if batch then
      match create_batched_request keys with
      | None => Err Panicked
      | Some r =>
          match execute r with
          | Err e => Err (Failed e)
          | Ok raw => Ok (extract_responses (to_json raw) keys)
          end
      end
    else collect_each keys [].
End Gql.

Section Grpc.
  Context {Meta E : Type}.
  Notation resp := (resp (Meta := Meta)).
  Variable listed : list string.
  (** [execute_grpc_request] (grpc/request.rs:20-40): the call and the conversion of its
      answer to JSON. *)
  Variable upstream : req -> result resp E.
  (** [convert_multiple_inputs] (grpc/protobuf.rs:174-211): [parse] makes a message of a
      body, [id_of] reads the field of the given name as text, [pack] makes the bytes of
      the message that holds them all. *)
  Variable Msg : Type.
  Variable parse : string -> result Msg E.
  Variable id_of : string -> Msg -> result string E.
  Variable pack : list Msg -> result string E.

  Definition text_of (r : req) : string := match q_body r with Some b => b | None => "" end.

  Definition convert_multiple_inputs (bodies : list string) (id : string) : result (string * list string) E :=
    rbind (Base.collect (map parse bodies)) (fun ms =>
    rbind (Base.collect (map (id_of id) ms)) (fun ids =>
    rmap (fun b => (b, ids)) (pack ms))).

  Inductive grpc_trouble : Type :=
  | GFailed (e : E)
  | GPanicked.                                        (** [keys[0]] of line 71 *)

  Fixpoint hand_out_ids (res : resp) (groups : list (string * list value)) (kis : list (req * string))
           (m : list (key * resp)) : list (key * resp) :=
    match kis with
    | [] => m
    | (r, id) :: t =>
        hand_out_ids res groups t
          (hput key_dec (key_of listed r) {| r_meta := r_meta res; r_body := body_single groups id |} m)
    end.

  (** grpc/data_loader.rs:61-98.  Simplification: the request for one is a [req] whose
      body is the JSON text of the message. *)
  Definition load_with_group_by (g : group) (keys : list req) : result (list (key * resp)) grpc_trouble :=
    match convert_multiple_inputs (map text_of keys) (group_key g) with
    | Err e => Err (GFailed e)
    | Ok (body, ids) =>
        match keys with
        | [] => Err GPanicked
        | first :: _ =>
            match upstream (with_body first body) with
            | Err e => Err (GFailed e)
            | Ok res => Ok (hand_out_ids res (group_by (r_body res) (group_path g)) (combine keys ids) [])
            end
        end
    end.

  (** grpc/data_loader.rs:35-59; [to_request] (grpc/request_template.rs) turns the JSON
      text into the bytes of one message. *)
  Variable single : req -> result req E.
  Fixpoint load_dedupe_only (rs : list req) (m : list (key * resp)) : result (list (key * resp)) grpc_trouble :=
    match rs with
    | [] => Ok m
    | r :: t =>
        match rbind (single r) upstream with
        | Err e => Err (GFailed e)
        | Ok v => load_dedupe_only t (hput key_dec (key_of listed r) v m)
        end
    end.

  (** grpc/data_loader.rs:106-117 *)
  Definition grpc_load (g : option group) (keys : list req) : result (list (key * resp)) grpc_trouble :=
    match g with
    | Some g => load_with_group_by g keys
    | None => load_dedupe_only keys []
    end.
End Grpc.
