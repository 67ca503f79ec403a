(** Servers that describe themselves: src/core/proto_reader/fetch.rs and the rest of src/core/proto_reader/reader.rs. *)
From Coq Require Import String Ascii Bool List.
From Verif Require Import Base MustacheModel LinksModel ScModel.
Import ListNotations.
Open Scope string_scope.
Open Scope list_scope.

(** fetch.rs:66-72, with the names of services (fetch.rs:37-45) and the texts of files (fetch.rs:47-51) *)
Record reflection : Type := { r_services : option (list string); r_files : option (list string) }.
Section Reflection.
  Context {B : Type}.
  (** [serde_json]'s text of a string *)
  Variable quoted : string -> string.
  (** The environment of this process *)
  Variable env : string -> option string.
  (** What the server answers to the JSON text of a request *)
  Variable server : string -> option reflection.
  (** Base64 and the protobuf encoding of a file *)
  Variable decode : string -> option (pfile B).

  (** fetch.rs:103, 118, 126: [json!({key: value})] *)
  Definition body (key value : string) : string := ("{" ++ quoted key ++ ":" ++ quoted value ++ "}")%string.
  (** fetch.rs:131-180: the body is a template, rendered with the context of the reader of configurations (reader_context.rs:29-38); the URL, the headers and panics (ScModel.v) are left out *)
  Definition execute (key value : string) : option reflection := server (render (env_path env) (parse (body key value))).
  (** fetch.rs:100-113 *)
  Definition list_all_files : option (list string) :=
    match execute "list_services" "" with Some r => r_services r | None => None end.
  (** fetch.rs:53-64, 183-192: the first of the files *)
  Definition request_proto (r : reflection) : option (pfile B) :=
    match r_files r with
    | Some (f :: _) => decode f
    | _ => None
    end.
  (** fetch.rs:116-122 *)
  Definition get_by_service (service : string) : option (pfile B) :=
    match execute "file_containing_symbol" service with Some r => request_proto r | None => None end.
  (** fetch.rs:125-129 *)
  Definition get_file (file_path : string) : option (pfile B) :=
    match execute "file_by_filename" file_path with Some r => request_proto r | None => None end.
  (** reader.rs:47-63, for one service; [None] if the fuel is spent *)
  Definition fetch_service (fuel : nat) (service : string) : option (option (list (pfile B))) :=
    match get_by_service service with
    | None => Some None
    | Some f => match f_package f with
                | None => Some None
                | Some _ => resolve_dependencies fuel get_file f
                end
    end.
  Fixpoint fetch_all (fuel : nat) (services : list string) : option (option (list (list (pfile B)))) :=
    match services with
    | [] => Some (Some [])
    | s :: t =>
        if String.eqb s "grpc.reflection.v1alpha.ServerReflection" then fetch_all fuel t
        else match fetch_service fuel s with
             | None => None
             | Some None => Some None
             | Some (Some files) =>
                 match fetch_all fuel t with
                 | Some (Some r) => Some (Some (files :: r))
                 | r => r
                 end
             end
    end.
  (** reader.rs:35-64 *)
  Definition fetch (fuel : nat) : option (option (list (list (pfile B)))) :=
    match list_all_files with
    | None => Some None
    | Some services => fetch_all fuel services
    end.
End Reflection.
