(** Vocabulary for servers that describe themselves (C95). *)
From Coq Require Import String Ascii Bool List.
From Verif Require Import Base MustacheModel MustacheSpec LinksModel LinksSpec RfModel.
Import ListNotations.
Open Scope string_scope.
Open Scope list_scope.

(** The first of the files that the server gives for a request *)
Definition gives {B} (server : string -> option reflection) (decode : string -> option (pfile B)) (request : string) (f : pfile B) : Prop :=
  exists r t more, server request = Some r /\ r_files r = Some (t :: more) /\ decode t = Some f.
(** The requests for the services, for a service and for a file *)
Definition for_services (quoted : string -> string) : string := ("{" ++ quoted "list_services" ++ ":" ++ quoted "" ++ "}")%string.
Definition for_service (quoted : string -> string) (s : string) : string := ("{" ++ quoted "file_containing_symbol" ++ ":" ++ quoted s ++ "}")%string.
Definition for_file (quoted : string -> string) (f : string) : string := ("{" ++ quoted "file_by_filename" ++ ":" ++ quoted f ++ "}")%string.
(** No name that the server gives makes a template of the request for it. *)
Definition no_templates {B} (quoted : string -> string) (server : string -> option reflection) (decode : string -> option (pfile B)) : Prop :=
  braceless (for_services quoted) /\ (forall r l s, server (for_services quoted) = Some r -> r_services r = Some l -> In s l -> braceless (for_service quoted s)) /\
  (forall q f i, gives server decode q f -> In i (f_imports f) -> braceless (for_file quoted i)).
(** Files have the names by which they are asked for. *)
Definition names_as_asked {B} (quoted : string -> string) (server : string -> option reflection) (decode : string -> option (pfile B)) : Prop :=
  forall i f, gives server decode (for_file quoted i) f -> f_name f = i.
(** The services that are listed *)
Definition lists (quoted : string -> string) (server : string -> option reflection) (l : list string) : Prop := exists r, server (for_services quoted) = Some r /\ r_services r = Some l.
Definition own : string := "grpc.reflection.v1alpha.ServerReflection".
(** The services besides the one that describes *)
Definition others (l : list string) : list string := filter (fun s => negb (String.eqb s own)) l.
(** The files of a service: the one it is in and everything that is imported from there *)
Definition files_of {B} (quoted : string -> string) server (decode : string -> option (pfile B)) (service : string) (files : list (pfile B)) : Prop :=
  exists root deps, files = deps ++ [root] /\ gives server decode (for_service quoted service) root /\ f_package root <> None /\ NoDup (map f_name deps) /\
    (let file i p := gives server decode (for_file quoted i) p in
     (forall p, In p deps <-> exists i, Reached file root i /\ file i p) /\ (forall i, Reached file root i -> exists p, file i p /\ In p deps)).
