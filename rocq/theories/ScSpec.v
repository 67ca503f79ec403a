(** Vocabulary for configurations named by clients (C93). *)
From Coq Require Import String Ascii Bool List.
From Verif Require Import Base LinksModel.
Import ListNotations.
Open Scope string_scope.

(** [p] is the URL of something that servers answer for: its scheme begins with "http". *)
Definition remote (url : string -> option (string * string)) (p u : string) : Prop := exists rest, url p = Some (u, ("http" ++ rest)%string).
(** The text of a URL is a URL, with itself as its text. *)
Definition texts_of_urls (url : string -> option (string * string)) : Prop := forall p u s, url p = Some (u, s) -> url u = Some (u, s).
(** A link that is followed to a server, and not to a proto file, which may import others *)
Definition remote_link (url : string -> option (string * string)) (l : link) : Prop :=
  l_src l = "" \/ l_kind l = LGrpc \/ (l_kind l <> LProtobuf /\ exists u, remote url (l_src l) u).
