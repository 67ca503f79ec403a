(** Configurations named by clients: src/core/http/showcase.rs, with the reader of src/core/resource_reader.rs and LinksModel.v. *)
From Coq Require Import String Ascii Bool List.
From Verif Require Import Base MustacheModel LinksModel.
Import ListNotations.
Open Scope string_scope.
Open Scope list_scope.

(** What [create_app_ctx] comes to: the errors it answers with, or a blueprint to run the operation of the request on *)
Inductive shown (Bp : Type) : Type := NoConfig | InvalidUrl | ReadFailed | Panicked | Refused (e : string) | Serving (b : Bp).
Arguments NoConfig {Bp}. Arguments InvalidUrl {Bp}. Arguments ReadFailed {Bp}. Arguments Panicked {Bp}. Arguments Refused {Bp} e. Arguments Serving {Bp} b.
(** config/reader_context.rs:25-38: only [vars] and [env]; there are no variables while a file is read (reader.rs:191) *)
Definition env_path (env : string -> option string) (path : list string) : option string :=
  match path with
  | head :: k :: _ => if String.eqb head "env" then env k else None
  | _ => None
  end.
(** reader_context.rs:34: [tail[0]] of an empty [tail] *)
Definition panics (t : string) : bool :=
  existsb (fun s => match s with Expression [head] => String.eqb head "env" | _ => false end) (parse t).
Section Showcase.
  Context {Cfg Cert Key Endpoint Jwks B Bp : Type}.
  Variable links_of : Cfg -> list link.
  Variable parse_config : string -> string -> option Cfg.
  Variable unify : Cfg -> Cfg -> option Cfg.
  Variable parse_certs : string -> option (list Cert).
  Variable parse_keys : string -> option (list Key).
  Variable parse_endpoints : string -> option (list Endpoint).
  Variable parse_jwks : string -> option Jwks.
  (** proto_reader/reader.rs, given a way to read files *)
  Variable protos : (string -> option string) -> string -> option (list string) -> option (list (pfile B)).
  Variable reflect : string -> list (string * string) -> option (list (pfile B)).
  (** [Url::parse]: the text of the URL and its scheme *)
  Variable url : string -> option (string * string).
  (** [serde_qs] on a query, if it can be read *)
  Variable query_pairs : string -> option (list (string * string)).
  (** [Blueprint::try_from] *)
  Variable blueprint_of : Cfg * @extensions Cert Key Endpoint Jwks B -> result Bp string.
  (** What servers answer, the files of this machine and its environment *)
  Variable http : string -> option string.
  Variable disk : string -> option string.
  Variable env : string -> option string.

  (** resource_reader.rs:138-168, a path *)
  Definition direct (path : string) : option string :=
    match url path with
    | Some (u, scheme) => if prefix "http" scheme then http u else disk path
    | None => disk path
    end.
  (** resource_reader.rs:22-29, reader.rs:195-206 *)
  Definition rendered_file (t : string) : string := eval_partial (env_path env) (parse t).
  (** showcase.rs:17-70; the lookup in the cache of files, which finds nothing (C61), is left out, and so are panics of linked configurations *)
  Definition create_app_ctx (query : option string) (enable_fs : bool) : shown Bp :=
    let config_url := match query with
                      | None => None
                      | Some q => match query_pairs q with Some l => aget "config" l | None => None end
                      end in
    match config_url with
    | None => NoConfig
    | Some u =>
        if negb enable_fs && (match url u with None => true | Some _ => false end) then InvalidUrl
        else if (match direct u with Some t => panics t | None => false end) then Panicked
        else match read_config links_of direct rendered_file parse_config unify parse_certs parse_keys parse_endpoints parse_jwks (protos direct) reflect (fun s => option_map fst (url s)) u with
             | None => ReadFailed
             | Some m => match blueprint_of m with Ok b => Serving b | Err e => Refused e end
             end
    end.
End Showcase.
