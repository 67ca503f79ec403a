(** Files a configuration links to: src/core/config/reader.rs, src/core/resource_reader.rs,
    src/core/proto_reader/reader.rs and the extensions of src/core/config/config_module.rs. *)
From Coq Require Import String Ascii ZArith NArith Bool List.
From Verif Require Import Base.
Import ListNotations.
Open Scope list_scope.
Open Scope string_scope.

(** * Reading files: resource_reader.rs *)

(** [Cached::read], resource_reader.rs:198-223.  The cache is looked up under the hash of the
    resource and filled under its text.  [hashed] is the decimal text of the hash; [direct] is
    what [Direct::read] gives at this moment, [None] for an error. *)
Definition file_cache := list (string * string).
Definition cached_read (hashed : string -> string) (direct : string -> option string) (path : string) (c : file_cache)
  : option string * file_cache :=
  match aget (hashed path) c with
  | Some content => (Some content, c)
  | None =>
      match direct path with
      | Some content => (Some content, aset path content c)
      | None => (None, c)
      end
  end.
(** Reading one path after the other, the files changing in between. *)
Fixpoint cached_reads (hashed : string -> string) (reads : list ((string -> option string) * string)) (c : file_cache)
  : list (option string) :=
  match reads with
  | [] => []
  | (direct, path) :: rest =>
      let '(r, c) := cached_read hashed direct path c in r :: cached_reads hashed rest c
  end.

(** * Paths *)

(** [Path::is_absolute] and [Path::join] on Unix. *)
Definition is_absolute (s : string) : bool := prefix "/" s.
Fixpoint ends_with_slash (s : string) : bool :=
  match s with
  | EmptyString => false
  | String c EmptyString => Ascii.eqb c "/"
  | String _ t => ends_with_slash t
  end.
Definition join_path (dir s : string) : string :=
  if is_absolute s then s
  else if String.eqb dir "" then s
  else if ends_with_slash dir then dir ++ s else dir ++ "/" ++ s.

(** * Proto files: proto_reader/reader.rs *)

Record pfile (B : Type) : Type := { f_name : string; f_package : option string; f_imports : list string; f_body : B }.
Arguments f_name {B} p. Arguments f_package {B} p. Arguments f_imports {B} p. Arguments f_body {B} p.

Section Protos.
  Context {B : Type}.

  (** reader.rs:121-127: the imports of one file, added to what is known and to the queue. *)
  Definition take_import (s : list (pfile B) * list (string * pfile B)) (p : pfile B) : list (pfile B) * list (string * pfile B) :=
    let '(queue, known) := s in
    if smem (f_name p) (akeys known) then s else ((queue ++ [p])%list, (known ++ [(f_name p, p)])%list).
  (** [join_all], then the first error. *)
  Fixpoint resolve_all (resolve : string -> option (pfile B)) (l : list string) : option (list (pfile B)) :=
    match l with
    | [] => Some []
    | i :: t =>
        match resolve i, resolve_all resolve t with
        | Some p, Some ps => Some (p :: ps)
        | _, _ => None
        end
    end.
  Inductive outcome : Type := Found (l : list (string * pfile B)) | Failed | Unfinished.
  (** reader.rs:107-130; [fuel] bounds the number of files taken from the queue. *)
  Fixpoint resolve_queue (fuel : nat) (resolve : string -> option (pfile B)) (queue : list (pfile B)) (known : list (string * pfile B)) : outcome :=
    match queue with
    | [] => Found known
    | f :: rest =>
        match fuel with
        | O => Unfinished
        | S n =>
            match resolve_all resolve (f_imports f) with
            | None => Failed
            | Some ps => let '(queue, known) := fold_left take_import ps (rest, known) in resolve_queue n resolve queue known
            end
        end
    end.
  (** reader.rs:99-137; the values of the map come in some order. *)
  Definition resolve_dependencies (fuel : nat) (resolve : string -> option (pfile B)) (root : pfile B) : option (option (list (pfile B))) :=
    match resolve_queue fuel resolve [root] [] with
    | Found known => Some (Some (map snd known ++ [root])%list)
    | Failed => Some None
    | Unfinished => None
    end.

  (** What is outside: the well-known files of Google, files and their existence, and the
      parser of proto files, which gives the file the name it is told. *)
  Variable google : string -> option string.
  Variable file : string -> option string.
  Variable exists_file : string -> bool.
  Variable parse_proto : string -> option (option string * list string * B).

  (** reader.rs:194-216 *)
  Definition proto_path (src : string) (root_dir : option string) (proto_paths : option (list string)) : string :=
    if prefix "http" src then src
    else if is_absolute src then src
    else
      match find exists_file (map (fun p => join_path p src) (match proto_paths with Some l => l | None => [] end)) with
      | Some p => p
      | None => match root_dir with Some d => join_path d src | None => src end
      end.
  (** reader.rs:177-191 *)
  Definition read_proto (src : string) (root_dir : option string) (proto_paths : option (list string)) : option (pfile B) :=
    let content := match google src with Some t => Some t | None => file (proto_path src root_dir proto_paths) end in
    match content with
    | Some t =>
        match parse_proto t with
        | Some (package, imports, body) => Some {| f_name := src; f_package := package; f_imports := imports; f_body := body |}
        | None => None
        end
    | None => None
    end.
  (** [Path::parent] of a path that names a file. *)
  Fixpoint parent_of (s : string) : option string :=
    match s with
    | EmptyString => None
    | String c t =>
        match parent_of t with
        | Some d => Some (String c d)
        | None => if Ascii.eqb c "/" then Some "" else None
        end
    end.
  (** A path without a slash has the empty parent; the parent of a file below the root is the
      root. *)
  Definition parent (s : string) : option string :=
    match parent_of s with
    | Some d => if (String.eqb d "" && prefix "/" s)%bool then Some "/" else Some d
    | None => Some ""
    end.
  (** reader.rs:76-96 *)
  Definition read_protos (fuel : nat) (path : string) (proto_paths : option (list string)) : option (option (list (pfile B))) :=
    match read_proto path None None with
    | None => Some None
    | Some root =>
        match f_package root with
        | None => Some None
        | Some _ => resolve_dependencies fuel (fun i => read_proto i (parent path) proto_paths) root
        end
    end.
End Protos.

(** * Links: config/reader.rs *)

(** config/directives/link.rs:18-56 *)
Inductive link_kind : Type := LConfig | LProtobuf | LScript | LCert | LKey | LOperation | LHtpasswd | LJwks | LGrpc.
(** link.rs:70-101, without the metadata *)
Record link : Type := { l_id : option string; l_src : string; l_kind : link_kind; l_headers : list (string * string); l_paths : option (list string) }.

Section Links.
  Context {Cfg Cert Key Endpoint Jwks B : Type}.
  Variable links_of : Cfg -> list link.

  (** config_module.rs:130-149 *)
  Record extensions : Type := {
    x_protos : list (string * pfile B);
    x_script : option string;
    x_cert : list Cert;
    x_keys : list Key;
    x_endpoints : list Endpoint;
    x_htpasswd : list (option string * string);
    x_jwks : list (option string * Jwks) }.
  Definition no_extensions : extensions :=
    {| x_protos := []; x_script := None; x_cert := []; x_keys := []; x_endpoints := []; x_htpasswd := []; x_jwks := [] |}.
  (** config_module.rs:152-157 *)
  Definition add_proto (x : extensions) (files : list (pfile B)) : extensions :=
    {| x_protos := fold_left (fun m f => aset (f_name f) f m) files (x_protos x);
       x_script := x_script x; x_cert := x_cert x; x_keys := x_keys x; x_endpoints := x_endpoints x; x_htpasswd := x_htpasswd x; x_jwks := x_jwks x |}.
  (** The derived [MergeRight]: vectors are joined, options and maps prefer the later. *)
  Definition merge_extensions (x y : extensions) : extensions :=
    {| x_protos := fold_left (fun m kf => aset (fst kf) (snd kf) m) (x_protos y) (x_protos x);
       x_script := match x_script y with Some s => Some s | None => x_script x end;
       x_cert := (x_cert x ++ x_cert y)%list; x_keys := (x_keys x ++ x_keys y)%list;
       x_endpoints := (x_endpoints x ++ x_endpoints y)%list;
       x_htpasswd := (x_htpasswd x ++ x_htpasswd y)%list; x_jwks := (x_jwks x ++ x_jwks y)%list |}.

  (** What is outside: reading a file, replacing templates in it, the parsers, merging of two
      configurations ([None] if they do not fit), the proto reader and gRPC reflection. *)
  Variable file : string -> option string.
  Variable render : string -> string.
  Variable parse_config : string -> string -> option Cfg.
  Variable unify : Cfg -> Cfg -> option Cfg.
  Variable parse_certs : string -> option (list Cert).
  Variable parse_keys : string -> option (list Key).
  Variable parse_endpoints : string -> option (list Endpoint).
  Variable parse_jwks : string -> option Jwks.
  Variable protos : string -> option (list string) -> option (list (pfile B)).
  Variable reflect : string -> list (string * string) -> option (list (pfile B)).
  (** [Url::parse] and the text of the URL. *)
  Variable url : string -> option string.

  (** reader.rs:252-262 *)
  Definition resolve_path (src : string) (root_dir : option string) : string :=
    match url src with
    | Some u => u
    | None => if is_absolute src then src else join_path (match root_dir with Some d => d | None => "" end) src
    end.

  (** reader.rs:65-141, one link.  The configuration so far is [None] once merging has failed;
      the links are read on. *)
  Definition read_link (dir : option string) (s : option Cfg * extensions) (l : link) : option (option Cfg * extensions) :=
    let '(cfg, x) := s in
    let path := resolve_path (l_src l) dir in
    match l_kind l with
    | LConfig =>
        match file path with
        | Some t =>
            match parse_config path (render t) with
            | Some c => Some (match cfg with Some cfg => unify cfg c | None => None end, x)
            | None => None
            end
        | None => None
        end
    | LProtobuf =>
        match protos path (option_map (map (fun p => resolve_path p dir)) (l_paths l)) with
        | Some files => Some (cfg, add_proto x files)
        | None => None
        end
    | LScript =>
        match file path with
        | Some t => Some (cfg, {| x_protos := x_protos x; x_script := Some t; x_cert := x_cert x; x_keys := x_keys x; x_endpoints := x_endpoints x; x_htpasswd := x_htpasswd x; x_jwks := x_jwks x |})
        | None => None
        end
    | LCert =>
        match file path with
        | Some t =>
            match parse_certs t with
            | Some cs => Some (cfg, {| x_protos := x_protos x; x_script := x_script x; x_cert := (x_cert x ++ cs)%list; x_keys := x_keys x; x_endpoints := x_endpoints x; x_htpasswd := x_htpasswd x; x_jwks := x_jwks x |})
            | None => None
            end
        | None => None
        end
    | LKey =>
        match file path with
        | Some t =>
            match parse_keys t with
            | Some ks => Some (cfg, {| x_protos := x_protos x; x_script := x_script x; x_cert := x_cert x; x_keys := ks; x_endpoints := x_endpoints x; x_htpasswd := x_htpasswd x; x_jwks := x_jwks x |})
            | None => None
            end
        | None => None
        end
    | LOperation =>
        match file path with
        | Some t =>
            match parse_endpoints t with
            | Some es => Some (cfg, {| x_protos := x_protos x; x_script := x_script x; x_cert := x_cert x; x_keys := x_keys x; x_endpoints := es; x_htpasswd := x_htpasswd x; x_jwks := x_jwks x |})
            | None => None
            end
        | None => None
        end
    | LHtpasswd =>
        match file path with
        | Some t => Some (cfg, {| x_protos := x_protos x; x_script := x_script x; x_cert := x_cert x; x_keys := x_keys x; x_endpoints := x_endpoints x; x_htpasswd := (x_htpasswd x ++ [(l_id l, t)])%list; x_jwks := x_jwks x |})
        | None => None
        end
    | LJwks =>
        match file path with
        | Some t =>
            match parse_jwks t with
            | Some j => Some (cfg, {| x_protos := x_protos x; x_script := x_script x; x_cert := x_cert x; x_keys := x_keys x; x_endpoints := x_endpoints x; x_htpasswd := x_htpasswd x; x_jwks := (x_jwks x ++ [(l_id l, j)])%list |})
            | None => None
            end
        | None => None
        end
    | LGrpc =>
        match reflect (l_src l) (l_headers l) with
        | Some files => Some (cfg, add_proto x files)
        | None => None
        end
    end.
  Fixpoint read_links (dir : option string) (s : option Cfg * extensions) (ls : list link) : option (option Cfg * extensions) :=
    match ls with
    | [] => Some s
    | l :: t => match read_link dir s l with Some s => read_links dir s t | None => None end
    end.
  (** reader.rs:38-147 and 227-246, without the telemetry.  Merging with a linked configuration
      merges its extensions, which are empty; the extensions read are set at the end. *)
  Definition resolve_config (dir : option string) (c : Cfg) : option (Cfg * extensions) :=
    let ls := filter (fun l => negb (String.eqb (l_src l) "")) (links_of c) in
    match read_links dir (Some c, no_extensions) ls with
    | Some (Some c, x) => Some (c, x)
    | _ => None
    end.

  (** reader.rs:190-224: every file read and resolved, then merged from the left. *)
  Definition read_config (path : string) : option (Cfg * extensions) :=
    match file path with
    | Some t => match parse_config path (render t) with Some c => resolve_config (parent path) c | None => None end
    | None => None
    end.
  Fixpoint unify_all (acc : Cfg * extensions) (l : list (option (Cfg * extensions))) : option (Cfg * extensions) :=
    match l with
    | [] => Some acc
    | Some (c, x) :: t =>
        match unify (fst acc) c with
        | Some c => unify_all (c, merge_extensions (snd acc) x) t
        | None => None
        end
    | None :: _ => None
    end.
  Definition read_all (paths : list string) : option (Cfg * extensions) :=
    match map read_config paths with
    | Some m :: rest => unify_all m rest
    | _ => None
    end.
End Links.
