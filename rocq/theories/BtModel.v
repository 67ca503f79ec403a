(** Checking and starting: src/cli/tc/check.rs, src/cli/tc/start.rs, src/cli/server/http_server.rs, server_config.rs, http_1.rs and http_2.rs. *)
From Coq Require Import String Ascii NArith Bool List.
From Verif Require Import Base.
Import ListNotations.
Open Scope string_scope.
Open Scope list_scope.

(** [std::net::IpAddr]: the four numbers, or the eight *)
Inductive ip : Type := V4 (a b c d : N) | V6 (groups : list N).
Definition is_unspecified (i : ip) : bool :=
  match i with
  | V4 a b c d => N.eqb a 0 && N.eqb b 0 && N.eqb c 0 && N.eqb d 0
  | V6 l => forallb (N.eqb 0) l
  end.
(** [str::split_once('@')] *)
Fixpoint split_at (s : string) : option (string * string) :=
  match s with
  | "" => None
  | String c t => if Ascii.eqb c "@" then Some ("", t) else match split_at t with Some (a, b) => Some (String c a, b) | None => None end
  end.
Section Boot.
  Context {Cfg Bp Cert : Type}.
  (** config/reader.rs ([None] for an error), [Blueprint::try_from] and [EndpointSet::into_checked] with the endpoints of the configuration, whose runtime is not used as the schema has no resolvers *)
  Variable read_all : list string -> option Cfg.
  Variable blueprint_of : Cfg -> result Bp string.
  Variable endpoints_fit : Cfg -> Bp -> bool.
  (** server.rs:190-192 and the rest of a blueprint *)
  Variable workers : Cfg -> option N.
  Variable cpus : N.
  Variable graph_ref : Bp -> option string.
  Variable telemetry_starts : Bp -> bool.
  Variable http2 : Bp -> option Cert.
  Variable hostname : Bp -> ip.
  Variable port : Bp -> N.
  Variable batches : Bp -> bool.
  (** What the machine says: addresses that can be bound and certificates that fit their keys *)
  Variable binds : ip * N -> bool.
  Variable tls : Cert -> bool.

  Inductive checked : Type := NotRead | NotABlueprint (e : string) | BadEndpoints | Fine.
  (** check.rs:17-43; what is printed is left out *)
  Definition check_command (files : list string) : checked :=
    match read_all files with
    | None => NotRead
    | Some c =>
        match blueprint_of c with
        | Err e => NotABlueprint e
        | Ok b => if endpoints_fit c b then Fine else BadEndpoints
        end
    end.
  Inductive started : Type :=
  | Refused (why : checked)
  | NoThreads
  | NoGraph
  | NoTelemetry
  | NotBound
  | NoTls
  | Serving (addr : ip * N) (secure batch : bool).
  (** server_config.rs:19-45: [split_once('@').unwrap()]; the panic ends the task that starts the server *)
  Definition extensions_fit (b : Bp) : bool :=
    match graph_ref b with
    | Some r => match split_at r with Some _ => true | None => false end
    | None => true
    end.
  (** server_config.rs:47-49 *)
  Definition addr (b : Bp) : ip * N := (hostname b, port b).
  (** http_1.rs:11-54 *)
  Definition start_http_1 (b : Bp) : started := if binds (addr b) then Serving (addr b) false (batches b) else NotBound.
  (** http_2.rs:17-67 *)
  Definition start_http_2 (b : Bp) (cert : Cert) : started :=
    if binds (addr b) then if tls cert then Serving (addr b) true (batches b) else NoTls else NotBound.
  (** http_server.rs:34-47 *)
  Definition start_server (c : Cfg) : started :=
    match blueprint_of c with
    | Err e => Refused (NotABlueprint e)
    | Ok b =>
        if extensions_fit b then
          if endpoints_fit c b then
            if telemetry_starts b then
              match http2 b with Some cert => start_http_2 b cert | None => start_http_1 b end
            else NoTelemetry
          else Refused BadEndpoints
        else NoGraph
    end.
  (** http_server.rs:50-60: tokio's [worker_threads] panics for none *)
  Definition fork_start (c : Cfg) : started :=
    let n := match workers c with Some n => n | None => cpus end in
    if N.eqb n 0 then NoThreads else start_server c.
  (** start.rs:8-19 *)
  Definition start_command (files : list string) : started :=
    match read_all files with
    | None => Refused NotRead
    | Some c => fork_start c
    end.
  (** server_config.rs:58-68: the protocol, the address and the port of the URL that is printed *)
  Definition graphiql_url (b : Bp) : string * ip * N :=
    (match http2 b with Some _ => "https" | None => "http" end, if is_unspecified (hostname b) then V4 127 0 0 1 else hostname b, port b).
End Boot.
