(** Links and telemetry of a configuration: src/core/blueprint/links.rs and telemetry.rs. *)
From Coq Require Import String Ascii ZArith NArith Bool List.
From Verif Require Import Base ComposeModel.
Import ListNotations.
Open Scope string_scope.
Open Scope list_scope.

(** src/core/blueprint/error.rs:100-110, 160-161, 178-185 *)
Inductive setting_error : Type :=
| LinkSrcCannotBeEmpty
| Duplicated (id : string)
| OnlyOneScriptLinkAllowed
| OnlyOneKeyLinkAllowed
| InvalidGraphRef (r : string)
| UrlParse (url : string)
| InvalidHeaderName (name : string)
| InvalidHeaderValue (value : string).
Notation valid A := (checked A setting_error).
Definition fail {A} (e : setting_error) : valid A := Err [Build_cause [] e].
(** [Valid::from_iter]: all the values, or all the errors *)
Fixpoint each {A B} (f : A -> valid B) (l : list A) : valid (list B) :=
  match l with
  | [] => Ok []
  | a :: t =>
      match f a, each f t with
      | Ok b, Ok bs => Ok (b :: bs)
      | Ok _, Err e => Err e
      | Err e, Ok _ => Err e
      | Err e, Err e' => Err (e ++ e')
      end
  end.
(** [Valid::zip] *)
Definition zip {A B} (x : valid A) (y : valid B) : valid (A * B) :=
  match x, y with
  | Ok a, Ok b => Ok (a, b)
  | Ok _, Err e => Err e
  | Err e, Ok _ => Err e
  | Err e, Err e' => Err (e ++ e')
  end.

(** *** Links *)
(** src/core/config/directives/link.rs:20-57 *)
Inductive link_type : Type := LConfig | LProtobuf | LScript | LCert | LKey | LOperation | LHtpasswd | LJwks | LGrpc.
(** link.rs:76-100; headers and meta are not looked at here *)
Record link := { l_id : option string; l_src : string; l_type : link_type }.
Definition link_type_eqb (a b : link_type) : bool :=
  match a, b with
  | LConfig, LConfig | LProtobuf, LProtobuf | LScript, LScript | LCert, LCert | LKey, LKey | LOperation, LOperation | LHtpasswd, LHtpasswd
  | LJwks, LJwks | LGrpc, LGrpc => true
  | _, _ => false
  end.
Definition same_id (id : string) (l : link) : bool := match l_id l with Some i => String.eqb i id | None => false end.
(** links.rs:13-31 *)
Definition check_link (links : list link) (pl : nat * link) : valid link :=
  let '(pos, l) := pl in
  traced (and_then (if String.eqb (l_src l) "" then fail LinkSrcCannotBeEmpty else Ok l)
    (fun l => match l_id l with
              | Some id => if Nat.ltb 1 (length (filter (same_id id) links)) then fail (Duplicated id) else Ok l
              | None => Ok l
              end)) (Z_to_string (Z.of_nat pos)).
(** links.rs:33-44 and 45-56 *)
Definition at_most_one (t : link_type) (e : setting_error) (links : list link) : valid (list link) :=
  if Nat.ltb 1 (length (filter (fun l => link_type_eqb (l_type l) t) links)) then fail e else Ok links.
(** links.rs:12-60 *)
Definition check_links (links : list link) : valid (list link) :=
  traced (traced
    (and_then (and_then (each (check_link links) (combine (seq 0 (length links)) links))
       (at_most_one LScript OnlyOneScriptLinkAllowed)) (at_most_one LKey OnlyOneKeyLinkAllowed)) "@link") "schema".

(** *** Telemetry *)
(** src/core/config/directives/telemetry.rs:21-68 and src/core/config/apollo.rs; the other settings of the exporters are a text *)
Inductive exporter : Type :=
| Stdout (pretty : bool)
| Otlp (url : string) (headers : list (string * string))
| Prometheus (path : string) (protobuf : bool)
| Apollo (graph_ref : string) (others : string).
Record telemetry := { te_export : option exporter; te_headers : list string }.

(** blueprint/telemetry.rs:96-99: the regular expression [^[A-Za-z0-9-_]+@[A-Za-z0-9-_]+$] *)
Definition ref_char (c : ascii) : bool :=
  let n := nat_of_ascii c in
  (Nat.leb 65 n && Nat.leb n 90) || (Nat.leb 97 n && Nat.leb n 122) || (Nat.leb 48 n && Nat.leb n 57) || Ascii.eqb c "-" || Ascii.eqb c "_".
Fixpoint ref_rest (seen : bool) (s : string) : bool :=
  match s with
  | "" => seen
  | String c s => ref_char c && ref_rest true s
  end.
Fixpoint ref_first (seen : bool) (s : string) : bool :=
  match s with
  | "" => false
  | String c s => if Ascii.eqb c "@" then seen && ref_rest false s else ref_char c && ref_first true s
  end.
Definition is_graph_ref (s : string) : bool := ref_first false s.

Section Telemetry.
  (** [Url::parse], [HeaderName::from_str] (names in lower case) and [HeaderValue::from_str] of external crates; the text of a URL as it is written again *)
  Variable parse_url : string -> option string.
  Variable header_name : string -> option string.
  Variable header_value : string -> bool.

  (** blueprint/telemetry.rs:34-40 *)
  Definition to_url (url : string) : valid string := traced (match parse_url url with Some u => Ok u | None => fail (UrlParse url) end) "url".
  (** blueprint/telemetry.rs:42-59; a [HeaderMap] keeps all values, in order *)
  Definition to_headers (headers : list (string * string)) : valid (list (string * string)) :=
    traced (each (fun kv => zip (match header_name (fst kv) with Some n => Ok n | None => fail (InvalidHeaderName (fst kv)) end)
                                (if header_value (snd kv) then Ok (snd kv) else fail (InvalidHeaderValue (snd kv)))) headers) "headers".
  (** blueprint/telemetry.rs:90-94 and 96-105 *)
  Definition validate_apollo (r others : string) : valid exporter :=
    traced (if is_graph_ref r then Ok (Apollo r others) else fail (InvalidGraphRef r)) "apollo.graph_ref".
  (** blueprint/telemetry.rs:61-88; [up] is what the blueprint has *)
  Definition to_opentelemetry (t up : telemetry) : valid telemetry :=
    match te_export t with
    | Some e =>
        let checked := match e with
          | Stdout p => Ok (Stdout p)
          | Otlp url headers => traced (rmap (fun uh => Otlp (fst uh) (snd uh)) (zip (to_url url) (to_headers headers))) "otlp"
          | Prometheus path proto => Ok (Prometheus path proto)
          | Apollo r others => and_then (validate_apollo r others) (fun a => Ok a)
          end in
        traced (rmap (fun e => {| te_export := Some e; te_headers := te_headers t |}) checked) "@telemetry"
    | None => Ok up
    end.
End Telemetry.
