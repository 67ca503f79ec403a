(** Types as entities of a federation: src/core/config/transformer/subgraph.rs. *)
From Coq Require Import String Ascii ZArith NArith Bool List.
From Verif Require Import Base Ordered JsonModel TypeModel ConfigModel MustacheModel ComposeModel.
Import ListNotations.
Open Scope string_scope.
Open Scope list_scope.

(** * subgraph.rs *)

(** subgraph.rs:163-164 *)
Inductive keys : Type := Keys (m : list (string * keys)).
Definition no_keys : keys := Keys [].
(** subgraph.rs:171-177 *)
Fixpoint set_path (p : list string) (k : keys) : keys :=
  match p with
  | [] => k
  | n :: rest =>
      let '(Keys m) := k in
      Keys (oins scmp n (set_path rest (match oget scmp n m with Some k' => k' | None => no_keys end)) m)
  end.
(** subgraph.rs:179-181 *)
Definition keys_empty (k : keys) : bool := match k with Keys [] => true | _ => false end.
(** The derived [merge_right] (subgraph.rs:163) and that of [BTreeMap] (merge_right.rs:48-64) *)
Fixpoint merge_keys (other : keys) (self : keys) : keys :=
  let '(Keys l) := other in
  let '(Keys m) := self in
  Keys ((fix go (l : list (string * keys)) (m : list (string * keys)) : list (string * keys) :=
           match l with
           | [] => m
           | (n, k) :: t =>
               go t (oins scmp n (match oget scmp n m with Some k' => merge_keys k k' | None => k end) m)
           end) l m).
(** subgraph.rs:184-200 *)
Fixpoint show_keys (k : keys) : string :=
  let '(Keys m) := k in
  String.concat " "
    (map (fun nk => (fst nk ++ (if keys_empty (snd nk) then "" else " { " ++ show_keys (snd nk) ++ " }"))%string) m).
(** subgraph.rs:202-205 *)
Definition combine_keys (l : list keys) : keys := fold_left (fun acc k => merge_keys k acc) l no_keys.

(** The settings of the resolver directives the extractor looks at (config/directives/*.rs):
    address, body, headers, query; address, method, body, headers; headers, args; the args of
    the steps; the body. *)
Inductive details : Type :=
| DHttp (url : string) (body : option value) (hs query : list (string * string))
| DGrpc (url method : string) (body : option value) (hs : list (string * string))
| DGraphql (hs : list (string * string)) (args : option (list (string * string)))
| DCall (steps : list (list (string * value)))
| DExpr (body : value)
| DOther.

Local Notation valid A := (checked A string).
Definition bad {A} (msg : string) : valid A := Err [Build_cause [] msg].
(** [Valid::from_iter] and [Valid::zip]/[Valid::and]: all the errors *)
Section Each.
  Context {A B : Type} (f : A -> valid B).
  Fixpoint each (l : list A) : valid (list B) :=
    match l with
    | [] => Ok []
    | a :: t =>
        match f a, each t with
        | Ok b, Ok bs => Ok (b :: bs)
        | Ok _, Err e => Err e
        | Err e, Ok _ => Err e
        | Err e, Err e' => Err (e ++ e')
        end
    end.
End Each.
Definition both {A B} (x : valid A) (y : valid B) : valid (A * B) :=
  match x, y with
  | Ok a, Ok b => Ok (a, b)
  | Ok _, Err e => Err e
  | Err e, Ok _ => Err e
  | Err e, Err e' => Err (e ++ e')
  end.

Definition no_args : string := "Type resolver can't use `.args`, use `.value` instead".
(** subgraph.rs:343-359 on one segment *)
Definition check_segment (s : segment) : valid unit :=
  match s with
  | Expression (h :: _) => if String.eqb h "value" then Ok tt else if String.eqb h "args" then bad no_args else Ok tt
  | _ => Ok tt
  end.
Definition add_segment (k : keys) (s : segment) : keys :=
  match s with
  | Expression (h :: rest) => if String.eqb h "value" then set_path rest k else k
  | _ => k
  end.
(** subgraph.rs:339-361 *)
Definition parse_str (s : string) : valid keys :=
  rmap (fun _ => fold_left add_segment (parse s) no_keys) (each check_segment (parse s)).

Section Extract.
  (** [serde_json::Value::to_string] *)
  Variable json_text : value -> string.

  (** subgraph.rs:363-369 *)
  Definition parse_json_option (o : option value) : valid keys :=
    match o with Some v => parse_str (json_text v) | None => Ok no_keys end.
  (** subgraph.rs:371-384 *)
  Definition parse_key_value_iter (l : list (string * string)) : valid keys :=
    rmap (fun l => fold_left (fun acc kv => merge_keys (snd kv) (merge_keys (fst kv) acc)) l no_keys)
         (each (fun kv => both (parse_str (fst kv)) (parse_str (snd kv))) l).
  (** subgraph.rs:396-412 *)
  Fixpoint parse_value (v : value) : valid keys :=
    match v with
    | VStr s => parse_str s
    | VList l => rmap combine_keys (each parse_value l)
    | VObj m =>
        rmap combine_keys
          (each (fun kv => rmap (fun ab => merge_keys (snd ab) (fst ab)) (both (parse_str (fst kv)) (parse_value (snd kv)))) m)
    | _ => Ok no_keys
    end.
  (** subgraph.rs:414-420 *)
  Definition parse_value_option (o : option value) : valid keys :=
    match o with Some v => parse_value v | None => Ok no_keys end.

  (** subgraph.rs:276-326; [None] for the resolvers without keys *)
  Definition found_keys (d : details) : option (valid (list keys)) :=
    match d with
    | DHttp url body hs query =>
        Some (traced (each (fun x => x)
          [traced (parse_str url) "url"; traced (parse_json_option body) "body";
           traced (parse_key_value_iter hs) "headers"; traced (parse_key_value_iter query) "query"]) "http")
    | DGrpc url method body hs =>
        Some (traced (each (fun x => x)
          [parse_str url; parse_str method; parse_value_option body; parse_key_value_iter hs]) "grpc")
    | DGraphql hs args =>
        Some (traced (each (fun x => x)
          [parse_key_value_iter hs; match args with Some l => parse_key_value_iter l | None => Ok no_keys end]) "graphQL")
    | DCall steps =>
        Some (traced (match steps with
                      | [] => bad "Call should define at least one step"
                      | step :: _ =>
                          rmap (@concat keys) (each (fun kv => each (fun x => x) [parse_str (fst kv); parse_value (snd kv)]) step)
                      end) "call")
    | DExpr body => Some (traced (each (fun x => x) [parse_value body]) "call")
    | DOther => None
    end.
  (** subgraph.rs:328-336 *)
  Definition extract_keys (d : details) : valid (option string) :=
    match found_keys d with
    | None => Ok None
    | Some r => rmap (fun l => let k := combine_keys l in if keys_empty k then None else Some (show_keys k)) r
    end.
End Extract.

(** subgraph.rs:229-250; the errors are one text each, the numbers in them are left out *)
Fixpoint validate_iter (types : list (string * gtype)) (current : string) (p : list string) : valid unit :=
  match p with
  | [] => Ok tt
  | key :: rest =>
      match oget scmp current types with
      | None => rmap (fun _ => tt) (both (bad (A := unit) ("Type '" ++ current ++ "' not found in config")) (validate_iter types current rest))
      | Some t =>
          match oget scmp key (t_fields t) with
          | None => rmap (fun _ => tt) (both (bad (A := unit) ("Invalid key: '" ++ key ++ "' is not a field of '" ++ current ++ "'")) (validate_iter types current rest))
          | Some f => validate_iter types (type_name (f_type f)) rest
          end
      end
  end.
(** subgraph.rs:210-227 *)
Definition validate_expressions (types : list (string * gtype)) (name : string) (m : mustache) : valid unit :=
  rmap (fun _ => tt) (each (fun s => match s with
                                     | Expression (h :: (_ :: _) as rest) =>
                                         if String.eqb h "value" then validate_iter types name rest else Ok tt
                                     | _ => Ok tt
                                     end) m).
(** subgraph.rs:252-274 *)
Definition validate (types : list (string * gtype)) (d : details) (name : string) : valid unit :=
  match d with
  | DHttp url _ _ query =>
      rmap (fun _ => tt)
        (both (each (fun kv => validate_expressions types name (parse (snd kv))) query)
              (validate_expressions types name (parse url)))
  | _ => Ok tt
  end.

Section Subgraph.
  Variable json_text : value -> string.
  (** what the directive of a type says *)
  Variable details_of : resolver -> details.
  (** the text of [@key(fields: "...")] *)
  Variable key_directive : string -> string.

  Definition push_directive (d : string) (t : gtype) : gtype :=
    if smem d (t_directives t) then t
    else {| t_fields := t_fields t; t_added := t_added t; t_doc := t_doc t; t_implements := t_implements t;
            t_cache := t_cache t; t_protected := t_protected t; t_resolvers := t_resolvers t;
            t_directives := t_directives t ++ [d] |}.
  (** subgraph.rs:45-77 on one type *)
  Definition entity_type (types : list (string * gtype)) (nt : string * gtype) : valid (string * gtype) :=
    let '(name, t) := nt in
    match t_resolvers t with
    | _ :: _ :: _ => bad "Only single resolver for entity is currently supported"
    | [r] =>
        traced
          (and_then (validate types (details_of r) name) (fun _ =>
             rmap (fun key => (name, match key with Some text => push_directive (key_directive text) t | None => t end))
                  (extract_keys json_text (details_of r)))) name
    | [] => Ok (name, t)
    end.
  Definition resolver_by_type (types : list (string * gtype)) : list (string * resolver) :=
    flat_map (fun nt => match t_resolvers (snd nt) with r :: _ => [(fst nt, r)] | [] => [] end) types.

  Definition with_field (n : string) (f : field) (t : gtype) : gtype :=
    {| t_fields := oins scmp n f (t_fields t); t_added := t_added t; t_doc := t_doc t; t_implements := t_implements t;
       t_cache := t_cache t; t_protected := t_protected t; t_resolvers := t_resolvers t; t_directives := t_directives t |}.
  (** [config.types.entry(name).or_default().fields.insert(n, f)] *)
  Definition add_to_type (name n : string) (f : field) (types : list (string * gtype)) : list (string * gtype) :=
    oins scmp name (with_field n f (match oget scmp name types with Some t => t | None => empty_gtype end)) types.
  Definition fresh_field (t : typ) (args : list (string * arg)) (doc : string) (r : list resolver) : field :=
    {| f_type := t; f_args := args; f_doc := Some doc; f_modify := None; f_omit := false; f_cache := None; f_default := None;
       f_protected := None; f_discriminate := None; f_resolvers := r; f_directives := [] |}.
  (** subgraph.rs:83-88 *)
  Definition service_type : gtype := with_field "sdl"
    {| f_type := TNamed "String" false; f_args := []; f_doc := None; f_modify := None; f_omit := false; f_cache := None; f_default := None;
       f_protected := None; f_discriminate := None; f_resolvers := []; f_directives := [] |} empty_gtype.
  (** subgraph.rs:105-113 *)
  Definition service_field : field :=
    fresh_field (TNamed "_Service" true) [] "Apollo federation Query._service resolver" [RService].
  (** subgraph.rs:134-156 *)
  Definition entities_field (by_type : list (string * resolver)) : field :=
    fresh_field (TList (TNamed "_Entity" false) true)
      [("representations", {| arg_type := TList (TNamed "_Any" true) true; arg_doc := None; arg_modify := None; arg_default := None |})]
      "Apollo federation Query._entities resolver" [REntity by_type].

  (** subgraph.rs:37-160 *)
  Definition subgraph (c : config) : valid config :=
    if match s_federation (c_server c) with Some b => b | None => false end then
      and_then (each (entity_type (c_types c)) (c_types c)) (fun types =>
        let by_type := resolver_by_type (c_types c) in
        let query := match r_query (c_schema c) with Some q => q | None => "Query" end in
        let types := add_to_type query "_service" service_field (oins scmp "_Service" service_type types) in
        let schema := {| r_query := Some query; r_mutation := r_mutation (c_schema c); r_subscription := r_subscription (c_schema c) |} in
        Ok match by_type with
           | [] => {| c_server := c_server c; c_upstream := c_upstream c; c_schema := schema; c_types := types;
                      c_unions := c_unions c; c_enums := c_enums c; c_links := c_links c; c_telemetry := c_telemetry c |}
           | _ =>
               {| c_server := c_server c; c_upstream := c_upstream c; c_schema := schema;
                  c_types := add_to_type query "_entities" (entities_field by_type) (oins scmp "_Any" empty_gtype types);
                  c_unions := oins scmp "_Entity" {| u_types := map fst by_type; u_doc := None |} (c_unions c);
                  c_enums := c_enums c; c_links := c_links c; c_telemetry := c_telemetry c |}
           end)
    else Ok c.
End Subgraph.
