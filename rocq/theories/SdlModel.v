(** Configurations as texts in GraphQL: src/core/config/config.rs, [to_sdl] and [from_sdl]. *)
From Coq Require Import String Ascii ZArith NArith Bool Arith List.
From Verif Require Import Base TypeModel ConfigModel FedModel DocModel PrModel PrSpec.
Import ListNotations.
Open Scope string_scope.
Open Scope list_scope.

(** The values of arguments that are read, as their tokens *)
Notation TArgs := (list (string * list token)).

(** src/core/config/config.rs:395-397.  [W]: the settings of directives as arguments, with the texts of their values.  [None]: as for
    [config_document]. *)
Definition to_sdl (W : codecs Args) (fuel : nat) (c : config) : option string := option_map (print "") (config_document W fuel c).

(** async_graphql_parser's [parse_schema] (external crate): the reader of PrSpec.v, and its syntax tree as that of DocModel.v.
    [text_of]: the JSON of a default value (from_document.rs:353-357, 382-386). *)
Section Parser.
  Variable text_of : list token -> string.
  Definition as_dir (d : r_dir) : dir TArgs := {| d_name := rd_name d; d_args := rd_args d |}.
  Definition as_input (i : r_input) : input_value TArgs :=
    {| iv_doc := ri_doc i; iv_name := ri_name i; iv_type := ri_type i; iv_default := option_map text_of (ri_default i); iv_dirs := map as_dir (ri_dirs i) |}.
  Definition as_field (f : r_field) : field_def TArgs :=
    {| fd_doc := rf_doc f; fd_name := rf_name f; fd_args := map as_input (rf_args f); fd_type := rf_type f; fd_dirs := map as_dir (rf_dirs f) |}.
  Definition as_kind (k : r_kind) : kind TArgs :=
    match k with
    | RScalar => KScalar
    | RObject is fs => KObject is (map as_field fs)
    | RInterface is fs => KInterface is (map as_field fs)
    | RUnion ms => KUnion ms
    | REnum vs => KEnum (map (fun v => (fst v, map as_dir (snd v))) vs)
    | RInput fs => KInput (map as_input fs)
    end.
  Definition as_definition (d : r_def) : definition TArgs :=
    match d with
    | RType doc n ds k => DType {| td_doc := doc; td_name := n; td_dirs := map as_dir ds; td_kind := as_kind k |}
    | RSchema ds roots =>
        DSchema {| sd_dirs := map as_dir ds; sd_query := aget "query" roots; sd_mutation := aget "mutation" roots; sd_subscription := aget "subscription" roots |}
    end.
  Definition parse_schema (sdl : string) : option (document TArgs) := option_map (map as_definition) (read sdl).

  (** src/core/config/config.rs:419-425; the text of the parser's error left out.  [R]: the settings of directives from arguments. *)
  Definition from_sdl (R : codecs TArgs) (sdl : string) : valid config :=
    match parse_schema sdl with
    | Some doc => from_document R doc
    | None => Err ["cannot be parsed"]
    end.
End Parser.
