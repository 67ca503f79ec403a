(** The command that generates configurations: src/cli/generator/generator.rs, src/cli/generator/config.rs, src/cli/generator/source.rs. *)
From Coq Require Import String Ascii Bool List QArith.
From Verif Require Import Base DocModel LinksModel.
Import ListNotations.
Open Scope string_scope.
Open Scope list_scope.

(** * Relative paths *)

(** [pathdiff::diff_paths], generator.rs:204-212, of two absolute paths, given by their names: a dependency, written after its source. Names "." and empty names are no components of an absolute path. [None] is for [".."] in the base *)
Fixpoint diff_paths (path base : list string) : option (list string) :=
  match path, base with
  | [], [] => Some []
  | a, [] => Some a
  | [], _ :: b => match diff_paths [] b with Some r => Some (".." :: r) | None => None end
  | a :: path', b :: base' =>
      if String.eqb a b then diff_paths path' base'
      else if String.eqb b ".." then None
      else Some (".." :: map (fun _ => "..") base' ++ a :: path')
  end.

(** * Inputs of the command: config.rs:60-97 *)

(** core/config/source.rs:8-15 *)
Inductive doc_source : Type := GraphQL | JsonDoc | Yml.
Section Gen.
  Context {Json Meta Cfg Method : Type}.
  Inductive source : Type :=
  | Curl (src : string) (headers : option (list (string * string))) (method : option Method) (body : option Json) (is_mutation : option bool) (field_name : string)
  | Proto (src url : string) (proto_paths : option (list string)) (connect_rpc : option bool)
  | Config (src : string).
  (** config.rs:40-48; [None] in [merge_type] is for no number, [Some None] for one that is not a number *)
  Record preset_config : Type := { p_merge : option (option Q); p_infer : option bool; p_shake : option bool; p_unwrap : option bool }.
  (** config.rs:19-38 *)
  Record gen_config : Type := {
    g_inputs : list source; g_output : string; g_preset : option preset_config; g_query : option string; g_mutation : option string;
    g_llm : option (option string * option string)
  }.
  (** preset.rs:9-14 *)
  Record preset : Type := { merge_type : option Q; tree_shake : bool; infer_type_names : bool; unwrap_single : bool }.
  (** core/generator/generator.rs:33-52 *)
  Inductive sample : Type :=
  | SJson (url : string) (method : Method) (req_body : Json) (res_body : Json) (field_name : string) (is_mutation : bool) (headers : option (list (string * string)))
  | SProto (url : string) (meta : Meta) (connect_rpc : option bool)
  | SConfig (text : string) (src : doc_source).
  (** A request to a server *)
  Record request : Type := { q_method : Method; q_url : string; q_headers : list (string * string); q_body : option Json }.
  (** What the outside sees of the command, besides what it reads *)
  Inductive event : Type := Asked (q : request) | Inferred (model : string) (secret : option string) (c : Cfg) | Prompted (path : string) | Wrote (path text : string).

  (** [Url::parse], the names of files and the folder of the process *)
  Variable url : string -> option string.
  Variable extension : string -> option string.
  Variable canonical : string -> option string.
  Variable cwd : option string.
  Variable clean : string -> string.
  Variable relative : option string -> string -> option string.
  (** Reading: files (and what links lead to), proto files, JSON, what servers answer after some requests *)
  Variable file : string -> option string.
  Variable render : string -> string.
  Variable parse_config : doc_source -> string -> option gen_config.
  Variable read_proto : string -> option (list string) -> option Meta.
  Variable with_path : string -> Meta -> Meta.
  Variable parse_json : string -> option Json.
  Variable null : Json.
  Variable is_null : Json -> bool.
  Variable get : Method.
  Variable header_name : string -> option string.
  Variable header_value : string -> option string.
  Variable answer : list event -> request -> option string.
  (** core/generator/generator.rs:108-158 with the transformers of the preset, the renaming after suggestions and the document *)
  Variable generated : preset -> string -> option string -> list sample -> option Cfg.
  Variable inferred : list event -> string -> option string -> Cfg -> option Cfg.
  Variable to_sdl : Cfg -> string.
  Variable exists_file : string -> bool.
  (** [None] is for a prompt that fails *)
  Variable agreed : string -> option bool.
  Variable written : string -> bool.

  (** config.rs:165-183 *)
  Definition into_resolved (parent_dir : string) (src : string) : string :=
    if (match url src with Some _ => true | None => false end) || is_absolute src then src
    else let joined := join_path parent_dir src in
         match canonical joined with
         | Some a => a
         | None => match cwd with Some d => clean (join_path d joined) | None => clean joined end
         end.
  (** config.rs:201-238 *)
  Definition resolve_source (dir : string) (s : source) : source :=
    match s with
    | Curl src h m b i f => Curl (into_resolved dir src) h m b i f
    | Proto src u paths c => Proto (into_resolved dir src) u (option_map (map (into_resolved dir)) paths) c
    | Config src => Config (into_resolved dir src)
    end.
  (** config.rs:247-272; the folder of the file *)
  Definition resolve_gen (config_path : string) (c : gen_config) : gen_config :=
    let dir := match parent config_path with Some d => d | None => "" end in
    {| g_inputs := map (resolve_source dir) (g_inputs c); g_output := into_resolved dir (g_output c); g_preset := g_preset c; g_query := g_query c; g_mutation := g_mutation c; g_llm := g_llm c |}.
  (** core/config/source.rs:38-72 *)
  Definition detect (name : string) : option doc_source :=
    match extension name with
    | None => None
    | Some e =>
        let e := to_lowercase e in
        if String.eqb e "json" then Some JsonDoc
        else if String.eqb e "yml" || String.eqb e "yaml" then Some Yml
        else if String.eqb e "graphql" || String.eqb e "gql" then Some GraphQL
        else None
    end.
  (** generator.rs:73-91, source.rs:10-31; errors have no texts *)
  Definition read_gen (config_path : string) : option gen_config :=
    match detect config_path with
    | None | Some GraphQL => None
    | Some d => match file config_path with
                | None => None
                | Some t => option_map (resolve_gen config_path) (parse_config d (render t))
                end
    end.
  (** config.rs:121-127 *)
  Definition between (t : option Q) : bool := match t with Some q => Qle_bool 0 q && Qle_bool q 1 | None => false end.
  (** config.rs:129-161, preset.rs:17-24 *)
  Definition to_preset (c : preset_config) : option preset :=
    let p := {| merge_type := match p_merge c with Some m => m | None => Some 0%Q end; tree_shake := match p_shake c with Some b => b | None => false end;
                infer_type_names := match p_infer c with Some b => b | None => true end; unwrap_single := match p_unwrap c with Some b => b | None => true end |} in
    if between (merge_type p) then Some p else None.
  (** generator.rs:113-121: [HeaderMap::insert] of every header *)
  Fixpoint header_map (l : list (string * string)) (acc : list (string * string)) : option (list (string * string)) :=
    match l with
    | [] => Some acc
    | (k, v) :: t => match header_name k, header_value v with Some k, Some v => header_map t (aset k v acc) | _, _ => None end
    end.
  (** generator.rs:105-123 *)
  Definition curl_request (src : string) (headers : option (list (string * string))) (method : option Method) (body : option Json) : option request :=
    match url src with
    | None => None
    | Some u =>
        match (match headers with Some l => header_map l [] | None => Some [] end) with
        | None => None
        | Some hs => let b := match body with Some b => b | None => null end in
                     Some {| q_method := match method with Some m => m | None => get end; q_url := u; q_headers := hs; q_body := if is_null b then None else Some b |}
        end
    end.
  (** generator.rs:95-160, one input; the lookup in the cache of files, which finds nothing (C61), is left out *)
  Definition resolve_input (output : string) (ev : list event) (s : source) : list event * option sample :=
    match s with
    | Curl src headers method body is_mutation field_name =>
        match curl_request src headers method body with
        | None => (ev, None)
        | Some q =>
            (ev ++ [Asked q],
             match answer ev q with
             | None => None
             | Some t => option_map (fun r => SJson (q_url q) (q_method q) (match body with Some b => b | None => null end) r field_name (match is_mutation with Some b => b | None => false end) headers) (parse_json t)
             end)
        end
    | Proto src u paths c =>
        (ev, match read_proto src paths with
             | None => None
             | Some m => Some (SProto u (match relative (parent output) src with Some p => with_path p m | None => m end) c)
             end)
    | Config src =>
        (ev, match detect src with
             | None => None
             | Some d => option_map (fun t => SConfig t d) (file src)
             end)
    end.
  Fixpoint resolve_io (output : string) (ev : list event) (l : list source) : list event * option (list sample) :=
    match l with
    | [] => (ev, Some [])
    | s :: t =>
        match resolve_input output ev s with
        | (ev, None) => (ev, None)
        | (ev, Some x) => let '(ev, r) := resolve_io output ev t in (ev, option_map (cons x) r)
        end
    end.
  (** generator.rs:36-71; the answer to the prompt decides, and what is declined is no error *)
  Definition write_gen (ev : list event) (c : Cfg) (path : string) : list event * bool :=
    match detect path with
    | Some GraphQL =>
        if exists_file path then
          match agreed path with
          | None => (ev ++ [Prompted path], false)
          | Some false => (ev ++ [Prompted path], true)
          | Some true => (ev ++ [Prompted path; Wrote path (to_sdl c)], written path)
          end
        else (ev ++ [Wrote path (to_sdl c)], written path)
    | _ => (ev, false)
    end.
  (** generator.rs:163-198 *)
  Definition generate (config_path : string) : list event * option Cfg :=
    match read_gen config_path with
    | None => ([], None)
    | Some g =>
        match to_preset (match g_preset g with Some p => p | None => {| p_merge := None; p_infer := None; p_shake := None; p_unwrap := None |} end) with
        | None => ([], None)
        | Some p =>
            match resolve_io (g_output g) [] (g_inputs g) with
            | (ev, None) => (ev, None)
            | (ev, Some samples) =>
                match generated p (match g_query g with Some q => q | None => "Query" end) (g_mutation g) samples with
                | None => (ev, None)
                | Some c =>
                    let '(ev, c) := match (if infer_type_names p then g_llm g else None) with
                                    | Some (Some model, secret) => (ev ++ [Inferred model secret c], inferred ev model secret c)
                                    | _ => (ev, Some c)
                                    end in
                    match c with
                    | None => (ev, None)
                    | Some c => let '(ev, ok) := write_gen ev c (g_output g) in (ev, if ok then Some c else None)
                    end
                end
            end
        end
    end.
End Gen.
