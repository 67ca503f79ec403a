(** Calling an upstream GraphQL server: src/core/graphql/request_template.rs, the selection
    text of src/core/ir/eval_context.rs, src/core/ir/resolver_context_like.rs:93-126 and
    the related fields of src/core/blueprint/operators/graphql.rs. *)
From Coq Require Import String Ascii NArith ZArith Bool List.
From Verif Require Import Base JsonModel CtxModel MustacheModel HeadersModel UrlModel RequestModel.
Import ListNotations.
Open Scope list_scope.
Open Scope string_scope.

(** [char::escape_default].  Exact for ASCII; of a character beyond ASCII the code point is
    written, here one byte at a time. *)
Definition hex_lower (n : N) : ascii := if N.ltb n 10 then ascii_of_N (48 + n) else ascii_of_N (87 + n).
Definition escape_char (c : ascii) : string :=
  let n := N_of_ascii c in
  if N.eqb n 9 then "\t" else if N.eqb n 13 then "\r" else if N.eqb n 10 then "\n"
  else if (N.eqb n 39 || N.eqb n 34 || N.eqb n 92)%bool then String "\" (String c "")
  else if (N.leb 32 n && N.leb n 126)%bool then String c ""
  else "\u{" ++ (if N.ltb n 16 then "" else String (hex_lower (N.div n 16)) "")
       ++ String (hex_lower (N.modulo n 16)) "" ++ "}".
(** [str::escape_default] *)
Fixpoint escape_default (s : string) : string :=
  match s with EmptyString => "" | String c t => escape_char c ++ escape_default t end.

(** jit/model.rs: the parts of a planned field used here.  [f_directives]: its directives
    printed by document.rs:83-91; [f_args]: names and, if present, the GraphQL text of the
    value. *)
Inductive gfield : Type := GField {
  f_name : string;
  f_output : string;
  f_type : string;
  f_condition : option string;
  f_args : list (string * option string);
  f_directives : string;
  f_selection : list gfield }.

(** resolver_context_like.rs:72-78 *)
Inductive sfield : Type := SField {
  s_name : string;
  s_args : list (string * string);
  s_directives : string;
  s_selection : list sfield }.

(** resolver_context_like.rs:98-101 *)
Definition applies (type_name : string) (f : gfield) : bool :=
  match f_condition f with Some c => String.eqb c type_name | None => true end.
(** resolver_context_like.rs:93-126: the name is the output name. *)
Fixpoint from_jit_field (f : gfield) : sfield :=
  {| s_name := f_output f;
     s_args := flat_map (fun a => match snd a with Some v => [(fst a, v)] | None => [] end) (f_args f);
     s_directives := f_directives f;
     s_selection := flat_map (fun g => if applies (f_type f) g then [from_jit_field g] else []) (f_selection f) |}.

(** ir/mod.rs:26 *)
Inductive related : Type := Related (m : list (string * (string * related))).
Definition related_get (r : related) (n : string) : option (string * related) :=
  match r with Related m => aget n m end.

Section Render.
  (** How texts are made fit for a JSON text: [escape_default] in the program. *)
  Variable esc : string -> string.

  (** eval_context.rs:173-187 *)
  Definition format_args (l : list (string * string)) : string :=
    match l with
    | [] => ""
    | _ => "(" ++ esc (join "," (map (fun a => fst a ++ ": " ++ snd a) l)) ++ ")"
    end.

  (** eval_context.rs:143 *)
  Definition braces (l : list string) : option string :=
    match l with [] => None | _ => Some ("{ " ++ join " " l ++ " }") end.
  (** eval_context.rs:126-171, both functions. *)
  Fixpoint format_field (f : sfield) (name : string) (rel : related) : string :=
    let sub := flat_map (fun g => match related_get rel (s_name g) with
                                  | Some (n, r) => [format_field g n r]
                                  | None => []
                                  end) (s_selection f) in
    name ++ format_args (s_args f)
    ++ (if String.eqb (s_directives f) "" then "" else " " ++ esc (s_directives f))
    ++ match braces sub with Some s => " " ++ s | None => "" end.
  Definition format_selection_set (l : list sfield) (rel : related) : option string :=
    braces (flat_map (fun g => match related_get rel (s_name g) with
                               | Some (n, r) => [format_field g n r]
                               | None => []
                               end) l).

  (** graphql/request_template.rs:127-148: the arguments, already rendered. *)
  Definition operation_args (l : list (string * string)) : string :=
    match flat_map (fun a => if String.eqb (snd a) "" then [] else [fst a ++ ": " ++ esc (snd a)]) l with
    | [] => ""
    | texts => "(" ++ join ", " texts ++ ")"
    end.

  (** graphql/request_template.rs:113-159 without the surrounding JSON text;
      [kind]: query or mutation; [args]: the rendered arguments; [directives]: those of the
      field; [selection]: the configured or computed selection. *)
  Definition operation_text (kind name : string) (args : list (string * string)) (directives selection : string) : string :=
    kind ++ " { " ++ name ++ operation_args args
    ++ (if String.eqb directives "" then "" else " " ++ esc directives)
    ++ " " ++ selection ++ " }".
End Render.

(** graphql/request_template.rs:48-59; [gt_selection]: a selection set by a transformation,
    already printed (119-123). *)
Record gql_template : Type := {
  gt_url : string;
  gt_kind : string;
  gt_name : string;
  gt_args : option (list (string * mustache));
  gt_headers : list (string * mustache);
  gt_related : related;
  gt_selection : option string }.

(** mustache/eval.rs:108-122 *)
Definition render_graphql (e : evaluation) (m : mustache) : string := render (path_graphql (e_ext e) (e_ctx e)) m.

(** graphql/request_template.rs:113-163 for the field being resolved. *)
Definition rendered_args (t : gql_template) (e : evaluation) : list (string * string) :=
  match gt_args t with Some l => map (fun a => (fst a, render_graphql e (snd a))) l | None => [] end.
Definition gql_selection (esc : string -> string) (t : gql_template) (f : gfield) : string :=
  match gt_selection t with
  | Some s => s
  | None => match format_selection_set esc (s_selection (from_jit_field f)) (gt_related t) with
            | Some s => s
            | None => ""
            end
  end.
Definition gql_operation (esc : string -> string) (t : gql_template) (e : evaluation) (f : gfield) : string :=
  operation_text esc (gt_kind t) (gt_name t) (rendered_args t e) (f_directives f) (gql_selection esc t f).
Definition gql_body (t : gql_template) (e : evaluation) (f : gfield) : string :=
  "{ ""query"": """ ++ gql_operation escape_default t e f ++ """ }".

(** graphql/request_template.rs:62-101 *)
Definition gql_request (parse_base : string -> option string) (t : gql_template) (e : evaluation) (f : gfield)
  : result request req_error :=
  match parse_url parse_base (gt_url t) with
  | None => Err (BadUrl (gt_url t))
  | Some u =>
      Ok {| q_method := "POST"; q_url := url_text u;
            q_headers := set_headers false false
                           (create_headers (map (fun kv => (fst kv, render_graphql e (snd kv))) (gt_headers t))) (e_headers e);
            q_body := Some (gql_body t e f) |}
  end.
(** graphql/request_template.rs:195-202 *)
Definition gql_key_tokens (t : gql_template) (e : evaluation) (f : gfield) : list token := [TText (gql_body t e f)].

(** * Related fields: blueprint/operators/graphql.rs:12-54 *)
Record cfield : Type := { cf_type : string; cf_resolver : bool; cf_modify : option (option string) }.
Record gconfig : Type := { g_types : list (string * list (string * cfield)); g_unions : list (string * list string) }.

(** The body of the loop over the fields, for a given recursive call. *)
Definition related_field (rec : string -> list string -> related * list string)
  (acc : list (string * (string * related)) * list string) (nf : string * cfield)
  : list (string * (string * related)) * list string :=
  let '(m, visited) := acc in
  let '(name, f) := nf in
  if cf_resolver f then acc
  else match cf_modify f with
       | Some (Some new) => let '(r, visited) := rec (cf_type f) visited in (aset new (name, r) m, visited)
       | Some None => acc
       | None => let '(r, visited) := rec (cf_type f) visited in (aset name (name, r) m, visited)
       end.
(** [fuel]: each level adds a type to [visited]; [related_fields] supplies one more than the
    number of types and unions. *)
Fixpoint create_related (fuel : nat) (c : gconfig) (type_name : string) (visited : list string) : related * list string :=
  if smem type_name visited then (Related [], visited)
  else match fuel with
       | O => (Related [], visited)
       | S n =>
           let visited := type_name :: visited in
           match aget type_name (g_types c) with
           | Some fields =>
               let '(m, visited) := fold_left (related_field (create_related n c)) fields ([], visited) in
               (Related m, visited)
           | None =>
               match aget type_name (g_unions c) with
               | Some members =>
                   let '(m, visited) :=
                     fold_left (fun acc t =>
                       let '(m, visited) := acc in
                       let '(Related r, visited) := create_related n c t visited in
                       (fold_left (fun m kv => aset (fst kv) (snd kv) m) r m, visited)) members ([], visited) in
                   (Related m, visited)
               | None => (Related [], visited)
               end
           end
       end.
Definition related_fields (c : gconfig) (type_name : string) : related :=
  fst (create_related (S (length (g_types c) + length (g_unions c))) c type_name []).
