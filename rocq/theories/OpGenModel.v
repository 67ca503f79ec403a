(** Fields generated from sample requests: src/core/generator/json/http_directive_generator.rs,
    operation_generator.rs, the type detection of src/core/helpers/gql_type.rs. *)
From Coq Require Import String Ascii ZArith NArith Bool List.
From Verif Require Import Base Ordered JsonModel TypeModel ConfigModel MustacheModel UrlModel GenModel.
From Verif Require ScalarModel.
Import ListNotations.
Open Scope list_scope.
Open Scope string_scope.

(** url::Url: everything before the path, the path as it is kept (percent-encoded), and the
    decoded pairs of the query.  The fragment is left out. *)
Record sample_url := { su_base : string; su_path : string; su_query : list (string * string) }.

(** *** Regular expressions of http_directive_generator.rs:62-64, what they match after the slash.
    The path of a URL is ASCII, so [\d], [\w] and [\b] are those of ASCII. *)
(** [\b\d+\b]: a run of digits that no letter, digit or underscore follows (a shorter run would
    be followed by a digit) *)
Definition match_int (s : string) : option string :=
  let '(d, rest) := span is_digit s in
  match d with
  | "" => None
  | _ => match rest with
         | "" => Some d
         | String c _ => if is_word c then None else Some d
         end
  end.
Definition is_lower_hex (c : ascii) : bool :=
  let n := N_of_ascii c in (is_digit c || (N.leb 97 n && N.leb n 102))%bool.
(** [p] given times, then the rest *)
Fixpoint exactly (p : ascii -> bool) (n : nat) (s : string) : option (string * string) :=
  match n with
  | O => Some ("", s)
  | S n => match s with
           | "" => None
           | String c t =>
               if p c then match exactly p n t with Some (a, b) => Some (String c a, b) | None => None end else None
           end
  end.
Fixpoint match_groups (l : list nat) (s : string) : option string :=
  match l with
  | [] => Some ""
  | n :: l =>
      match exactly is_lower_hex n s with
      | None => None
      | Some (a, rest) =>
          match l with
          | [] => Some a
          | _ => match tag "-" rest with
                 | None => None
                 | Some rest => match match_groups l rest with Some b => Some (a ++ "-" ++ b) | None => None end
                 end
          end
      end
  end.
Definition match_uuid (s : string) : option string := match_groups [8; 4; 4; 4; 12] s.

(** generator/mod.rs:15 and the [format!] of http_directive_generator.rs:78 *)
Definition arg_key (k : Z) : string := "GEN__" ++ Z_to_string k.
Definition expr_text (key : string) : string := "{{.args." ++ key ++ "}}".

(** [Regex::replace_all] with the closure of http_directive_generator.rs:77-91: the new text, the
    arguments with their types, and the next number.  [skip] characters belong to a match. *)
Fixpoint replace_all (m : string -> option string) (type : string) (s : string) (skip : nat) (k : Z)
  : string * list (string * typ) * Z :=
  match s with
  | "" => ("", [], k)
  | String c t =>
      match skip with
      | S j => replace_all m type t j k
      | O =>
          match (if Ascii.eqb c "/" then m t else None) with
          | Some d =>
              let '(out, args, k') := replace_all m type t (String.length d) (k + 1) in
              ("/" ++ expr_text (arg_key k) ++ out, (arg_key k, TNamed type true) :: args, k')
          | None => let '(out, args, k') := replace_all m type t 0 k in (String c out, args, k')
          end
      end
  end.

(** [Url::set_path] (http_directive_generator.rs:97): the braces are percent-encoded; the rest of
    the path was a path before. *)
Fixpoint set_path (s : string) : string :=
  match s with
  | "" => ""
  | String c t => if Ascii.eqb c "{" then "%7B" ++ set_path t else if Ascii.eqb c "}" then "%7D" ++ set_path t else String c (set_path t)
  end.
(** The crate urlencoding, before the bytes are checked to be UTF-8. *)
Fixpoint percent_decode (s : string) : string :=
  match s with
  | "" => ""
  | String c t =>
      if Ascii.eqb c "%" then
        match t with
        | String a (String b r) =>
            match hex_value a, hex_value b with
            | Some x, Some y => String (ascii_of_N (16 * x + y)) (percent_decode r)
            | _, _ => String c (percent_decode t)
            end
        | _ => String c (percent_decode t)
        end
      else String c (percent_decode t)
  end.

(** [str::trim], for the white space of ASCII *)
Definition is_white (c : ascii) : bool := let n := N_of_ascii c in ((N.leb 9 n && N.leb n 13) || N.eqb n 32)%bool.
Fixpoint trim_end (s : string) : string :=
  match s with
  | "" => ""
  | String c t => match trim_end t with "" => if is_white c then "" else String c "" | r => String c r end
  end.
Definition trim (s : string) : string := trim_end (snd (span is_white s)).
Fixpoint has_comma (s : string) : bool := match s with "" => false | String c t => Ascii.eqb c "," || has_comma t end.

(** http_directive_generator.rs:12-17 *)
Record query_info := { qi_key : string; qi_type : string; qi_list : bool }.
(** config/directives/http.rs, as far as it is set here *)
Record gen_http := { gh_url : string; gh_method : string; gh_query : list (string * string); gh_body : option string }.
(** from_json.rs:16-24 *)
Record sample := { sa_url : sample_url; sa_method : string; sa_body : value; sa_answer : value; sa_field : string; sa_mutation : bool }.

Section Operation.
  (** [parse::<f64>] succeeds; the bytes are UTF-8; [to_case(Case::Camel)]; the directive's text *)
  Variable is_f64 : string -> bool.
  Variable is_utf8 : string -> bool.
  Variable camel : string -> string.
  Variable http_text : gen_http -> string.

  (** gql_type.rs:4-19; the first part has no comma, so it is looked at only once more *)
  Definition detect_plain (other : string) (t : string) : string :=
    if ScalarModel.parse_integer true (- 2 ^ 31) (2 ^ 31 - 1) t then "Int"
    else if is_f64 t then "Float"
    else if String.eqb t "true" || String.eqb t "false" then "Boolean"
    else other.
  Definition detect_gql_data_type (v : string) : string :=
    let t := trim v in
    detect_plain (if has_comma t then detect_plain "String" (trim (fst (cut_at "," t))) else "String") t.

  (** http_directive_generator.rs:27-50 *)
  Fixpoint mark_list (key : string) (l : list query_info) : list query_info :=
    match l with
    | [] => []
    | q :: t => if String.eqb (qi_key q) key then {| qi_key := qi_key q; qi_type := qi_type q; qi_list := true |} :: t
                else q :: mark_list key t
    end.
  Definition add_param (l : list query_info) (kv : string * string) : list query_info :=
    let '(k, v) := kv in
    if existsb (fun q => String.eqb (qi_key q) k) l then mark_list k l
    else (l ++ [{| qi_key := k; qi_type := detect_gql_data_type v; qi_list := has_comma v |}])%list.
  Definition get_query_params (u : sample_url) : list query_info := fold_left add_param (su_query u) [].

  (** http_directive_generator.rs:61-105; [None] if [unwrap] panics *)
  Definition path_variables (u : sample_url) : option (string * list (string * typ)) :=
    let '(p1, a1, k1) := replace_all match_int "Int" (su_path u) 0 1 in
    let '(p2, a2, _) := replace_all match_uuid "String" p1 0 k1 in
    let text := percent_decode (su_base u ++ set_path p2) in
    if is_utf8 text then Some (text, (a1 ++ a2)%list) else None.
  (** http_directive_generator.rs:107-130 *)
  Definition query_type (q : query_info) : typ :=
    if qi_list q then into_list (TNamed (qi_type q) false) else TNamed (qi_type q) false.
  Definition query_variables (u : sample_url) : list (string * string) * list (string * typ) :=
    (map (fun q => (qi_key q, expr_text (camel (qi_key q)))) (get_query_params u),
     map (fun q => (camel (qi_key q), query_type q)) (get_query_params u)).

  (** [Arg { type_of, ..Default::default() }] and the inserts into [field.args] *)
  Definition arg_of (t : typ) : arg := {| arg_type := t; arg_doc := None; arg_modify := None; arg_default := None |}.
  Definition insert_args (l : list (string * typ)) (args : list (string * arg)) : list (string * arg) :=
    fold_left (fun args kt => aset (fst kt) (arg_of (snd kt)) args) l args.

  (** http_directive_generator.rs:132-137 *)
  Definition generate_http_directive (u : sample_url) : option (gen_http * list (string * arg)) :=
    match path_variables u with
    | None => None
    | Some (url, a) =>
        let '(q, b) := query_variables u in
        Some ({| gh_url := url; gh_method := "GET"; gh_query := q; gh_body := None |}, insert_args (a ++ b)%list [])
    end.

  (** operation_generator.rs:14-78.  The directive is given too. *)
  Definition input_arg : string := "GEN__Input1".
  Definition operation_field (t : typ) (args : list (string * arg)) (h : gen_http) : field :=
    {| f_type := t; f_args := args; f_doc := f_doc empty_field; f_modify := f_modify empty_field;
       f_omit := f_omit empty_field; f_cache := f_cache empty_field; f_default := f_default empty_field;
       f_protected := f_protected empty_field; f_discriminate := f_discriminate empty_field;
       f_resolvers := [RHttp [] (http_text h)]; f_directives := f_directives empty_field |}.
  Definition root_name (s : sample) : string := if sa_mutation s then "Mutation" else "Query".
  Definition with_field (t : gtype) (n : string) (f : field) : gtype :=
    {| t_fields := oins scmp n f (t_fields t); t_added := t_added t; t_doc := t_doc t; t_implements := t_implements t;
       t_cache := t_cache t; t_protected := t_protected t; t_resolvers := t_resolvers t; t_directives := t_directives t |}.
  Definition generate_operation (prefix : string) (s : sample) (root : string) (st : gstate) : option (gen_http * gstate) :=
    match generate_http_directive (sa_url s) with
    | None => None
    | Some (h, args) =>
        let '(h, args, st) :=
          if sa_mutation s then
            let '(ty, st) := generate_types prefix (sa_body s) st in
            ({| gh_url := gh_url h; gh_method := sa_method s; gh_query := gh_query h; gh_body := Some (expr_text input_arg) |},
             aset input_arg (arg_of (TNamed ty false)) args, st)
          else (h, args, st) in
        let f := operation_field (sample_type (sa_answer s) root) args h in
        let ty := match oget scmp (root_name s) (gs_types st) with
                  | Some t => with_field t (sa_field s) f
                  | None => with_fields [(sa_field s, f)]
                  end in
        Some (h, {| gs_next := gs_next st; gs_types := oins scmp (root_name s) ty (gs_types st) |})
    end.
  (** types_generator.rs:169-183 *)
  Definition generate_sample (prefix : string) (s : sample) (st : gstate) : option (gen_http * gstate) :=
    let '(root, st) := generate_types prefix (sa_answer s) st in generate_operation prefix s root st.
End Operation.
