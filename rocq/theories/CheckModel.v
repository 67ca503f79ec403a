(** The checks of templates when a configuration is loaded: src/core/blueprint/mustache.rs,
    src/core/blueprint/template_validation/mod.rs, and the compiler of [@http]:
    src/core/blueprint/operators/{http,select}.rs, src/core/helpers/headers.rs. *)
From Coq Require Import String Ascii ZArith NArith Bool List.
From Verif Require Import Base Ordered JsonModel UrlModel HeadersModel RequestModel GqlModel TypeModel ConfigModel
  MustacheModel IrModel ComposeModel CtxModel FieldModel CallModel.
From Verif Require BuilderModel HttpBatchModel.
Import ListNotations.
Open Scope string_scope.
Open Scope list_scope.

(** ir/model.rs:44-71; [IoHttp]: the template, [group_by], [is_list], [dedupe] (hooks are left
    out); [IoJs] has no templates. *)
Inductive io : Type :=
| IoHttp (t : http_template) (g : option HttpBatchModel.group) (is_list dedupe : bool)
| IoGraphql (t : gql_template)
| IoGrpc (t : grpc_template)
| IoJs (name : string).

(** [String::join] of "." *)
Local Notation dotted p := (String.concat "." p).

Section Check.
  Variable c : config.

  (** mustache.rs:20-47: [parts] are those still to come, [seen] those before them; the last
      part is the one with [len == 1].  Without any part nothing is checked. *)
  Fixpoint validate_type (t : gtype) (seen parts : list string) (is_query : bool) : valid unit :=
    match parts with
    | [] => Ok tt
    | item :: rest =>
        match oget scmp item (t_fields t) with
        | None => fail (Other ("no value '" ++ dotted (seen ++ [item]) ++ "' found")%string)
        | Some f =>
            if negb is_query && is_nullable (f_type f) then fail (Other ("value '" ++ item ++ "' is a nullable type")%string)
            else
              match rest with
              | [] =>
                  if negb (BuilderModel.is_predefined (type_name (f_type f)))
                  then fail (Other ("value '" ++ item ++ "' is not of a scalar type")%string)
                  else Ok tt
              | _ =>
                  match find_type c (type_name (f_type f)) with
                  | None => fail (Other ("no type '" ++ dotted (seen ++ item :: rest) ++ "' found")%string)
                  | Some t' => validate_type t' (seen ++ [item]) rest is_query
                  end
              end
        end
    end.

  (** mustache.rs:49-100 for a field with the arguments [args] of the type [t] *)
  Definition validate (t : gtype) (args : list (string * arg)) (parts : list string) (is_query : bool) : valid unit :=
    match parts with
    | head :: ((tail :: _) as rest) =>
        if String.eqb head "value" then validate_type t [] rest is_query
        else if String.eqb head "args" then
          match aget tail args with
          | Some a =>
              if negb is_query && is_list (arg_type a) then fail (Other ("can't use list type '" ++ tail ++ "' here")%string)
              else if negb is_query && (match arg_default a with None => true | Some _ => false end) && is_nullable (arg_type a)
              then fail (Other ("argument '" ++ tail ++ "' is a nullable type")%string)
              else Ok tt
          | None => fail (Other ("no argument '" ++ tail ++ "' found")%string)
          end
        else if String.eqb head "vars" then
          if existsb (fun kv => String.eqb (fst kv) tail) (s_vars (c_server c)) then Ok tt
          else fail (Other ("var '" ++ tail ++ "' is not set in the server config")%string)
        else if String.eqb head "headers" || String.eqb head "env" then Ok tt
        else fail (Other ("unknown template directive '" ++ head ++ "'")%string)
    | _ => fail (Other "too few parts in template")
    end.

  Section Resolver.
    Variable t : gtype.
    Variable args : list (string * arg).
    (** [Valid::from_iter(mustache.expression_segments(), …)] *)
    Definition validate_template (m : mustache) (is_query : bool) (name : string) : valid unit :=
      rmap (fun _ => tt) (all_checked (fun parts => traced (validate t args parts is_query) name) (expression_segments m)).
    Definition validate_templates (l : list mustache) (name : string) : valid unit :=
      rmap (fun _ => tt) (all_checked (fun m => validate_template m true name) l).

    (** mustache.rs:102-175 *)
    Fixpoint validate_resolver (e : ir io) : valid unit :=
      match e with
      | IMerge l =>
          rmap (fun _ => tt)
            ((fix go (l : list (ir io)) : valid (list unit) :=
                match l with
                | [] => Ok []
                | e :: rest =>
                    match validate_resolver e, go rest with
                    | Ok b, Ok bs => Ok (b :: bs)
                    | Ok _, Err e => Err e
                    | Err e, Ok _ => Err e
                    | Err e, Err e' => Err (e ++ e')
                    end
                end) l)
      | IIO (IoHttp r _ _ _) =>
          traced (also (validate_template (t_root r) false "path")
                       (validate_templates (map qy_value (t_query r)) "query")) "@http"
      | IIO (IoGraphql r) =>
          traced (and_then (validate_templates (map snd (gt_headers r)) "headers") (fun _ =>
                    match gt_args r with
                    | Some l => validate_templates (map snd l) "args"
                    | None => Ok tt
                    end)) "@graphQL"
      | IIO (IoGrpc r) =>
          traced (and_then (also (validate_template (g_url r) false "path")
                                 (validate_templates (map snd (g_headers r)) "headers")) (fun _ =>
                    match g_body r with
                    | Some m => validate_template m true "body"
                    | None => Ok tt
                    end)) "@grpc"
      | _ => Ok tt
      end.
  End Resolver.

  (** mustache.rs:178-199 *)
  Definition validate_field (t : gtype) (d : fdef io) : valid unit :=
    match d_resolver d with
    | Some e => validate_resolver t (d_args d) e
    | None => Ok tt
    end.

  (** template_validation/mod.rs:11-30 with the check of 38-39 at the leaf *)
  Fixpoint path_validator (path : list string) (type : string) : valid unit :=
    match find_type c type with
    | Some t =>
        match path with
        | n :: rest =>
            match oget scmp n (t_fields t) with
            | Some f => path_validator rest (type_name (f_type f))
            | None => fail (Other ("field " ++ n ++ " not found")%string)
            end
        | [] => fail (Other ("value '" ++ type ++ "' is not of a scalar type")%string)
        end
    | None =>
        if BuilderModel.is_predefined type || (match find_enum c type with Some _ => true | None => false end) then Ok tt
        else fail (Other ("Cannot find type " ++ type ++ " in the config")%string)
    end.
  (** [str::contains] *)
  Fixpoint occurs (pat s : string) : bool :=
    prefix pat s || match s with EmptyString => false | String _ t => occurs pat t end.
  (** template_validation/mod.rs:32-58 *)
  Definition validate_argument (m : mustache) (f : field) : valid unit :=
    rmap (fun _ => tt)
      (all_checked (fun s =>
         match s with
         | Expression (h :: rest) =>
             if occurs "args" h then
               match rest with
               | n :: path =>
                   match oget scmp n (f_args f) with
                   | Some a => traced (path_validator path (type_name (arg_type a))) n
                   | None => traced (fail (Other ("no argument '" ++ n ++ "' found")%string)) n
                   end
               | [] => fail (Other "too few parts in template")
               end
             else Ok tt
         | _ => Ok tt
         end) m).

  (** config/directives/http.rs *)
  Record http := {
    ht_url : string;
    ht_method : string;
    ht_query : list (string * string * bool);
    ht_headers : list (string * string);
    ht_body : option value;
    ht_form : bool;
    ht_batch_key : list string;
    ht_dedupe : bool;
    ht_select : option value
  }.

  (** config/directives/upstream.rs:188-196 *)
  Definition get_delay : Z := match up_batch (c_upstream c) with Some b => b_delay b | None => 0%Z end.
  Definition get_max_size : Z :=
    match up_batch (c_upstream c) with
    | Some b => match b_max_size b with Some n => n | None => 100%Z end
    | None => 100%Z
    end.

  (** http.rs:132-154 *)
  Fixpoint count_dynamic_paths (v : value) : nat :=
    match v with
    | VList l => list_sum (map count_dynamic_paths l)
    | VObj m => list_sum (map (fun kv => count_dynamic_paths (snd kv)) m)
    | VStr s => if mustache_is_const (parse s) then 0 else 1
    | _ => 0
    end.
  (** mustache/model.rs:51-55 *)
  Definition expression_contains (m : mustache) (name : string) : bool :=
    existsb (fun p => existsb (String.eqb name) p) (expression_segments m).

  Section Http.
    (** [HeaderName::from_bytes]: the name, lower case *)
    Variable header_name : string -> option string.
    (** [serde_json::Value::to_string] *)
    Variable json_text : value -> string.

    (** helpers/headers.rs:9-22 *)
    Definition to_mustache_headers (l : list (string * string)) : valid (list (string * mustache)) :=
      all_checked (fun kv => match header_name (fst kv) with
                             | Some n => Ok (n, parse (snd kv))
                             | None => traced (fail (Other "invalid HTTP header name")) (fst kv)
                             end) l.

    Definition when (e : blueprint_error) (b : bool) : valid unit := if b then fail e else Ok tt.
    Definition is_empty {A} (l : list A) : bool := match l with [] => true | _ => false end.
    Definition is_none {A} (o : option A) : bool := match o with None => true | _ => false end.

    (** request_template.rs:212-241 for the endpoint of http.rs:58-63 *)
    Definition template_of (h : http) (headers : list (string * mustache)) : http_template :=
      {| t_root := parse (ht_url h);
         t_query := map (fun q => {| qy_key := fst (fst q); qy_value := parse (snd (fst q)); qy_skip_empty := snd q |}) (ht_query h);
         t_method := ht_method h;
         t_headers := headers;
         t_body := option_map (fun b => parse (json_text b)) (ht_body h);
         t_form := ht_form h;
         t_encoder := RepeatedKey |}.
    (** http.rs:96-109 *)
    Definition batch_param (h : http) : option string :=
      if String.eqb (ht_method h) "GET"
      then option_map (fun q => fst (fst q)) (find (fun q => expression_contains (parse (snd (fst q))) "value") (ht_query h))
      else None.
    Definition group_of (h : http) : option HttpBatchModel.group :=
      if is_empty (ht_batch_key h) then None
      else Some {| HttpBatchModel.g_path := ht_batch_key h; HttpBatchModel.g_key := batch_param h |}.
    (** select.rs:7-26 *)
    Definition apply_select (e : ir io) (select : option value) : ir io :=
      match select with
      | Some v => IPipe e (IDynamic (prepend "args" (dynamic_of v)))
      | None => e
      end.
    (** http.rs:13-130 *)
    Definition compile_http (h : http) (f : field) : valid (ir io) :=
      and_then
        (match also (also (also
           (when (Other "Batching capability was used without enabling it in upstream")
                 (((get_delay <? 1) || (get_max_size <? 1))%Z && negb (is_empty (ht_batch_key h))))
           (traced (rmap (fun _ => tt) (all_checked (fun q => validate_argument (parse (snd (fst q))) f) (ht_query h))) "query"))
           (when (Other "batchKey requires either body or query parameters")
                 (negb (is_empty (ht_batch_key h)) && (is_none (ht_body h) && is_empty (ht_query h)))))
           (Ok tt : valid unit), to_mustache_headers (ht_headers h) with
         | Ok _, Ok hs => Ok hs
         | Ok _, Err e => Err e
         | Err e, Ok _ => Err e
         | Err e, Err e' => Err (e ++ e')
         end) (fun hs =>
      and_then
        (if negb (is_empty (ht_batch_key h)) && (negb (is_none (ht_body h)) || negb (String.eqb (ht_method h) "GET")) then
           match ht_body h with
           | Some b =>
               if Nat.eqb (count_dynamic_paths b) 1 then Ok tt
               else traced (fail (Other "Request body batching requires exactly one dynamic value in the body.")) "body"
           | None => traced (fail (Other "Request body batching requires exactly one dynamic value in the body.")) "body"
           end
         else Ok tt) (fun _ =>
      Ok (apply_select (IIO (IoHttp (template_of h hs) (group_of h) (is_list (f_type f)) (ht_dedupe h))) (ht_select h)))).
  End Http.
End Check.
