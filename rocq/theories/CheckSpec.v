(** Vocabulary for the templates of a configuration (C68) and for [@http] (C69). *)
From Coq Require Import String Ascii ZArith NArith Bool List.
From Verif Require Import Base Ordered JsonModel UrlModel HeadersModel RequestModel GqlModel TypeModel ConfigModel
  MustacheModel JsonSpec IrModel CtxModel CtxSpec FieldModel CheckModel.
From Verif Require HttpBatchModel.
Import ListNotations.
Open Scope string_scope.
Open Scope list_scope.

Definition built_in (n : string) : Prop :=
  In n ["Boolean"; "Float"; "ID"; "Int"; "String"; "Empty"; "Email"; "PhoneNumber"; "Date"; "DateTime"; "Url"; "JSON";
        "Int8"; "Int16"; "Int32"; "Int64"; "Int128"; "UInt8"; "UInt16"; "UInt32"; "UInt64"; "UInt128"; "Bytes"].
Definition required (t : typ) : Prop := match t with TNamed _ b => b = true | TList _ b => b = true end.
Definition a_list (t : typ) : Prop := exists u b, t = TList u b.

(** The fields met when the names are followed from a type on. *)
Inductive leads (c : config) : gtype -> list string -> list field -> Prop :=
| leads_one t n f : oget scmp n (t_fields t) = Some f -> leads c t [n] [f]
| leads_more t n f t' p fs :
    oget scmp n (t_fields t) = Some f -> find_type c (type_name (f_type f)) = Some t' -> leads c t' p fs ->
    leads c t (n :: p) (f :: fs).

(** An expression that makes sense for a field of the type [t] with the arguments [args]: it
    names a scalar below the parent, an argument, a variable, or something only the request
    knows.  If [strict], what it names cannot be null, and an argument is not a list. *)
Inductive sensible (c : config) (t : gtype) (args : list (string * arg)) (strict : bool) : list string -> Prop :=
| sensible_value p fs f :
    leads c t p (fs ++ [f]) -> built_in (type_name (f_type f)) ->
    (strict = true -> Forall (fun g => required (f_type g)) (fs ++ [f])) ->
    sensible c t args strict ("value" :: p)
| sensible_arg n a p :
    aget n args = Some a ->
    (strict = true -> ~ a_list (arg_type a) /\ (arg_default a <> None \/ required (arg_type a))) ->
    sensible c t args strict ("args" :: n :: p)
| sensible_var n v p : In (n, v) (s_vars (c_server c)) -> sensible c t args strict ("vars" :: n :: p)
| sensible_header n p : sensible c t args strict ("headers" :: n :: p)
| sensible_env n p : sensible c t args strict ("env" :: n :: p).

(** The templates of a resolver: the addresses ([true]), and those of the query of [@http],
    the headers and arguments of [@graphQL], the headers and the body of [@grpc] ([false]). *)
Inductive template_in : ir io -> bool -> mustache -> Prop :=
| in_http_url r g l d : template_in (IIO (IoHttp r g l d)) true (t_root r)
| in_http_query r g l d q : In q (t_query r) -> template_in (IIO (IoHttp r g l d)) false (qy_value q)
| in_graphql_header r n m : In (n, m) (gt_headers r) -> template_in (IIO (IoGraphql r)) false m
| in_graphql_arg r l n m : gt_args r = Some l -> In (n, m) l -> template_in (IIO (IoGraphql r)) false m
| in_grpc_url r : template_in (IIO (IoGrpc r)) true (g_url r)
| in_grpc_header r n m : In (n, m) (g_headers r) -> template_in (IIO (IoGrpc r)) false m
| in_grpc_body r m : g_body r = Some m -> template_in (IIO (IoGrpc r)) false m
| in_merge l e b m : In e l -> template_in e b m -> template_in (IMerge l) b m.

(** * Values of declared types *)
Inductive fits (c : config) : typ -> value -> Prop :=
| fits_null t : ~ required t -> fits c t VNull
| fits_list t b l : (forall v, In v l -> fits c t v) -> fits c (TList t b) (VList l)
| fits_scalar n b v : built_in n -> find_type c n = None -> v <> VNull -> (forall s, v <> VEnum s) -> fits c (TNamed n b) v
| fits_enum n b s : ~ built_in n -> find_type c n = None -> find_enum c n <> None -> fits c (TNamed n b) (VEnum s)
| fits_own_scalar n b t v : ~ built_in n -> find_type c n = Some t -> t_fields t = [] -> v <> VNull -> fits c (TNamed n b) v
| fits_object n b t m : find_type c n = Some t ->
    (** the fields with resolvers of their own come from elsewhere *)
    (forall k f v, oget scmp k (t_fields t) = Some f -> f_resolvers f = [] -> aget k m = Some v -> fits c (f_type f) v) ->
    (forall k f, oget scmp k (t_fields t) = Some f -> f_resolvers f = [] -> required (f_type f) -> aget k m <> None) ->
    fits c (TNamed n b) (VObj m).

(** The fields are the parent's own, and only the last may be a list. *)
Definition own_data (fs : list field) : Prop :=
  (forall f, In f fs -> f_resolvers f = []) /\ (forall gs f, fs = gs ++ [f] -> forall g, In g gs -> ~ a_list (f_type g)).

(** What is asked of an expression beyond the checks of the configuration. *)
Inductive settled (c : config) (t : gtype) (rx : req_ext) : list string -> Prop :=
| settled_value p : (forall fs, leads c t p fs -> own_data fs) -> settled c t rx ("value" :: p)
| settled_arg n : settled c t rx ["args"; n]
| settled_var n p : settled c t rx ("vars" :: n :: p)
| settled_header n p s : x_header rx n = Some s -> settled c t rx ("headers" :: n :: p)
| settled_env n p s : x_env rx n = Some s -> settled c t rx ("env" :: n :: p).

(** A request to a field of the type [t]: its parent and its arguments are of the declared
    types, arguments that have a default are not set to null, and the variables are those of
    the configuration. *)
Record fitting (c : config) (tn : string) (args : list (string * arg)) (rx : req_ext) (x : ctx) : Prop := {
  parent_fits : forall v, parent x v -> fits c (TNamed tn true) v;
  has_parent : exists v, parent x v;
  own_args : c_over_args x = None;
  args_fit : exists l, c_args x = Some l /\
    (forall n a v, aget n args = Some a -> aget n l = Some v ->
       fits c (arg_type a) v /\ (arg_default a <> None -> v <> VNull)) /\
    (forall n a, aget n args = Some a -> arg_default a <> None \/ required (arg_type a) -> aget n l <> None);
  vars_set : forall n v, In (n, v) (s_vars (c_server c)) -> exists s, x_var rx n = Some s
}.

(** The text of a template in which every part stands for something. *)
Inductive completed (rx : req_ext) (x : ctx) : mustache -> string -> Prop :=
| completed_nil : completed rx x [] ""
| completed_text t m s : completed rx x m s -> completed rx x (Literal t :: m) (t ++ s)%string
| completed_expression p t m s : stands_for rx x p t -> completed rx x m s -> completed rx x (Expression p :: m) (t ++ s)%string.

(** * [@http] *)

(** A text with an expression in it. *)
Definition dynamic_text (s : string) : Prop := exists p, In (Expression p) (parse s).
(** The texts in a JSON value, in order. *)
Fixpoint texts_in (v : value) : list string :=
  match v with
  | VStr s => [s]
  | VList l => flat_map texts_in l
  | VObj m => flat_map (fun kv => texts_in (snd kv)) m
  | _ => []
  end.
Definition one_dynamic_text (v : value) : Prop :=
  exists before s after, texts_in v = before ++ s :: after /\ dynamic_text s /\
    forall s', In s' (before ++ after) -> ~ dynamic_text s'.

(** Following the names from the type [n] leads to a scalar or an enum, or past one. *)
Inductive ends_in_scalar (c : config) : string -> list string -> Prop :=
| ends_here n p : find_type c n = None -> built_in n \/ find_enum c n <> None -> ends_in_scalar c n p
| ends_later n t k f p : find_type c n = Some t -> oget scmp k (t_fields t) = Some f ->
    ends_in_scalar c (type_name (f_type f)) p -> ends_in_scalar c n (k :: p).

(** Text with [args] in it. *)
Definition mentions_args (h : string) : Prop := exists a b, h = (a ++ "args" ++ b)%string.

(** An expression of the query of [@http] as the field's arguments allow it. *)
Definition args_exist (c : config) (f : field) (p : list string) : Prop :=
  forall h rest, p = h :: rest -> mentions_args h ->
    exists n path a, rest = n :: path /\ oget scmp n (f_args f) = Some a /\ ends_in_scalar c (type_name (arg_type a)) path.

(** Batching is switched on. *)
Definition batching_on (c : config) : Prop :=
  exists b, up_batch (c_upstream c) = Some b /\ (1 <= b_delay b)%Z /\ (forall n, b_max_size b = Some n -> (1 <= n)%Z).

(** The directive is acceptable. *)
Record acceptable (c : config) (header_name : string -> option string) (h : http) (f : field) : Prop := {
  query_args : forall k v s p, In (k, v, s) (ht_query h) -> In (Expression p) (parse v) -> args_exist c f p;
  header_names : forall k v, In (k, v) (ht_headers h) -> header_name k <> None;
  batchable : ht_batch_key h <> [] ->
    batching_on c /\ (ht_body h <> None \/ ht_query h <> []) /\
    (ht_body h <> None \/ ht_method h <> "GET" -> exists b, ht_body h = Some b /\ one_dynamic_text b)
}.

(** The call the directive describes: its settings, read as templates. *)
Record describes (header_name : string -> option string) (json_text : value -> string) (h : http) (r : http_template) : Prop := {
  same_url : t_root r = parse (ht_url h);
  same_method : t_method r = ht_method h;
  same_query : Forall2 (fun k q => qy_key q = fst (fst k) /\ qy_value q = parse (snd (fst k)) /\ qy_skip_empty q = snd k)
                 (ht_query h) (t_query r);
  same_headers : Forall2 (fun k m => header_name (fst k) = Some (fst m) /\ snd m = parse (snd k)) (ht_headers h) (t_headers r);
  same_body : match ht_body h with Some b => t_body r = Some (parse (json_text b)) | None => t_body r = None end;
  same_form : t_form r = ht_form h;
  keys_repeated : t_encoder r = RepeatedKey
}.

(** The parameter that tells the answers of a batch apart: that of a [GET] which is the first
    to name something with [value] in its path. *)
Definition about_value (q : string * string * bool) : Prop := exists p, In (Expression p) (parse (snd (fst q))) /\ In "value" p.
Inductive batch_parameter (h : http) : option string -> Prop :=
| first_about before q after : ht_method h = "GET" -> ht_query h = before ++ q :: after -> about_value q ->
    (forall q', In q' before -> ~ about_value q') -> batch_parameter h (Some (fst (fst q)))
| none_about : (ht_method h = "GET" -> forall q, In q (ht_query h) -> ~ about_value q) -> batch_parameter h None.

(** A part of an answer that survives being written as text and read again: numbers, lists
    and objects are read as themselves, texts are not JSON themselves. *)
Definition comes_through (rx : req_ext) (w : value) : Prop :=
  match w with
  | VNull | VEnum _ => False
  | VStr t => x_parse rx t = None
  | VBool b => x_parse rx (if b then "true" else "false") = Some w
  | VNum _ | VList _ | VObj _ => x_parse rx (x_json_text rx w) = Some w
  end.

(** What a [select] makes of an answer: its own texts, and the parts of the answer it names. *)
Inductive picks (rx : req_ext) (answer : value) : value -> value -> Prop :=
| picks_text s : ~ dynamic_text s -> picks rx answer (VStr s) (VStr s)
| picks_part s p w : parse s = [Expression p] -> reaches answer p w -> comes_through rx w -> picks rx answer (VStr s) w
| picks_list l l' : Forall2 (picks rx answer) l l' -> picks rx answer (VList l) (VList l')
| picks_object m m' : Forall2 (fun a b => fst b = fst a /\ picks rx answer (snd a) (snd b)) m m' ->
    picks rx answer (VObj m) (VObj m')
| picks_null : picks rx answer VNull VNull
| picks_bool b : picks rx answer (VBool b) (VBool b)
| picks_number n : picks rx answer (VNum n) (VNum n).
