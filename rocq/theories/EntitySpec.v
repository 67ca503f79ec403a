(** Specification for C66. *)
From Coq Require Import String Ascii ZArith NArith Bool List.
From Verif Require Import Base JsonModel TypeModel ConfigModel MustacheModel MustacheSpec RequestModel EntityModel.
Import ListNotations.
Open Scope string_scope.
Open Scope list_scope.

(** * What a resolver uses *)

(** A text uses a path below the representation, or the arguments. *)
Definition uses (s : string) (p : list string) : Prop :=
  exists segs, written segs s /\ In (Expression ("value" :: p)) segs.
Definition uses_args (s : string) : Prop :=
  exists segs p, written segs s /\ In (Expression ("args" :: p)) segs.

(** The texts in a JSON value. *)
Inductive text_in (s : string) : value -> Prop :=
| TI_str : text_in s (VStr s)
| TI_item : forall v l, In v l -> text_in s v -> text_in s (VList l)
| TI_name : forall v m, In (s, v) m -> text_in s (VObj m)
| TI_member : forall n v m, In (n, v) m -> text_in s v -> text_in s (VObj m).
Definition in_pairs (s : string) (l : list (string * string)) : Prop :=
  exists k v, In (k, v) l /\ (s = k \/ s = v).

(** The texts of the settings of a resolver. *)
Inductive text_of (json_text : value -> string) (s : string) : details -> Prop :=
| TO_http : forall url body hs query,
    s = url \/ (exists v, body = Some v /\ s = json_text v) \/ in_pairs s hs \/ in_pairs s query ->
    text_of json_text s (DHttp url body hs query)
| TO_grpc : forall url method body hs,
    s = url \/ s = method \/ (exists v, body = Some v /\ text_in s v) \/ in_pairs s hs ->
    text_of json_text s (DGrpc url method body hs)
| TO_graphql : forall hs args,
    in_pairs s hs \/ (exists l, args = Some l /\ in_pairs s l) ->
    text_of json_text s (DGraphql hs args)
| TO_call : forall steps step n v, In step steps -> In (n, v) step -> s = n \/ text_in s v ->
    text_of json_text s (DCall steps)
| TO_expr : forall v, text_in s v -> text_of json_text s (DExpr v).

Definition used (json_text : value -> string) (d : details) (p : list string) : Prop :=
  exists s, text_of json_text s d /\ uses s p.

(** Resolvers whose settings can be looked through, of one step. *)
Definition readable (d : details) : Prop :=
  match d with DOther => False | DCall steps => length steps = 1 | _ => True end.

(** * What a key says *)

Fixpoint words (s : string) : list string :=
  match s with
  | EmptyString => [""]
  | String c t =>
      if Ascii.eqb c " " then "" :: words t
      else match words t with w :: r => String c w :: r | [] => [] end
  end.

(** A selection: names, each possibly with a selection of its own in braces; the paths to the
    names without one. *)
Inductive selection : list string -> list (list string) -> Prop :=
| Sel_none : selection [] []
| Sel_name : forall n ws ps, name n -> selection ws ps -> selection (n :: ws) ([n] :: ps)
| Sel_sub : forall n sub subs ws ps, name n -> sub <> [] -> selection sub subs -> selection ws ps ->
    selection (n :: "{" :: sub ++ "}" :: ws) (map (cons n) subs ++ ps).

Definition key_paths (key : option string) (paths : list (list string)) : Prop :=
  match key with
  | None => paths = []
  | Some text => text <> "" /\ selection (words text) paths
  end.

(** * What comes out *)

(** Names the transformation takes for itself. *)
Definition reserved (n : string) : Prop := n = "_Service" \/ n = "_Any".
Definition own_query (c : config) (q : string) : Prop :=
  r_query (c_schema c) = Some q \/ (r_query (c_schema c) = None /\ q = "Query").
Definition federated (c : config) : Prop := s_federation (c_server c) = Some true.
Definition with_directive (d : string) (t t' : gtype) : Prop :=
  In d (t_directives t) /\ t' = t \/
  ~ In d (t_directives t) /\
  t' = {| t_fields := t_fields t; t_added := t_added t; t_doc := t_doc t; t_implements := t_implements t;
          t_cache := t_cache t; t_protected := t_protected t; t_resolvers := t_resolvers t;
          t_directives := t_directives t ++ [d] |}.

(** A path leads along the fields of the types. *)
Inductive declared (c : config) : string -> list string -> Prop :=
| Dc_end : forall n, declared c n []
| Dc_field : forall n t k f p, find_type c n = Some t -> Ordered.oget Ordered.scmp k (t_fields t) = Some f ->
    declared c (type_name (f_type f)) p -> declared c n (k :: p).

(** The paths of the key of a resolver: what it uses of the representation, but not the whole of
    it, nor what it uses a part of. *)
Definition its_key (json_text : value -> string) (d : details) (key : option string) : Prop :=
  exists paths, key_paths key paths /\
    forall p, In p paths <-> p <> [] /\ used json_text d p /\ forall q, used json_text d (p ++ q) -> q = [].

(** What the transformation makes of a type of the configuration. *)
Definition as_entity (json_text : value -> string) (details_of : resolver -> details) (key_directive : string -> string)
  (t t' : gtype) : Prop :=
  t_resolvers t = [] /\ t' = t \/
  exists r, t_resolvers t = [r] /\
    (details_of r = DOther /\ t' = t \/
     exists key, its_key json_text (details_of r) key /\
       match key with None => t' = t | Some text => with_directive (key_directive text) t t' end).

(** A type can be an entity: one resolver, which does not use arguments, and only fields that
    exist in the address and the query parameters of an HTTP call. *)
Definition can_be_entity (json_text : value -> string) (details_of : resolver -> details) (c : config) (n : string) (t : gtype) : Prop :=
  t_resolvers t = [] \/
  exists r, t_resolvers t = [r] /\
    (forall s, text_of json_text s (details_of r) -> ~ uses_args s) /\
    (forall url body hs query s p, details_of r = DHttp url body hs query ->
       s = url \/ (exists k, In (k, s) query) -> uses s p -> declared c n p).

(** The template of an HTTP call with these settings (operators/http.rs:46-68,
    http/request_template.rs:213-252). *)
Definition made_of (json_text : value -> string) (url : string) (body : option value) (hs query : list (string * string))
  (t : http_template) : Prop :=
  t_root t = parse url /\
  map (fun q => (qy_key q, qy_value q)) (t_query t) = map (fun kv => (fst kv, parse (snd kv))) query /\
  t_headers t = map (fun kv => (fst kv, parse (snd kv))) hs /\
  t_body t = option_map (fun v => parse (json_text v)) body.

(** All resolvers of types are of the kinds that can be looked through, or have no settings
    with templates at all. *)
Definition known (details_of : resolver -> details) (c : config) : Prop :=
  forall n t r, In (n, t) (c_types c) -> In r (t_resolvers t) -> details_of r = DOther \/ readable (details_of r).

(** A field with nothing but its type, its arguments, its documentation and its resolvers. *)
Definition unadorned (f : field) : Prop :=
  f_modify f = None /\ f_omit f = false /\ f_cache f = None /\ f_default f = None /\ f_protected f = None /\
  f_discriminate f = None /\ f_directives f = [].
(** The types that can be asked for as entities. *)
Definition lists_entities (c : config) (entries : list (string * resolver)) : Prop :=
  forall n r, In (n, r) entries <-> exists t, find_type c n = Some t /\ t_resolvers t = [r].
Definition same_but_fields (t t' : gtype) : Prop :=
  t_added t' = t_added t /\ t_doc t' = t_doc t /\ t_implements t' = t_implements t /\ t_cache t' = t_cache t /\
  t_protected t' = t_protected t /\ t_resolvers t' = t_resolvers t /\ t_directives t' = t_directives t.
