(** Vocabulary for configurations written as texts in GraphQL (C85). *)
From Coq Require Import String Ascii ZArith NArith Bool Arith List.
From Verif Require Import Base TypeModel ConfigModel DocModel DocSpec PrSpec.
Import ListNotations.
Open Scope string_scope.
Open Scope list_scope.

(** Arguments in texts, names and values of GraphQL, and the arguments that are read from them: those that are not null *)
Definition args_written (texts : Args) (values : list (string * list token)) : Prop :=
  Forall (fun x => is_name (fst x) /\ value_text (snd x)) texts /\
  map (fun x => (fst x, value_tokens (snd x))) (filter (fun x => negb (String.eqb (snd x) "null")) texts) = values.
(** [w] writes the settings of a directive in texts as the arguments that [r] makes of them. *)
Definition writes {A} (w : codec Args A) (r : codec (list (string * list token)) A) : Prop :=
  forall a, args_written (enc w a) (enc r a).
Record writes_all (W : codecs Args) (R : codecs (list (string * list token))) : Prop := {
  w_server : writes (k_server W) (k_server R); w_upstream : writes (k_upstream W) (k_upstream R); w_link : writes (k_link W) (k_link R);
  w_http : writes (k_http W) (k_http R); w_grpc : writes (k_grpc W) (k_grpc R); w_graphql : writes (k_graphql W) (k_graphql R);
  w_call : writes (k_call W) (k_call R); w_js : writes (k_js W) (k_js R); w_expr : writes (k_expr W) (k_expr R);
  w_modify : writes (k_modify W) (k_modify R); w_omit : writes (k_omit W) (k_omit R); w_cache : writes (k_cache W) (k_cache R);
  w_protected : writes (k_protected W) (k_protected R); w_add_field : writes (k_add_field W) (k_add_field R); w_alias : writes (k_alias W) (k_alias R);
  w_other_name : forall d, k_other_name W d = k_other_name R d;
  w_other : forall d, args_written (k_other_args W d) (k_other_args R d)
}.

Section Printable.
  (** how the JSON of a default value is made from what is read *)
  Variable text_of : list token -> string.
  (** A default value whose text is a value, and which is written in the way in which it is made when it is read. *)
  Definition kept_default (o : option string) : Prop := match o with Some v => value_text v /\ text_of (value_tokens v) = v | None => True end.
  Definition named (t : typ) : Prop := is_name (type_name t).
  (** A field that is written without directives *)
  Definition bare (f : field) : Prop :=
    f_resolvers f = [] /\ f_modify f = None /\ f_omit f = false /\ f_cache f = None /\ f_protected f = None /\ f_directives f = [].
  Definition printable_arg (na : string * arg) : Prop :=
    is_name (fst na) /\ named (arg_type (snd na)) /\ arg_doc (snd na) = None /\ kept_default (arg_default (snd na)).
  Definition printable_field (u : use) (nf : string * field) : Prop :=
    is_name (fst nf) /\ named (f_type (snd nf)) /\
    match u with
    | AsInput => short_doc (f_doc (snd nf)) /\ kept_default (f_default (snd nf)) /\ (f_default (snd nf) = None \/ bare (snd nf))
    | AsObject => doc_ok (f_doc (snd nf)) /\ Forall printable_arg (f_args (snd nf))
    | _ => doc_ok (f_doc (snd nf))
    end.
  Definition printable_type (u : use) (nt : string * gtype) : Prop :=
    is_name (fst nt) /\ Forall is_name (t_implements (snd nt)) /\ Forall (printable_field u) (t_fields (snd nt)) /\
    match u with
    | AsScalar => True
    | AsObject => doc_ok (t_doc (snd nt))
    | AsInput => short_doc (t_doc (snd nt))
    | AsInterface =>
        t_fields (snd nt) <> [] /\ t_doc (snd nt) = None /\ t_added (snd nt) = [] /\ t_cache (snd nt) = None /\ t_protected (snd nt) = None /\
        t_resolvers (snd nt) = [] /\ t_directives (snd nt) = []
    end.
  (** Configurations that a text can say: names are names, documentation has one line, there is a query or a mutation, no union,
      enum or interface is empty, no scalar is in a union,
      and there is no documentation of arguments or interfaces and no directive at interfaces. *)
  Definition printable (c : config) : Prop :=
    (forall n t u, In (n, t) (c_types c) -> usage c n t u -> printable_type u (n, t)) /\
    Forall (fun nu => is_name (fst nu) /\ some_ok is_name (u_types (snd nu)) /\
                      forall n t, In n (u_types (snd nu)) -> In (n, t) (c_types c) -> t_fields t <> []) (c_unions c) /\
    Forall (fun ne => is_name (fst ne) /\ doc_ok (e_doc (snd ne)) /\ some_ok (fun v => is_name (fst v) /\ not_a_value (fst v) = true) (e_variants (snd ne))) (c_enums c) /\
    (r_query (c_schema c) <> None \/ r_mutation (c_schema c) <> None) /\
    root_ok (r_query (c_schema c)) /\ root_ok (r_mutation (c_schema c)) /\ root_ok (r_subscription (c_schema c)).
End Printable.
