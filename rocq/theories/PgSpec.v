(** Vocabulary for configurations generated from proto files (C79). *)
From Coq Require Import String Ascii ZArith NArith Bool List.
From Verif Require Import Base Ordered JsonModel ScalarSpec TypeModel ConfigModel BuilderModel PgModel.
Import ListNotations.
Open Scope string_scope.
Open Scope list_scope.

(** ** Proto files *)
Definition message_name (m : message) : string := let 'Message n _ _ _ _ _ := m in n.
Definition is_map_entry (m : message) : bool := let 'Message _ b _ _ _ _ := m in b.
Definition message_enums (m : message) : list penum := let 'Message _ _ l _ _ _ := m in l.
Definition message_nested (m : message) : list message := let 'Message _ _ _ l _ _ := m in l.
Definition message_oneofs (m : message) : nat := let 'Message _ _ _ _ n _ := m in n.
Definition message_fields (m : message) : list pfield := let 'Message _ _ _ _ _ l := m in l.

(** Letters, digits and underscores. *)
Definition word_char (c : ascii) : Prop :=
  let n := N_of_ascii c in (48 <= n <= 57)%N \/ (65 <= n <= 90)%N \/ n = 95%N \/ (97 <= n <= 122)%N.
Definition word (s : string) : Prop := s <> "" /\ forall c, In c (list_ascii_of_string s) -> word_char c.

(** [m] is declared at the path [p] below the messages [ms]. *)
Inductive declares : list message -> list string -> message -> Prop :=
| Declared ms m : In m ms -> declares ms [message_name m] m
| Inside ms m p m' : In m ms -> is_map_entry m = false -> declares (message_nested m) p m' -> declares ms (message_name m :: p) m'.
(** The package [q] of a file, word by word. *)
Definition in_package (f : pfile) (q : list string) : Prop := pl_package f = String.concat "." q /\ Forall word q.
(** The message, enum or method with this full name. *)
Definition message_at (files : list pfile) (p : list string) (m : message) : Prop :=
  exists f q r, In f files /\ in_package f q /\ declares (pl_messages f) r m /\ p = q ++ r.
Definition enum_at (files : list pfile) (p : list string) (e : penum) : Prop :=
  (exists f q, In f files /\ in_package f q /\ In e (pl_enums f) /\ p = q ++ [pe_name e]) \/
  (exists q m, message_at files q m /\ is_map_entry m = false /\ In e (message_enums m) /\ p = q ++ [pe_name e]).
Definition method_at (files : list pfile) (p : list string) (d : pmethod) : Prop :=
  exists f q s, In f files /\ in_package f q /\ In s (pl_services f) /\ In d (ps_methods s) /\ p = q ++ [ps_name s; pd_name d].
(** A reference, as it is written in descriptors. *)
Definition refers (r : string) (p : list string) : Prop := r = ("." ++ String.concat "." p)%string.
Definition empty_message : string := ".google.protobuf.Empty".

(** What the compiler of proto files guarantees. *)
Record well_formed (files : list pfile) : Prop := {
  wf_packages : forall f, In f files -> exists q, in_package f q;
  wf_messages : forall p m, message_at files p m -> Forall word p;
  wf_enums : forall p e, enum_at files p e -> Forall word p;
  wf_methods : forall p d, method_at files p d -> Forall word p;
  wf_unique : forall p m m', message_at files p m -> message_at files p m' -> m = m';
  wf_kinds : forall p m e, message_at files p m -> enum_at files p e -> False;
  wf_unique_enums : forall p e e', enum_at files p e -> enum_at files p e' -> e = e';
  wf_unique_methods : forall p d d', method_at files p d -> method_at files p d' -> d = d';
  wf_field_names : forall p m f, message_at files p m -> In f (message_fields m) -> word (pf_name f);
  wf_values : forall p e v, enum_at files p e -> In v (pe_values e) -> word v;
  wf_fields : forall p m f, message_at files p m -> is_map_entry m = false -> In f (message_fields m) ->
    (forall r, pf_type_name f = Some r -> exists q, refers r q /\
       ((exists e, enum_at files q e) \/ (exists m', message_at files q m' /\ is_map_entry m' = false) \/
        (exists m', In m' (message_nested m) /\ is_map_entry m' = true /\ q = p ++ [message_name m']))) /\
    (forall i, pf_oneof f = Some i -> i < message_oneofs m);
  wf_calls : forall p d, method_at files p d ->
    (pd_input d = "" \/ pd_input d = empty_message \/ exists q m, refers (pd_input d) q /\ message_at files q m /\ is_map_entry m = false) /\
    (pd_output d = empty_message \/ exists q m, refers (pd_output d) q /\ message_at files q m /\ is_map_entry m = false) }.

(** ** The configuration *)
(** The names of types and of the fields for methods. *)
Definition title (p : list string) : string :=
  ((if is_predefined (last p "") then "" else "GEN__") ++ String.concat "__" p)%string.
Definition method_title (p : list string) : string := ("GEN__" ++ String.concat "__" p)%string.

Definition scalar_for (p : primitive) : string :=
  match p with
  | PDouble | PFloat => "Float" | PInt32 | PSInt32 | PFixed32 | PSFixed32 => "Int" | PInt64 | PSInt64 | PFixed64 | PSFixed64 => "Int64"
  | PUInt32 => "UInt32" | PUInt64 => "UInt64" | PBool => "Boolean" | PString => "String" | PBytes => "Bytes"
  end.
Definition labelled (l : label) (n : string) : typ :=
  match l with LOptional => TNamed n false | LRequired => TNamed n true | LRepeated => TList (TNamed n false) false end.

(** The type of the field [f] of the message [m] at [p]. *)
Definition field_typ (files : list pfile) (p : list string) (m : message) (f : pfield) (t : typ) : Prop :=
  match pf_type_name f with
  | None => t = labelled (pf_label f) (scalar_for (pf_type f))
  | Some r =>
      (exists m', In m' (message_nested m) /\ is_map_entry m' = true /\ refers r (p ++ [message_name m']) /\ t = TNamed "JSON" false) \/
      (exists q, refers r q /\ ((exists e, enum_at files q e) \/ exists m', message_at files q m' /\ is_map_entry m' = false) /\ t = labelled (pf_label f) (title q))
  end.
(** An entry among the fields of a type is for the field [f]. *)
Definition entry (camel : string -> string) (files : list pfile) (p : list string) (m : message) (f : pfield) (x : string * field) : Prop :=
  fst x = camel (pf_name f) /\ field_typ files p m f (f_type (snd x)) /\ f_args (snd x) = [] /\ f_resolvers (snd x) = [].
Definition of_oneof (i : option nat) (f : pfield) : bool :=
  match i, pf_oneof f with None, None => true | Some i, Some j => Nat.eqb i j | _, _ => false end.
(** The entries for the fields of [m] outside of oneofs, and for those of each oneof. *)
Definition parts (camel : string -> string) (files : list pfile) (p : list string) (m : message) (base : list (string * field)) (groups : list (list (string * field))) : Prop :=
  Forall2 (entry camel files p m) (filter (of_oneof None) (message_fields m)) base /\
  length groups = message_oneofs m /\
  forall i g, nth_error groups i = Some g -> Forall2 (entry camel files p m) (filter (of_oneof (Some i)) (message_fields m)) g.

(** The type has these fields and no others. *)
Definition made_of (fs : list (string * field)) (t : gtype) : Prop :=
  (forall x, In x (t_fields t) -> In x fs) /\ forall k, In k (map fst fs) -> In k (map fst (t_fields t)).
Definition required (f : field) : field :=
  {| f_type := match f_type f with TNamed n _ => TNamed n true | TList t _ => TList t true end; f_args := f_args f; f_doc := f_doc f; f_modify := f_modify f;
     f_omit := f_omit f; f_cache := f_cache f; f_default := f_default f; f_protected := f_protected f; f_discriminate := f_discriminate f;
     f_resolvers := f_resolvers f; f_directives := f_directives f |}.

(** A choice for each oneof: none or one of its fields, which then is there for sure; no choice for a oneof with one
    field, which is just optional.  The text tells the choice, the list are the fields. *)
Inductive chosen : list (list (string * field)) -> string -> list (string * field) -> Prop :=
| Ch_end : chosen [] "" []
| Ch_only x gs s l : chosen gs s l -> chosen ([x] :: gs) ("__Var" ++ s)%string (x :: l)
| Ch_none g gs s l : length g <> 1 -> chosen gs s l -> chosen (g :: gs) ("__Var" ++ s)%string l
| Ch_some g gs i n f s l : length g <> 1 -> nth_error g i = Some (n, f) -> chosen gs s l ->
    chosen (g :: gs) ("__Var" ++ nat_to_string i ++ s)%string ((n, required f) :: l).

(** What [x] holds for the message [m] at [p]. *)
Definition holds_message (camel : string -> string) (files : list pfile) (x : context) (p : list string) (m : message) : Prop :=
  exists base groups, parts camel files p m base groups /\
    (Forall (fun g => length g <= 1) groups ->
       exists t, oget scmp (title p) (x_types x) = Some t /\ made_of (base ++ concat groups) t /\ t_implements t = []) /\
    (~ Forall (fun g => length g <= 1) groups ->
       exists u t, oget scmp (title p) (x_unions x) = Some u /\
         (forall n, In n (u_types u) <-> exists s l, chosen groups s l /\ n = (title p ++ s)%string) /\
         oget scmp (title p ++ "__Interface")%string (x_types x) = Some t /\ made_of base t /\ t_implements t = [] /\
         forall s l, chosen groups s l -> exists v, oget scmp (title p ++ s)%string (x_types x) = Some v /\ made_of (base ++ l) v /\ t_implements v = [(title p ++ "__Interface")%string]).

(** The names that may be used for a message. *)
Inductive variant_names : nat -> string -> Prop :=
| Vn_end : variant_names 0 ""
| Vn_none n s : variant_names n s -> variant_names (S n) ("__Var" ++ s)%string
| Vn_some n i s : variant_names n s -> variant_names (S n) ("__Var" ++ nat_to_string i ++ s)%string.
Definition uses_name (p : list string) (m : message) (n : string) : Prop :=
  n = title p \/ message_oneofs m <> 0 /\ (n = (title p ++ "__Interface")%string \/ exists s, variant_names (message_oneofs m) s /\ n = (title p ++ s)%string).
(** A message becomes a union if one of its oneofs has two fields or more. *)
Definition multi (m : message) : Prop := exists i, 2 <= length (filter (of_oneof (Some i)) (message_fields m)).
(** No name is used twice. *)
Record names_apart (query : string) (files : list pfile) : Prop := {
  na_messages : forall p m p' m' n, message_at files p m -> message_at files p' m' -> is_map_entry m = false -> is_map_entry m' = false ->
    uses_name p m n -> uses_name p' m' n -> p = p';
  na_query : forall p m, message_at files p m -> is_map_entry m = false -> ~ uses_name p m query;
  na_kinds : forall p m q e, message_at files p m -> is_map_entry m = false -> enum_at files q e -> ~ uses_name p m (title q);
  na_query_enum : forall q e, enum_at files q e -> query <> title q;
  na_enums : forall p e p' e', enum_at files p e -> enum_at files p' e' -> title p = title p' -> p = p';
  na_methods : forall p d p' d', method_at files p d -> method_at files p' d' -> method_title p = method_title p' -> p = p' }.

(** What [x] holds for the method [d] at [p]: a field of the query type that makes the call. *)
Definition holds_method (camel : string -> string) (grpc_text : string -> option string -> string -> string) (query url : string) (x : context) (p : list string) (d : pmethod) : Prop :=
  x_root x = Some query /\
  exists t f body, oget scmp query (x_types x) = Some t /\ oget scmp (method_title p) (t_fields t) = Some f /\
    f_resolvers f = [RGrpc [] (grpc_text url body (String.concat "." p))] /\
    (if String.eqb (pd_input d) "" || String.eqb (pd_input d) empty_message then f_args f = [] /\ body = None
     else exists q k a, refers (pd_input d) q /\ Forall word q /\ k = camel (last q "") /\ f_args f = [(k, a)] /\ arg_type a = TNamed (title q) true /\ body = Some ("{{.args." ++ k ++ "}}")%string) /\
    (if String.eqb (pd_output d) empty_message then f_type f = TNamed "Empty" false
     else exists q, refers (pd_output d) q /\ Forall word q /\ f_type f = TNamed (title q) false).

(** What [x] holds for the enum [e] at [p]. *)
Definition holds_enum (x : context) (p : list string) (e : penum) : Prop :=
  exists ge, oget scmp (title p) (x_enums x) = Some ge /\ forall v, In v (e_variants ge) <-> snd v = None /\ In (fst v) (pe_values e).

(** A name that is defined. *)
Definition is_defined (x : context) (n : string) : Prop :=
  is_predefined n = true \/ oget scmp n (x_types x) <> None \/ oget scmp n (x_unions x) <> None \/ oget scmp n (x_enums x) <> None.
Definition all_defined (x : context) : Prop :=
  (forall n t, oget scmp n (x_types x) = Some t ->
     (forall i, In i (t_implements t) -> oget scmp i (x_types x) <> None) /\
     forall k f, In (k, f) (t_fields t) -> is_defined x (type_name (f_type f)) /\ forall a b, In (a, b) (f_args f) -> is_defined x (type_name (arg_type b))) /\
  (forall n u v, oget scmp n (x_unions x) = Some u -> In v (u_types u) -> oget scmp v (x_types x) <> None).

(** What [x] may hold. *)
Record nothing_else (query : string) (files : list pfile) (x : context) : Prop := {
  ne_types : forall n, oget scmp n (x_types x) <> None -> n = query \/ exists p m, message_at files p m /\ is_map_entry m = false /\
    (~ multi m /\ n = title p \/ multi m /\ (n = (title p ++ "__Interface")%string \/ exists s, variant_names (message_oneofs m) s /\ n = (title p ++ s)%string));
  ne_unions : forall n, oget scmp n (x_unions x) <> None -> exists p m, message_at files p m /\ is_map_entry m = false /\ multi m /\ n = title p;
  ne_enums : forall n, oget scmp n (x_enums x) <> None -> exists p e, enum_at files p e /\ n = title p;
  ne_query : forall t k f, oget scmp query (x_types x) = Some t -> In (k, f) (t_fields t) -> exists p d, method_at files p d /\ k = method_title p }.

(** ** Names that are told apart *)
(** No two underscores in a row, and none at the end. *)
Definition tidy (s : string) : Prop := s <> "" /\ (forall a b, s <> (a ++ "__" ++ b)%string) /\ forall a, s <> (a ++ "_")%string.
(** Like the names that are made up for the choices of oneofs. *)
Definition made_up (s : string) : Prop := s = "Interface" \/ exists b, s = ("Var" ++ b)%string.

(** ** Values of the primitive types, as they are written in JSON *)
Definition decimal (s : string) (z : Z) : Prop := natural s z \/ exists t, s = String "-" t /\ natural t (- z).
Definition written (p : primitive) (v : value) : Prop :=
  match p with
  | PDouble | PFloat => exists n, v = VNum n \/ v = VStr "NaN" \/ v = VStr "Infinity" \/ v = VStr "-Infinity"
  | PInt32 | PSInt32 | PSFixed32 => exists z, v = VNum (NInt z) /\ signed 32 z
  | PUInt32 | PFixed32 => exists z, v = VNum (NInt z) /\ unsigned 32 z
  | PInt64 | PSInt64 | PSFixed64 => exists s z, v = VStr s /\ decimal s z /\ signed 64 z
  | PUInt64 | PFixed64 => exists s z, v = VStr s /\ natural s z /\ unsigned 64 z
  | PBool => exists b, v = VBool b
  | PString | PBytes => exists s, v = VStr s
  end.
