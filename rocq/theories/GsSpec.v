(** Vocabulary for the check of [@grpc] fields (C80): what a server answers, and what fits a type. *)
From Coq Require Import String Ascii ZArith NArith Bool List.
From Verif Require Import Base Ordered JsonModel TypeModel ConfigModel BuilderModel PgModel PgSpec.
Import ListNotations.
Open Scope string_scope.
Open Scope list_scope.

(** ** Answers
    Messages in JSON, as the mapping of protocol buffers has it.  [json] gives the name of a field in JSON. *)
Definition is_text (v : value) : Prop := exists s, v = VStr s.
(** Messages with a form of their own. *)
Definition well_known (q : list string) : option (value -> Prop) :=
  match q with
  | ["google"; "protobuf"; n] =>
      if String.eqb n "Empty" then None
      else if String.eqb n "Timestamp" || String.eqb n "Duration" || String.eqb n "FieldMask" then Some is_text
      else Some (fun _ => True)
  | _ => None
  end.
Section Answers.
  Variable json : pfield -> string.
  Variable files : list pfile.
  (** An answer that is the message [m], declared at [p], and the value of one of its fields, without and with its label.
      Optional fields may be missing; lists and maps are always written (grpc/protobuf.rs:157).  Values of enums are declared ones. *)
  Inductive answer : list string -> message -> value -> Prop :=
  | An_special p m v P : well_known p = Some P -> P v -> answer p m v
  | An_object p m kvs : well_known p = None ->
      (forall k v, In (k, v) kvs -> exists f, In f (message_fields m) /\ k = json f /\ held p m f v) ->
      (forall f, In f (message_fields m) -> pf_label f <> LOptional -> In (json f) (map fst kvs)) ->
      answer p m (VObj kvs)
  with held : list string -> message -> pfield -> value -> Prop :=
  | He_map p m f m' v : In m' (message_nested m) -> is_map_entry m' = true -> pf_type_name f = Some ("." ++ String.concat "." (p ++ [message_name m']))%string -> held p m f v
  | He_one p m f v : pf_label f <> LRepeated -> single f v -> held p m f v
  | He_many p m f l : pf_label f = LRepeated -> Forall (single f) l -> held p m f (VList l)
  with single : pfield -> value -> Prop :=
  | Si_scalar f v : pf_type_name f = None -> written (pf_type f) v -> single f v
  | Si_enum f q e s : pf_type_name f = Some ("." ++ String.concat "." q)%string -> enum_at files q e -> In s (pe_values e) -> single f (VStr s)
  | Si_message f q m v : pf_type_name f = Some ("." ++ String.concat "." q)%string -> message_at files q m -> is_map_entry m = false -> answer q m v -> single f v.

  (** Numbers that are written as numbers, and names that are the camel case of the declared ones. *)
  Definition as_number (p : primitive) : Prop :=
    match p with PInt64 | PUInt64 | PFixed64 | PSFixed64 | PSInt64 | PDouble | PFloat => False | _ => True end.
  Record ordinary (camel : string -> string) : Prop := {
    or_numbers : forall p m f, message_at files p m -> is_map_entry m = false -> In f (message_fields m) -> pf_type_name f = None -> as_number (pf_type f);
    or_known : forall p m, message_at files p m -> well_known p = None;
    or_names : forall p m f, message_at files p m -> is_map_entry m = false -> In f (message_fields m) -> json f = camel (pf_name f);
    or_camel : forall p m f f', message_at files p m -> is_map_entry m = false -> In f (message_fields m) -> In f' (message_fields m) -> camel (pf_name f) = camel (pf_name f') -> f = f' }.
End Answers.

(** ** Values of a type
    Only the fields without resolvers are read from the value. *)
Inductive fits (c : config) : typ -> value -> Prop :=
| Fi_null n : fits c (TNamed n false) VNull
| Fi_null_list t : fits c (TList t false) VNull
| Fi_list t b l : Forall (fits c t) l -> fits c (TList t b) (VList l)
| Fi_object n b ty kvs : oget scmp n (c_types c) = Some ty ->
    (forall k f, In (k, f) (t_fields ty) -> f_resolvers f = [] ->
       (exists v, aget k kvs = Some v /\ fits c (f_type f) v) \/
       (aget k kvs = None /\ ((exists t, f_type f = TNamed t false) \/ exists t, f_type f = TList t false))) -> fits c (TNamed n b) (VObj kvs)
| Fi_enum n b e s v : oget scmp n (c_types c) = None -> oget scmp n (c_enums c) = Some e -> In s (map fst (e_variants e)) -> v = VStr s \/ v = VEnum s -> fits c (TNamed n b) v
| Fi_string b s : oget scmp "String" (c_types c) = None -> oget scmp "String" (c_enums c) = None -> fits c (TNamed "String" b) (VStr s)
| Fi_int b x : oget scmp "Int" (c_types c) = None -> oget scmp "Int" (c_enums c) = None -> fits c (TNamed "Int" b) (VNum x)
| Fi_boolean b x : oget scmp "Boolean" (c_types c) = None -> oget scmp "Boolean" (c_enums c) = None -> fits c (TNamed "Boolean" b) (VBool x)
| Fi_empty b : oget scmp "Empty" (c_types c) = None -> oget scmp "Empty" (c_enums c) = None -> fits c (TNamed "Empty" b) (VObj [])
| Fi_empty_null b : oget scmp "Empty" (c_types c) = None -> oget scmp "Empty" (c_enums c) = None -> fits c (TNamed "Empty" b) VNull
| Fi_other n b v : oget scmp n (c_types c) = None -> oget scmp n (c_enums c) = None -> ~ In n ["String"; "Int"; "Boolean"; "Empty"] -> fits c (TNamed n b) v.

(** No field that is read from the answer must be there and be of a scalar type that the check does not know, or of a union. *)
Definition no_loose (c : config) : Prop :=
  forall n ty k f s, oget scmp n (c_types c) = Some ty -> In (k, f) (t_fields ty) -> f_resolvers f = [] -> f_type f = TNamed s true ->
    oget scmp s (c_types c) = None -> oget scmp s (c_enums c) = None -> In s ["String"; "Int"; "Boolean"; "Empty"].
(** [base] is [url] without the slashes at its end. *)
Definition without_slashes (url base : string) : Prop :=
  (exists tail, url = (base ++ tail)%string /\ forall c, In c (list_ascii_of_string tail) -> c = "/"%char) /\ forall b, base <> (b ++ "/")%string.

(** ** Generated configurations *)
(** No message below [m] contains itself; [n] bounds the nesting. *)
Inductive nests (files : list pfile) : nat -> message -> Prop :=
| Nests n m : (forall f q m', In f (message_fields m) -> pf_type_name f = Some ("." ++ String.concat "." q)%string -> message_at files q m' -> is_map_entry m' = false ->
    exists k, k < n /\ nests files k m') -> nests files n m.
(** No two services of one name. *)
Definition service_name (f : pfile) (s : pservice) : string := if String.eqb (pl_package f) "" then ps_name s else (pl_package f ++ "." ++ ps_name s)%string.
Definition services_apart (files : list pfile) : Prop :=
  forall f f' s s', In f files -> In f' files -> In s (pl_services f) -> In s' (pl_services f') -> service_name f s = service_name f' s' -> s = s'.
Record tame (camel : string -> string) (query : string) (files : list pfile) : Prop := {
  ta_services : services_apart files;
  ta_camel : forall p m f f', message_at files p m -> is_map_entry m = false -> In f (message_fields m) -> In f' (message_fields m) -> camel (pf_name f) = camel (pf_name f') -> f = f';
  ta_fields : forall p m f q m', message_at files p m -> is_map_entry m = false -> In f (message_fields m) -> pf_type_name f = Some ("." ++ String.concat "." q)%string ->
    message_at files q m' -> is_map_entry m' = false -> message_fields m' <> [];
  ta_outputs : forall p d q m, method_at files p d -> pd_output d <> empty_message -> refers (pd_output d) q -> message_at files q m -> message_fields m <> [];
  ta_empty : forall p m, message_at files p m -> refers empty_message p -> message_fields m = [] /\ is_map_entry m = false;
  ta_messages : forall p m, message_at files p m -> is_predefined (title p) = false;
  ta_enums : forall p e, enum_at files p e -> is_predefined (title p) = false;
  ta_query : is_predefined query = false;
  ta_comments : forall f, In f files -> pl_comments f = None }.
