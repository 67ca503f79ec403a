(** Specification for C82. *)
From Coq Require Import String Ascii ZArith NArith List.
From Verif Require Import Base Ordered JsonModel TypeModel ConfigModel IrModel CtxModel AuthModel ComposeModel FieldModel FieldSpec DocSpec EntitySpec IrSpec FdModel.
Import ListNotations.
Open Scope string_scope.
Open Scope list_scope.

(** A configuration that was written down: the resolvers of federation have no directive. *)
Definition written_down (c : config) : Prop := forall n t, find_type c n = Some t ->
  (forall r, In r (t_resolvers t) -> has_directive r = true) /\
  (forall k f r, oget scmp k (t_fields t) = Some f -> In r (f_resolvers f) -> has_directive r = true).

(** The type [n] can be asked for, and [e] is what its resolver was made into. *)
Definition bare (n : string) : field :=
  {| f_type := TNamed n false; f_args := []; f_doc := None; f_modify := None; f_omit := false; f_cache := None; f_default := None;
     f_protected := None; f_discriminate := None; f_resolvers := []; f_directives := [] |}.
Definition entity {IO} (compile : string -> field -> resolver -> valid (option (ir IO))) (c : config) (n : string) (e : ir IO) : Prop :=
  exists t r, find_type c n = Some t /\ t_resolvers t = [r] /\ compile n (bare n) r = Ok (Some e).
Definition is_entity (c : config) (n : string) : Prop := exists t r, find_type c n = Some t /\ t_resolvers t = [r].

(** A representation says of which type it is; an answer carries the name of its type and is else what was resolved. *)
Definition of_type (repr : value) (n : string) : Prop := exists members, repr = VObj members /\ held members "__typename" (VStr n).
Definition labelled (n : string) (v w : value) : Prop :=
  v = VNull /\ w = VNull \/
  exists m m', v = VObj m /\ w = VObj m' /\ held m' "__typename" (VStr n) /\ (forall k x, k <> "__typename" -> held m k x <-> held m' k x).

(** A field but for what resolves it. *)
Definition same_field {IO} (d d' : fdef IO) : Prop := d_name d' = d_name d /\ d_args d' = d_args d /\ d_type d' = d_type d.

Section Asked.
  Context {IO F Key St : Type}.
  Variable rx : req_ext.
  Variable ext : auth_ext.
  Variable req : request.
  Variable do_io : IO -> ctx -> St -> result value F * St.
  Variable cache_key : IO -> ctx -> option Key.
  Variable cache_get : Key -> St -> result (option value) F * St.
  Variable cache_set : Key -> value -> Z -> St -> result unit F * St.
  Variable compile : string -> field -> resolver -> valid (option (ir IO)).
  Variable c : config.

  (** Every representation, in turn, answered by the resolver of its own type with the representation as the value. *)
  Inductive answered (x : ctx) : list value -> St -> list value -> St -> Prop :=
  | Answered_none st : answered x [] st [] st
  | Answered_more repr l n e v w st st1 ws st2 :
      of_type repr n -> entity compile c n e ->
      Ev rx ext req do_io cache_key cache_get cache_set e (with_value repr x) st (Ok v) st1 ->
      labelled n v w -> answered x l st1 ws st2 -> answered x (repr :: l) st (w :: ws) st2.
End Asked.

(** The text that opts in to version 2 of federation. *)
Definition federation_link : string := "
extend schema @link(
	url: ""https://specs.apollo.dev/federation/v2.3"",
	import: [""@key"", ""@tag"", ""@shareable"", ""@inaccessible"", ""@override"", ""@external"", ""@provides"", ""@requires"", ""@composeDirective"", ""@interfaceObject""]
)
".
