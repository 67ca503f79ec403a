(** Vocabulary for template expressions (C52). *)
From Coq Require Import String Ascii ZArith NArith Bool List.
From Verif Require Import Base JsonModel JsonSpec CtxModel.
Import ListNotations.
Open Scope string_scope.
Open Scope list_scope.

(** The value of the parent object: the one set on the way, if any. *)
Inductive parent (c : ctx) : value -> Prop :=
| parent_set v : c_over_value c = Some v -> parent c v
| parent_own v : c_over_value c = None -> c_value c = Some v -> parent c v.

(** The arguments, as an object: those set on the way, if any. *)
Inductive arguments (c : ctx) : value -> Prop :=
| arguments_set v : c_over_args c = Some v -> arguments c v
| arguments_own m : c_over_args c = None -> c_args c = Some m -> arguments c (VObj m).

(** The JSON value behind [value.…] and [args.…]. *)
Inductive denotes (c : ctx) : list string -> value -> Prop :=
| denotes_value p v w : parent c v -> reaches v p w -> denotes c ("value" :: p) w
| denotes_args p v w : arguments c v -> reaches v p w -> denotes c ("args" :: p) w.

(** The text behind [headers.…], [vars.…] and [env.…]; what follows the second name is
    not looked at. *)
Inductive text_of (rx : req_ext) : list string -> string -> Prop :=
| text_header n rest s : x_header rx n = Some s -> text_of rx ("headers" :: n :: rest) s
| text_var n rest s : x_var rx n = Some s -> text_of rx ("vars" :: n :: rest) s
| text_vars : text_of rx ["vars"] (x_vars_json rx)
| text_env n rest s : x_env rx n = Some s -> text_of rx ("env" :: n :: rest) s.

(** How a JSON value is written into a template: texts and enumeration values without
    quotes, null not at all, everything else as JSON. *)
Inductive spelled (rx : req_ext) : value -> string -> Prop :=
| spelled_string s : spelled rx (VStr s) s
| spelled_enum s : spelled rx (VEnum s) s
| spelled_true : spelled rx (VBool true) "true"
| spelled_false : spelled rx (VBool false) "false"
| spelled_number n : spelled rx (VNum n) (x_json_text rx (VNum n))
| spelled_list l : spelled rx (VList l) (x_json_text rx (VList l))
| spelled_object m : spelled rx (VObj m) (x_json_text rx (VObj m)).

(** The text an expression stands for in a template. *)
Inductive stands_for (rx : req_ext) (c : ctx) (p : list string) : string -> Prop :=
| stands_text s : text_of rx p s -> stands_for rx c p s
| stands_value v s : denotes c p v -> spelled rx v s -> stands_for rx c p s.

(** The same in a GraphQL document. *)
Inductive graphql_for (rx : req_ext) (c : ctx) (p : list string) : string -> Prop :=
| graphql_text s : text_of rx p s -> graphql_for rx c p ("""" ++ s ++ """")%string
| graphql_value v : denotes c p v -> graphql_for rx c p (x_graphql_text rx v).
