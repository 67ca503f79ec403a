(** Vocabulary for [tailcall init] (C91). *)
From Coq Require Import String Ascii Bool List.
From Verif Require Import Base TiModel.
Import ListNotations.
Open Scope string_scope.
Open Scope list_scope.

(** All that can be found on the disk if the command is stopped at any point, with what was agreed until then *)
Definition found (s : state) : list seen := s_now s :: s_past s.
(** [content] begins with [t]. *)
Definition begins (t content : string) : Prop := exists rest, content = (t ++ rest)%string.

(** What is to be written to a file *)
Inductive wanted (rc rc_schema : string) (parse_yaml : string -> option yaml) (print_yaml : yaml -> string) (main_text : source -> string) (main_schema : string)
    (before : list (string * file)) (choice : option source) : string -> string -> Prop :=
| w_rc : wanted rc rc_schema parse_yaml print_yaml main_text main_schema before choice ".tailcallrc.graphql" rc
| w_schema : wanted rc rc_schema parse_yaml print_yaml main_text main_schema before choice ".tailcallrc.schema.json" rc_schema
| w_json : choice = Some Json -> wanted rc rc_schema parse_yaml print_yaml main_text main_schema before choice "main.json" (main_text Json)
| w_yml : choice = Some Yml -> wanted rc rc_schema parse_yaml print_yaml main_text main_schema before choice "main.yml" (main_text Yml)
| w_main : wanted rc rc_schema parse_yaml print_yaml main_text main_schema before choice "main.graphql" main_schema
| w_new : (forall t, aget ".graphqlrc.yml" before <> Some (Text t)) ->
    wanted rc rc_schema parse_yaml print_yaml main_text main_schema before choice ".graphqlrc.yml" (print_yaml default_graphqlrc)
| w_merged : forall t y, aget ".graphqlrc.yml" before = Some (Text t) -> parse_yaml t = Some y ->
    wanted rc rc_schema parse_yaml print_yaml main_text main_schema before choice ".graphqlrc.yml" (print_yaml (merge_yaml y default_graphqlrc)).

(** Mappings have each key once, at all depths that matter here. *)
Definition keys_once (m : list (string * yaml)) : Prop := NoDup (map fst m).
Definition globs : list yaml := [YString "./.tailcallrc.graphql"; YString "./*.graphql"].
