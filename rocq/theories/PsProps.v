(** C97: the printed schema has all of the schema. *)
From Coq Require Import String Ascii NArith Bool List.
From Verif Require Import Base OpGenSpec PsModel PsSpec PsProofs.
Import ListNotations.
Open Scope string_scope.

(** What is printed are the paragraphs of the schema, line by line and in order, with one empty line between them; only lines that define the built-in directives are left out and only tabs are replaced. *)
Theorem C97_all_is_printed_partial : forall sdl ls ps,
  has_lines sdl ls -> paragraphs [] ls ps ->
  exists qs, Forall2 (Forall2 shown) ps qs /\ trimmed (joined qs) (print_schema sdl).
Proof. exact printed. Qed.
(** Every text has lines and paragraphs. *)
Theorem C97_every_text : forall sdl, exists ls ps, has_lines sdl ls /\ paragraphs [] ls ps.
Proof. intros sdl. destruct (lines_exist sdl) as [ls H]. destruct (paragraphs_exist ls []) as [ps P]. eauto. Qed.
(** A tidy schema is printed as it is, but for blanks at its ends. *)
Theorem C97_tidy_is_kept : forall ps, Forall (Forall tidy) ps -> ~ In [] ps -> trimmed (joined ps) (print_schema (joined ps)).
Proof.
  intros ps F N. destruct (printed _ _ _ (rows_lines ps F) (rows_paragraphs ps F N)) as (qs & Q & T). now rewrite (shown_tidy _ _ F Q) in T.
Qed.

(** A line of a description that begins like a built-in directive is left out, and so is a directive of the user with such a name. *)
Definition a_schema (line : string) : string := unlines ["type Query {"; line; String (ascii_of_nat 9) "a: Int"; "}"].
Theorem C97_descriptions_refuted :
  print_schema (a_schema "directive @skip is not for this field") = print_schema (a_schema "directive @includeUsers on FIELD") /\
  print_schema (a_schema "directive @skip is not for this field") = "type Query {" ++ nl ++ "  a: Int" ++ nl ++ "}".
Proof. split; vm_compute; reflexivity. Qed.
Example C97_example :
  print_schema (unlines [""; "directive @include(if: Boolean!) on FIELD"; ""; "directive @skip(if: Boolean!) on FIELD"; ""; "type Query {"; String (ascii_of_nat 9) "a: Int"; ""; "   "; "}"; ""; ""; "scalar JSON"])
  = "type Query {" ++ nl ++ "  a: Int" ++ nl ++ nl ++ "}" ++ nl ++ nl ++ "scalar JSON".
Proof. vm_compute. reflexivity. Qed.
Example C97_tidy_example : Forall (Forall tidy) [["type Query {"; "  a: Int"; "}"]; ["scalar JSON"]] /\ ~ In [] [["type Query {"; "  a: Int"; "}"]; ["scalar JSON"]].
Proof.
  split; [|intros [H|[H|[]]]; discriminate].
  repeat constructor; try (intros; discriminate); try (intros t E; apply (f_equal print_schema) in E; revert E; vm_compute; discriminate).
  all: try (intros X; apply blank_iff in X; vm_compute in X; discriminate); try (intros X; apply builtin_iff in X; vm_compute in X; discriminate).
  all: intros t E; repeat (destruct t as [|? t]; [discriminate|injection E as _ E]); destruct t; discriminate.
Qed.

Print Assumptions C97_all_is_printed_partial.
Print Assumptions C97_every_text.
Print Assumptions C97_tidy_is_kept.
Print Assumptions C97_descriptions_refuted.
