(** Printing the schema: src/core/print_schema.rs. *)
From Coq Require Import String Ascii NArith Bool List.
From Verif Require Import Base OpGenModel.
Import ListNotations.
Open Scope string_scope.
Open Scope list_scope.

Definition newline : ascii := ascii_of_nat 10.
Definition return_ : ascii := ascii_of_nat 13.
Definition tab : ascii := ascii_of_nat 9.
(** [str::lines] *)
Fixpoint lines (s : string) : list string :=
  match s with
  | "" => []
  | String c t =>
      if Ascii.eqb c newline then "" :: lines t
      else if Ascii.eqb c return_ && match t with String d _ => Ascii.eqb d newline | "" => false end then lines t
      else match lines t, t with
           | l :: r, String _ _ => String c l :: r
           | _, _ => [String c ""]
           end
  end.
(** print_schema.rs:14-16 *)
Definition skipped (trimmed : string) : bool := String.prefix "directive @include" trimmed || String.prefix "directive @skip" trimmed.
(** print_schema.rs:25-29 *)
Fixpoint replace_tabs (s : string) : string :=
  match s with
  | "" => ""
  | String c t => if Ascii.eqb c tab then String " " (String " " (replace_tabs t)) else String c (replace_tabs t)
  end.
Definition formatted (line : string) : string :=
  match line with String c _ => if Ascii.eqb c tab then replace_tabs line else line | "" => line end.
(** print_schema.rs:11-34 *)
Fixpoint cleaned (prev_line_empty : bool) (ls : list string) : string :=
  match ls with
  | [] => ""
  | l :: r =>
      if skipped (trim l) then cleaned prev_line_empty r
      else if String.eqb (trim l) "" then ((if prev_line_empty then "" else String newline "") ++ cleaned true r)%string
      else (formatted l ++ String newline (cleaned false r))%string
  end.
(** print_schema.rs:6-37; the text that async-graphql gives is the argument *)
Definition print_schema (sdl : string) : string := trim (cleaned false (lines sdl)).
