(** Specification for C17: how a template is written. *)
From Coq Require Import String Ascii Bool List.
From Verif Require Import Base MustacheModel.
Import ListNotations.
Open Scope string_scope.
Open Scope list_scope.

(** A name: a letter followed by letters, digits and underscores. *)
Inductive word_chars : string -> Prop :=
| WC_nil : word_chars ""
| WC_cons : forall c s, is_word c = true -> word_chars s -> word_chars (String c s).
Inductive name : string -> Prop :=
| Name : forall c s, is_alpha c = true -> word_chars s -> name (String c s).

Inductive blanks : string -> Prop :=
| B_nil : blanks ""
| B_cons : forall c s, is_space c = true -> blanks s -> blanks (String c s).

(** A path as written: names, each possibly surrounded by blanks, separated by
    dots. *)
Inductive written_path : list string -> string -> Prop :=
| WP_one : forall n b1 b2, name n -> blanks b1 -> blanks b2 ->
    written_path [n] (b1 ++ n ++ b2)
| WP_more : forall n b1 b2 p s, name n -> blanks b1 -> blanks b2 -> written_path p s ->
    written_path (n :: p) (b1 ++ n ++ b2 ++ "." ++ s).

(** An expression as written: between double braces, optionally with a
    leading dot. *)
Inductive written_expr : list string -> string -> Prop :=
| WE_plain : forall p s, written_path p s -> written_expr p ("{{" ++ s ++ "}}")
| WE_dot : forall p s, written_path p s -> written_expr p ("{{." ++ s ++ "}}").

(** Text without an opening double brace. *)
Definition braceless (s : string) : Prop :=
  forall a b, s <> (a ++ "{{" ++ b)%string.

(** A template as written, and the segments it stands for: expressions and
    non-empty text, no text next to another one; text before an expression does
    not end in an opening brace (it would be read as part of the expression). *)
Inductive written : list segment -> string -> Prop :=
| W_nil : written [] ""
| W_text : forall t, t <> "" -> braceless t -> written [Literal t] t
| W_expr : forall p s segs rest, written_expr p s -> written segs rest ->
    written (Expression p :: segs) (s ++ rest)
| W_text_expr : forall t p s segs rest,
    t <> "" -> braceless (t ++ "{")%string ->
    written_expr p s -> written segs rest ->
    written (Literal t :: Expression p :: segs) (t ++ s ++ rest).

(** Segments as the printer writes them. *)
Inductive canonical : list segment -> Prop :=
| K_nil : canonical []
| K_text : forall t, t <> "" -> braceless t -> canonical [Literal t]
| K_expr : forall p segs, p <> [] -> Forall name p -> canonical segs ->
    canonical (Expression p :: segs)
| K_text_expr : forall t p segs, t <> "" -> braceless (t ++ "{")%string ->
    p <> [] -> Forall name p -> canonical segs ->
    canonical (Literal t :: Expression p :: segs).

(** The value of a template: text as it stands, expressions replaced. *)
Inductive rendered (path_string : list string -> option string) : list segment -> string -> Prop :=
| R_nil : rendered path_string [] ""
| R_text : forall t segs s, rendered path_string segs s ->
    rendered path_string (Literal t :: segs) (t ++ s)
| R_present : forall p v segs s, path_string p = Some v -> rendered path_string segs s ->
    rendered path_string (Expression p :: segs) (v ++ s)
| R_absent : forall p segs s, path_string p = None -> rendered path_string segs s ->
    rendered path_string (Expression p :: segs) s.
