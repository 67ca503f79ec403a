(** Vocabulary for the printed schema (C97). *)
From Coq Require Import String Ascii NArith Bool List.
From Verif Require Import Base OpGenSpec.
Import ListNotations.
Open Scope string_scope.

Definition nl : string := String (ascii_of_nat 10) "".
Definition cr : string := String (ascii_of_nat 13) "".
(** A text without line breaks *)
Definition one_line (s : string) : Prop := all (fun c => c <> ascii_of_nat 10) s.
(** The lines of a text: each ends with a line break, but the last one need not. *)
Inductive has_lines : string -> list string -> Prop :=
| no_lines : has_lines "" []
| last_line : forall l, l <> "" -> one_line l -> has_lines l [l]
| unix_line : forall l s ls, one_line l -> (forall t, l <> t ++ cr) -> has_lines s ls -> has_lines (l ++ nl ++ s) (l :: ls)
| dos_line : forall l s ls, one_line l -> has_lines s ls -> has_lines (l ++ cr ++ nl ++ s) (l :: ls).
Definition blank (l : string) : Prop := all white l.
(** Lines that begin like the definitions of the directives that every server has *)
Definition builtin (l : string) : Prop :=
  exists pre post, all white pre /\ (l = pre ++ "directive @include" ++ post \/ l = pre ++ "directive @skip" ++ post).
(** Runs of lines that are not blank, without the lines that are left out *)
Inductive paragraphs : list string -> list string -> list (list string) -> Prop :=
| par_end : paragraphs [] [] []
| par_last : forall p, p <> [] -> paragraphs p [] [p]
| par_builtin : forall p l ls r, builtin l -> paragraphs p ls r -> paragraphs p (l :: ls) r
| par_blank : forall l ls r, blank l -> paragraphs [] ls r -> paragraphs [] (l :: ls) r
| par_cut : forall p l ls r, p <> [] -> blank l -> paragraphs [] ls r -> paragraphs p (l :: ls) (p :: r)
| par_line : forall p l ls r, ~ blank l -> ~ builtin l -> paragraphs (p ++ [l]) ls r -> paragraphs p (l :: ls) r.
(** A line as it is shown: tabs are two spaces each if the line starts with one. *)
Inductive untabbed : string -> string -> Prop :=
| un_nil : untabbed "" ""
| un_tab : forall s t, untabbed s t -> untabbed (String (ascii_of_nat 9) s) ("  " ++ t)
| un_other : forall c s t, c <> ascii_of_nat 9 -> untabbed s t -> untabbed (String c s) (String c t).
Inductive shown : string -> string -> Prop :=
| shown_indented : forall s t, untabbed (String (ascii_of_nat 9) s) t -> shown (String (ascii_of_nat 9) s) t
| shown_other : forall s, (forall t, s <> String (ascii_of_nat 9) t) -> shown s s.
(** Lines, each with a line break *)
Fixpoint unlines (ls : list string) : string := match ls with [] => "" | l :: r => l ++ nl ++ unlines r end.
Fixpoint joined (ps : list (list string)) : string :=
  match ps with [] => "" | [p] => unlines p | p :: r => unlines p ++ nl ++ joined r end.
(** A line that is printed as it is *)
Definition tidy (l : string) : Prop := one_line l /\ (forall t, l <> t ++ cr) /\ ~ blank l /\ ~ builtin l /\ forall t, l <> String (ascii_of_nat 9) t.
