(** Vocabulary for reports of errors (C89). *)
From Coq Require Import String Ascii Bool List.
From Verif Require Import Base ErModel.
Import ListNotations.
Open Scope string_scope.
Open Scope list_scope.

(** What an error says of itself: [<message>: <description> [at <a>.<b>]] *)
Definition says (e : errata) : string :=
  let 'Errata _ _ m d t _ := e in
  (m ++ (match d with Some d => ": " ++ d | None => "" end) ++ (match t with [] => "" | _ => " [at " ++ String.concat "." t ++ "]" end))%string.
Definition causes_of (e : errata) : list errata := let 'Errata _ _ _ _ _ cs := e in cs.
(** [c] is a cause of [e], or of one of its causes, and so on. *)
Inductive below : errata -> errata -> Prop :=
| below_one : forall e c, In c (causes_of e) -> below e c
| below_more : forall e c d, In c (causes_of e) -> below c d -> below e d.
(** An error that says nothing *)
Definition silent (e : errata) : Prop := says e = "" /\ causes_of e = [].

(** The lines of a text *)
Fixpoint lines (s : string) : list string :=
  match s with
  | "" => [""]
  | String c r =>
      if Ascii.eqb c (ascii_of_nat 10) then "" :: lines r
      else match lines r with l :: ls => String c l :: ls | [] => [String c ""] end
  end.
(** Lines moved to the right; nothing is put before an empty line at the end. *)
Fixpoint moved (ls : list string) : list string :=
  match ls with
  | [] => []
  | [l] => if String.eqb l "" then [""] else [("    " ++ l)%string]
  | l :: ls => ("    " ++ l)%string :: moved ls
  end.
Definition as_item (ls : list string) : list string :=
  match ls with
  | [] => []
  | l :: ls => ("  • " ++ l)%string :: moved ls
  end.
(** How an error is laid out, line by line *)
Fixpoint layout (e : errata) : list string :=
  lines (says e) ++
  (let 'Errata _ _ _ _ _ cs := e in
   match cs with
   | [] => []
   | _ => "Caused by:" :: flat_map (fun c => as_item (layout c)) cs
   end).
Definition text_of (ls : list string) : string := String.concat newline ls.

(** What a reader can know of an error *)
Inductive outline : Type := Says (text : string) (because : list outline).
Fixpoint outline_of (e : errata) : outline :=
  Says (says e) (let 'Errata _ _ _ _ _ cs := e in map outline_of cs).
(** Nothing in it has more than one line. *)
Definition one_line (s : string) : Prop := ~ In (ascii_of_nat 10) (list_ascii_of_string s).
Definition all_one_line (e : errata) : Prop := one_line (says e) /\ forall c, below e c -> one_line (says c).
Definition is_colored (e : errata) : bool := let 'Errata _ c _ _ _ _ := e in c.
(** Nothing in it is coloured. *)
Definition plain (e : errata) : Prop := is_colored e = false /\ forall c, below e c -> is_colored c = false.
