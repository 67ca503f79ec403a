(** Reports of errors: src/core/errata.rs. *)
From Coq Require Import String Ascii ZArith Bool List.
From Verif Require Import Base.
Import ListNotations.
Open Scope string_scope.
Open Scope list_scope.

Definition newline : string := String (ascii_of_nat 10) "".
(** errata.rs:12-24 *)
Inductive errata : Type :=
| Errata (is_root color : bool) (message : string) (description : option string) (trace : list string) (causes : list errata).
(** errata.rs:27-36 *)
Definition new (m : string) : errata := Errata true false m None [] [].
(** the setters that are derived, errata.rs:12, 17-19 *)
Definition describe (d : string) (e : errata) : errata := let 'Errata r c m _ t cs := e in Errata r c m (Some d) t cs.
Definition at_trace (t : list string) (e : errata) : errata := let 'Errata r c m d _ cs := e in Errata r c m d t cs.
(** errata.rs:38-46 *)
Definition caused_by (errors : list errata) (e : errata) : errata :=
  let 'Errata r c m d t _ := e in Errata r c m d t (map (fun x => let 'Errata _ c m d t cs := x in Errata false c m d t cs) errors).
(** errata.rs:64-70: the errors below, but not those below them *)
Definition with_color (color : bool) (e : errata) : errata :=
  let 'Errata r _ m d t cs := e in Errata r color m d t (map (fun x => let 'Errata r _ m d t cs := x in Errata r color m d t cs) cs).

(** [str::split_inclusive] at line ends *)
Fixpoint split_inclusive (s : string) : list string :=
  match s with
  | "" => []
  | String c r =>
      if Ascii.eqb c (ascii_of_nat 10) then String c "" :: split_inclusive r
      else match split_inclusive r with
           | [] => [String c ""]
           | p :: ps => String c p :: ps
           end
  end.
Fixpoint spaces (n : nat) : string := match n with O => "" | S n => String " " (spaces n) end.
(** errata.rs:73-79 *)
Definition margin (s : string) (n : nat) : string := String.concat "" (map (fun line => (spaces n ++ line)%string) (split_inclusive s)).
(** errata.rs:81-86; [None] is the panic of an index out of bounds. Characters are bytes here: the first two are spaces. *)
Definition bullet (s : string) : option string :=
  match margin s 2 with
  | String _ (String _ r) => Some ("• " ++ r)%string
  | _ => None
  end.

Inductive colour : Type := Yellow | White | Cyan | Dimmed.
Section Display.
  (** [str.color(color)] and [str.dimmed()] of an external crate *)
  Variable paint : colour -> string -> string.
  (** errata.rs:48-62 *)
  Definition colored (color : bool) (s : string) (c : colour) : string := if color then paint c s else s.
  (** errata.rs:106-117 *)
  Fixpoint trace_text (t : list string) : string :=
    match t with
    | [] => ""
    | [a] => a
    | a :: r => (a ++ "." ++ trace_text r)%string
    end.
  (** errata.rs:126-134 over reports: one after the other, with line ends between *)
  Fixpoint items (texts : list string) : option string :=
    match texts with
    | [] => Some ""
    | m :: rest =>
        match bullet m, items rest with
        | Some b, Some r => Some (margin b 2 ++ (match rest with [] => "" | _ => newline end) ++ r)%string
        | _, _ => None
        end
    end.
  (** errata.rs:88-136; [None] is the panic of [bullet] *)
  Fixpoint display (e : errata) : option string :=
    let 'Errata is_root color m d t cs := e in
    let message_color := if is_root then Yellow else White in
    let head := (colored color m message_color
      ++ (match d with Some d => colored color ": " message_color ++ colored color d White | None => "" end)
      ++ (match t with [] => "" | _ => colored color (" [at " ++ trace_text t ++ "]") Cyan end))%string in
    match cs with
    | [] => Some head
    | _ =>
        let texts := (fix each (l : list errata) : option (list string) :=
          match l with
          | [] => Some []
          | x :: l => match display x, each l with Some a, Some b => Some (a :: b) | _, _ => None end
          end) cs in
        match texts with
        | Some texts => match items texts with Some r => Some (head ++ newline ++ colored color "Caused by:" Dimmed ++ newline ++ r)%string | None => None end
        | None => None
        end
    end.
End Display.

(** A cause of a [ValidationError] of the crate tailcall-valid, with the message as text *)
Record vcause := { v_message : string; v_description : option string; v_trace : list string }.
(** blueprint/error.rs:197-214; errata.rs:196-212 with another title *)
Definition described (c : vcause) : errata :=
  let e := at_trace (v_trace c) (new (v_message c)) in
  match v_description c with Some d => describe d e | None => e end.
Definition from_blueprint (causes : list vcause) : errata := caused_by (map described causes) (new "Blueprint Error").
Definition from_validation_str (causes : list vcause) : errata := caused_by (map described causes) (new "Invalid Configuration").
(** errata.rs:214-226 *)
Definition from_validation (causes : list vcause) : errata :=
  caused_by (map (fun c => at_trace (v_trace c) (new (v_message c))) causes) (new "Invalid Configuration").
(** An [anyhow::Error]: what it was made of, or the texts of the chain of its sources *)
Inductive any_error : Type :=
| AnErrata (e : errata)
| AValidation (causes : list vcause)
| AnOther (text : string) (sources : list string).
(** errata.rs:153-176 *)
Definition from_any (a : any_error) : errata :=
  match a with
  | AnErrata e => e
  | AValidation causes => from_validation causes
  | AnOther text sources => caused_by (match sources with [] => [] | s :: _ => [new s] end) (new text)
  end.
