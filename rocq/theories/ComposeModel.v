(** Composition of transformations and of folds that may fail:
    src/core/transform.rs and src/core/try_fold.rs. *)
From Coq Require Import String Bool List.
From Verif Require Import Base.
Import ListNotations.
Open Scope list_scope.

(** An error with the trace of where it happened ([Cause] of the crate tailcall-valid;
    descriptions are part of the message here). *)
Record cause (E : Type) := { at_ : list string; message : E }.
Arguments at_ {E} _.
Arguments message {E} _.
Arguments Build_cause {E} _ _.

(** [Valid] of the crate tailcall-valid *)
Definition checked (A E : Type) : Type := result A (list (cause E)).
(** [Valid::and_then] *)
Definition and_then {A B E} (x : checked A E) (f : A -> checked B E) : checked B E := rbind x f.
(** [Valid::fold]: of a failure, the errors of the second alternative are added and its
    value is thrown away; the tests of try_fold.rs (165-183, 208-247) say the same. *)
Definition fold {A E} (x : checked A E) (ok : A -> checked A E) (err : unit -> checked A E) : checked A E :=
  match x with
  | Ok a => ok a
  | Err e => match err tt with Ok _ => Err e | Err e' => Err (e ++ e') end
  end.
(** [Valid::trace]: the message goes in front of the trace of every error *)
Definition traced {A E} (x : checked A E) (msg : string) : checked A E :=
  match x with Ok a => Ok a | Err e => Err (map (fun c => Build_cause (msg :: at_ c) (message c)) e) end.

(** *** transform.rs *)
Section Transform.
  Context {V E : Type}.
  (** transform.rs:6-10 *)
  Definition transform : Type := V -> checked V E.
  (** transform.rs:47-58 (and [pipe], 14-16) *)
  Definition pipe (a b : transform) : transform := fun v => and_then (a v) b.
  (** transform.rs:63-73 *)
  Definition default : transform := fun v => Ok v.
  (** transform.rs:31-43 (and [when], 24-26) *)
  Definition when (a : transform) (cond : bool) : transform := fun v => if cond then a v else Ok v.
End Transform.
Arguments transform : clear implicits.

(** *** try_fold.rs *)
Section TryFold.
  Context {I E : Type}.
  (** try_fold.rs:7-9 *)
  Definition try_fold (O : Type) : Type := I -> O -> checked O E.
  (** try_fold.rs:37-44 *)
  Definition and_ {O} (a b : try_fold O) : try_fold O :=
    fun input state => fold (a input state) (fun state' => b input state') (fun _ => b input state).
  (** try_fold.rs:88-98 *)
  Definition transform_valid {O O1} (a : try_fold O) (up : O -> O1 -> checked O1 E) (down : O1 -> checked O E) : try_fold O1 :=
    fun i o1 => and_then (and_then (down o1) (fun o => a i o)) (fun o => up o o1).
  (** try_fold.rs:66-75 *)
  Definition transform_plain {O O1} (a : try_fold O) (up : O -> O1 -> O1) (down : O1 -> O) : try_fold O1 :=
    transform_valid a (fun o o1 => Ok (up o o1)) (fun o1 => Ok (down o1)).
  (** try_fold.rs:100-102 *)
  Definition update {O} (a : try_fold O) (f : O -> O) : try_fold O := transform_plain a (fun o _ => f o) (fun o => o).
  (** try_fold.rs:108-110 *)
  Definition empty {O} : try_fold O := fun _ o => Ok o.
  (** try_fold.rs:121-123 *)
  Definition trace {O} (a : try_fold O) (msg : string) : try_fold O := fun i o => traced (a i o) msg.
  (** try_fold.rs:126-137 *)
  Fixpoint from_iter {O} (l : list (try_fold O)) : try_fold O :=
    match l with [] => empty | head :: iter => and_ head (from_iter iter) end.
End TryFold.
Arguments try_fold : clear implicits.
