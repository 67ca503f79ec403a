(** Shared vocabulary of the model: results, finite maps as association lists,
    character and decimal helpers.  Nothing here models tailcall itself; these
    are the stand-ins for Rust's [Result], [IndexMap]/[HashMap]/[BTreeMap] and
    [str]. *)
From Coq Require Import String Ascii ZArith NArith Bool Lia List.
From Coq Require Import DecimalString.
Import ListNotations.
Open Scope string_scope.
Open Scope list_scope.
Open Scope nat_scope.

(** Rust's [Result<A, E>]. *)
Inductive result (A E : Type) : Type :=
| Ok (a : A)
| Err (e : E).
Arguments Ok {A E} a.
Arguments Err {A E} e.

Definition rbind {A B E} (x : result A E) (f : A -> result B E) : result B E :=
  match x with Ok a => f a | Err e => Err e end.

Definition rmap {A B E} (f : A -> B) (x : result A E) : result B E :=
  match x with Ok a => Ok (f a) | Err e => Err e end.

Definition is_ok {A E} (x : result A E) : bool :=
  match x with Ok _ => true | Err _ => false end.

(** [iter.collect::<Result<Vec<_>, _>>()]: the first error in order wins. *)
Fixpoint collect {A E} (l : list (result A E)) : result (list A) E :=
  match l with
  | [] => Ok []
  | Ok a :: t => match collect t with Ok l' => Ok (a :: l') | Err e => Err e end
  | Err e :: _ => Err e
  end.

(** [iter.map(f).collect::<Result<Vec<_>, _>>()] for a pure [f]. *)
Fixpoint mapM {A B E} (f : A -> result B E) (l : list A) : result (list B) E :=
  match l with
  | [] => Ok []
  | a :: t =>
      match f a with
      | Err e => Err e
      | Ok b => match mapM f t with Ok bs => Ok (b :: bs) | Err e => Err e end
      end
  end.

(** Maps with string keys, in insertion order ([IndexMap]).  A [HashMap] is
    modelled by the same lists, its iteration order being whatever the list
    order is. *)
Section Assoc.
  Context {A : Type}.

  Fixpoint aget (k : string) (m : list (string * A)) : option A :=
    match m with
    | [] => None
    | (k', v) :: t => if String.eqb k k' then Some v else aget k t
    end.

  (** [IndexMap::insert]: replaces the value in place, or appends. *)
  Fixpoint aset (k : string) (v : A) (m : list (string * A)) : list (string * A) :=
    match m with
    | [] => [(k, v)]
    | (k', v') :: t => if String.eqb k k' then (k', v) :: t else (k', v') :: aset k v t
    end.

  (** [HashMap::remove] / [IndexMap::shift_remove]. *)
  Fixpoint adel (k : string) (m : list (string * A)) : list (string * A) :=
    match m with
    | [] => []
    | (k', v') :: t => if String.eqb k k' then adel k t else (k', v') :: adel k t
    end.

  Definition akeys (m : list (string * A)) : list string := map fst m.
  Definition amem (k : string) (m : list (string * A)) : bool :=
    match aget k m with Some _ => true | None => false end.
End Assoc.

Fixpoint smem (k : string) (l : list string) : bool :=
  match l with
  | [] => false
  | h :: t => if String.eqb k h then true else smem k t
  end.

(** Decimal rendering of integers, as Rust's [Display] for integers. *)
Definition Z_to_string (z : Z) : string := NilZero.string_of_int (Z.to_int z).
Definition nat_to_string (n : nat) : string := Z_to_string (Z.of_nat n).
