(** Vocabulary for REST endpoints (C18, C19). *)
From Coq Require Import String Ascii ZArith NArith Bool List.
From Verif Require Import Base JsonModel JsonSpec RestModel.
Import ListNotations.
Open Scope string_scope.
Open Scope list_scope.

(** A non-empty text without '/'. *)
Definition piece (x : string) : Prop := x <> "" /\ forall a b, x <> String.append a (String "/" b).

(** [cut s l]: [l] are the pieces of [s] between slashes, in order. *)
Inductive cut : string -> list string -> Prop :=
| cut_end : cut "" []
| cut_slash s l : cut s l -> cut (String "/" s) l
| cut_last x : piece x -> cut x [x]
| cut_piece x s l : piece x -> cut s l -> cut (String.append x (String "/" s)) (x :: l).

(** [x] is the text of the integer [z]. *)
Definition integer_text (x : string) (z : Z) : Prop :=
  exists d n, digits d n /\
    ((x = d /\ z = Z.of_N n) \/ (x = String "+" d /\ z = Z.of_N n) \/ (x = String "-" d /\ z = (- Z.of_N n)%Z)).

Section Reads.
  Variable parse_f64 : string -> option value.

  (** A text read at a declared type. *)
  Inductive reads : url_type -> string -> value -> Prop :=
  | reads_string x : reads UString x (VStr x)
  | reads_int x z : integer_text x z -> (- 2 ^ 63 <= z < 2 ^ 63)%Z -> reads UInt x (VNum (NInt z))
  | reads_float x v : parse_f64 x = Some v -> reads UFloat x v
  | reads_true : reads UBoolean "true" (VBool true)
  | reads_false : reads UBoolean "false" (VBool false).

  (** A request path of the declared shape, with the values of its parameters. *)
  Inductive fits : list segment -> list string -> list (string * value) -> Prop :=
  | fits_end : fits [] [] []
  | fits_literal s segs rs b : fits segs rs b -> fits (Literal s :: segs) (s :: rs) b
  | fits_param v segs x rs y b : reads (v_type v) x y -> fits segs rs b ->
      fits (Param v :: segs) (x :: rs) ((v_name v, y) :: b).
End Reads.

(** The last value bound to a name. *)
Definition bound {A} (b : list (string * A)) (n : string) : option A := aget n (rev b).

(** The values a query string gives: the last one of a name. *)
Definition given (q : list (string * string)) (n : string) : option string := aget n (rev q).

(** What a piece of a declared path stands for: "$name" a parameter whose type is the
    declared type of the variable [name], anything else itself. *)
Inductive stands_for (types : list (string * var_type)) : string -> segment -> Prop :=
| stands_literal s : (forall k, s <> String "$" k) -> stands_for types s (Literal s)
| stands_param k ty u : aget k types = Some ty -> url_type_of ty = Some u ->
    stands_for types (String "$" k) (Param {| v_type := u; v_name := k |}).

(** A text that contains another one. *)
Definition contains (p s : string) : Prop := exists a b, s = String.append a (String.append p b).

(** Every declared query parameter that is present can be read at its type. *)
Definition query_readable (parse_f64 : string -> option value) (ps : list (string * typed_variable))
           (q : list (string * string)) : Prop :=
  forall k tv x, In (k, tv) ps -> given q k = Some x -> exists y, reads parse_f64 (v_type tv) x y.
