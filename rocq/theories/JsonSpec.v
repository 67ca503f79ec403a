(** Independent specification vocabulary for JSON documents. *)
From Coq Require Import String Ascii ZArith NArith Bool List.
From Verif Require Import Base JsonModel.
Import ListNotations.
Open Scope string_scope.
Open Scope list_scope.

(** [t] is the text of the list index [n]: an optional plus sign followed by
    at least one decimal digit, denoting a number that fits in 64 bits. *)
Inductive digits : string -> N -> Prop :=
| digits_one c d : (d < 10)%N -> c = ascii_of_N (48 + d) -> digits (String c "") d
| digits_snoc s n c d :
    digits s n -> (d < 10)%N -> c = ascii_of_N (48 + d) ->
    digits (s ++ String c "") (10 * n + d).

Definition index_text (t : string) (n : N) : Prop :=
  (n < 2 ^ 64)%N /\ (digits t n \/ exists t', t = String "+" t' /\ digits t' n).

(** [reaches v p w]: following the path [p] from [v] leads to [w]. *)
Inductive reaches : value -> list string -> value -> Prop :=
| reaches_here v : reaches v [] v
| reaches_key m k v p w :
    aget k m = Some v -> reaches v p w -> reaches (VObj m) (k :: p) w
| reaches_index l t n v p w :
    index_text t n -> nth_error l (N.to_nat n) = Some v -> reaches v p w ->
    reaches (VList l) (t :: p) w.

(** The non-list elements of a value, looking through nested lists, in document
    order. *)
Inductive leaves : value -> list value -> Prop :=
| leaves_leaf v : (forall l, v <> VList l) -> leaves v [v]
| leaves_list l ls : Forall2 leaves l ls -> leaves (VList l) (concat ls).

(** Lifting a relation on elements through nested lists: same shape, related
    elements at corresponding positions. *)
Inductive lifted (R : value -> value -> Prop) : value -> value -> Prop :=
| lifted_leaf v w : (forall l, v <> VList l) -> R v w -> lifted R v w
| lifted_list l l' : Forall2 (lifted R) l l' -> lifted R (VList l) (VList l').

(** [matches v p ms]: [ms] are, in document order, the pairs (value found under
    the last key of [p], object containing it) found by walking [p] through
    objects and looking through lists everywhere. *)
Inductive matches : list string -> value -> list (value * value) -> Prop :=
| matches_nil v : matches [] v []
| matches_list k p l ls :
    Forall2 (matches (k :: p)) l ls -> matches (k :: p) (VList l) (concat ls)
| matches_found m k v :
    aget k m = Some v -> matches [k] (VObj m) [(v, VObj m)]
| matches_step m k k' p v ms :
    aget k m = Some v -> matches (k' :: p) v ms -> matches (k :: k' :: p) (VObj m) ms
| matches_absent m k p :
    aget k m = None -> matches (k :: p) (VObj m) []
| matches_scalar k p v :
    (forall l, v <> VList l) -> (forall m, v <> VObj m) -> matches (k :: p) v [].

(** The identifier a record is grouped under: text, or the decimal text of an
    integer id. *)
Inductive has_id : value -> string -> Prop :=
| id_str s : has_id (VStr s) s
| id_int z : has_id (VNum (NInt z)) (Z_to_string z)
| id_float r : has_id (VNum (NFloat r)) r.

(** Integer ids a double can represent exactly without rounding. *)
Definition exact_id (v : value) : Prop :=
  match v with VNum (NInt z) => (Z.abs z <= 2 ^ 53)%Z | _ => True end.

(** Sub-sequence of the records whose key has the id [s]. *)
Inductive picked (s : string) : list (value * value) -> list value -> Prop :=
| picked_nil : picked s [] []
| picked_take k r t rs : has_id k s -> picked s t rs -> picked s ((k, r) :: t) (r :: rs)
| picked_skip k r t rs : ~ has_id k s -> picked s t rs -> picked s ((k, r) :: t) rs.

