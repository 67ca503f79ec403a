(** Vocabulary for C58: which values scalars and enums have. *)
From Coq Require Import String Ascii ZArith NArith Bool List.
From Verif Require Import Base JsonModel ScalarModel.
Import ListNotations.
Open Scope list_scope.
Open Scope string_scope.

(** Decimal digits and the number they write. *)
Definition digits : list (ascii * Z) :=
  [("0"%char, 0%Z); ("1"%char, 1%Z); ("2"%char, 2%Z); ("3"%char, 3%Z); ("4"%char, 4%Z);
   ("5"%char, 5%Z); ("6"%char, 6%Z); ("7"%char, 7%Z); ("8"%char, 8%Z); ("9"%char, 9%Z)].
Inductive natural : string -> Z -> Prop :=
| nat_digit c d : In (c, d) digits -> natural (String c "") d
| nat_more s z c d : natural s z -> In (c, d) digits -> natural (s ++ String c "") (10 * z + d).
(** An integer, with or without a sign. *)
Inductive integer : string -> Z -> Prop :=
| int_plain s z : natural s z -> integer s z
| int_plus s z : natural s z -> integer (String "+" s) z
| int_minus s z : natural s z -> integer (String "-" s) (- z).

(** The numbers of [n] bits, with and without a sign. *)
Definition signed (n : Z) (z : Z) : Prop := (- 2 ^ (n - 1) <= z < 2 ^ (n - 1))%Z.
Definition unsigned (n : Z) (z : Z) : Prop := (0 <= z < 2 ^ n)%Z.

(** [s] stands for the value of the enum named [n]: it is this name, or an alias. *)
Definition stands_for (variants : list variant) (s n : string) : Prop :=
  exists v, In v variants /\ n_name v = n /\ (s = n \/ exists l, n_alias v = Some l /\ In s l).
(** No text stands for two values. *)
Definition unambiguous (variants : list variant) : Prop :=
  forall s n n', stands_for variants s n -> stands_for variants s n' -> n = n'.

(** The value with every text in it replaced by the name it stands for. *)
Inductive named (variants : list variant) : value -> value -> Prop :=
| named_null : named variants VNull VNull
| named_text s n : stands_for variants s n -> named variants (VStr s) (VStr n)
| named_list l l' : Forall2 (named variants) l l' -> named variants (VList l) (VList l').
