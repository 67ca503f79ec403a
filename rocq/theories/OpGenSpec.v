(** Vocabulary for generated fields (C71). *)
From Coq Require Import String Ascii ZArith NArith Bool List.
From Verif Require Import Base JsonModel TypeModel ConfigModel.
From Verif Require ScalarSpec.
Import ListNotations.
Open Scope list_scope.
Open Scope string_scope.

(** ** Characters and texts *)
Definition digit (c : ascii) : Prop := (48 <= N_of_ascii c <= 57)%N.
Definition word (c : ascii) : Prop :=
  digit c \/ (97 <= N_of_ascii c <= 122)%N \/ (65 <= N_of_ascii c <= 90)%N \/ c = "_"%char.
Definition lower_hex (c : ascii) : Prop := digit c \/ (97 <= N_of_ascii c <= 102)%N.
Inductive all (P : ascii -> Prop) : string -> Prop :=
| all_nil : all P ""
| all_cons c s : P c -> all P s -> all P (String c s).
Definition contains (c : ascii) (s : string) : Prop := exists a b, s = a ++ String c b.
(** A number: digits, at least one. *)
Definition number (s : string) : Prop := s <> "" /\ all digit s.
(** 8-4-4-4-12 hexadecimal digits, in lower case. *)
Definition uuid (s : string) : Prop := exists a b c d e, s = a ++ "-" ++ b ++ "-" ++ c ++ "-" ++ d ++ "-" ++ e /\
  (String.length a = 8 /\ String.length b = 4 /\ String.length c = 4 /\ String.length d = 4 /\ String.length e = 12) /\
  all lower_hex a /\ all lower_hex b /\ all lower_hex c /\ all lower_hex d /\ all lower_hex e.
(** The text goes on with something that is no part of a word, or not at all. *)
Definition ends_word (s : string) : Prop := s = "" \/ exists c t, s = String c t /\ ~ word c.

(** ** Percent-decoding *)
Inductive hex_digit_of : ascii -> N -> Prop :=
| hex_09 c n : N_of_ascii c = (48 + n)%N -> (n < 10)%N -> hex_digit_of c n
| hex_AF c n : N_of_ascii c = (55 + n)%N -> (10 <= n < 16)%N -> hex_digit_of c n
| hex_af c n : N_of_ascii c = (87 + n)%N -> (10 <= n < 16)%N -> hex_digit_of c n.
Inductive decoded : string -> string -> Prop :=
| decoded_nil : decoded "" ""
| decoded_escape a b x y s t : hex_digit_of a x -> hex_digit_of b y -> decoded s t ->
    decoded (String "%" (String a (String b s))) (String (ascii_of_N (16 * x + y)) t)
| decoded_char c s t : c <> "%"%char -> decoded s t -> decoded (String c s) (String c t)
| decoded_stray s t : (forall a b r x y, s = String a (String b r) -> hex_digit_of a x -> ~ hex_digit_of b y) -> decoded s t ->
    decoded (String "%" s) (String "%" t).

(** ** The path in pieces *)
(** Fixed text, and what becomes an argument: its name, its type and the text in the sample. *)
Inductive piece : Type := Fixed (t : string) | Hole (key type text : string).
Definition piece_text (p : piece) : string := match p with Fixed t => t | Hole _ _ t => "/" ++ t end.
Definition joined (l : list string) : string := String.concat "" l.
Inductive piece_written : piece -> string -> Prop :=
| written_fixed t t' : decoded t t' -> piece_written (Fixed t) t'
| written_hole k ty t : piece_written (Hole k ty t) ("/{{.args." ++ k ++ "}}").
(** Fixed texts are as long as possible. *)
Fixpoint apart (l : list piece) : Prop :=
  match l with
  | Fixed t :: r => t <> "" /\ match r with Fixed _ :: _ => False | _ => apart r end
  | Hole _ _ _ :: r => apart r
  | [] => True
  end.
Definition hole_keys (l : list piece) : list string := flat_map (fun p => match p with Hole k _ _ => [k] | _ => [] end) l.
(** What is found in a path: all numbers that are not part of a longer word, and all UUIDs in
    the rest. *)
Definition well_cut (l : list piece) : Prop :=
  apart l /\ NoDup (hole_keys l) /\
  (forall k ty t, In (Hole k ty t) l -> ty = "Int" /\ number t \/ ty = "String" /\ uuid t) /\
  (forall t a d b, In (Fixed t) l -> t = a ++ "/" ++ d ++ b -> ~ (number d /\ ends_word b) /\ ~ uuid d).

(** ** The query *)
(** Keys in the order in which they are first seen. *)
Fixpoint first_seen (l : list string) : list string :=
  match l with
  | [] => []
  | k :: t => k :: filter (fun x => negb (String.eqb x k)) (first_seen t)
  end.
(** The value first given for a key, and whether it is given once more. *)
Inductive first_value (k : string) : list (string * string) -> string -> Prop :=
| first_here v l : first_value k ((k, v) :: l) v
| first_later k' v' l v : k' <> k -> first_value k l v -> first_value k ((k', v') :: l) v.
Definition repeated (k : string) (l : list (string * string)) : Prop :=
  exists a v b w c, l = (a ++ (k, v) :: b ++ (k, w) :: c)%list.

(** ** The type guessed for a text *)
Definition white (c : ascii) : Prop := (9 <= N_of_ascii c <= 13)%N \/ N_of_ascii c = 32%N.
Definition trimmed (v w : string) : Prop := exists pre post, v = pre ++ w ++ post /\ all white pre /\ all white post /\
  (forall c t, w = String c t -> ~ white c) /\ (forall c t, w = t ++ String c "" -> ~ white c).
Section Guess.
  (** The texts that are floating-point numbers for Rust. *)
  Variable is_f64 : string -> bool.
  Definition int32 (v : string) : Prop := exists z, ScalarSpec.integer v z /\ (- 2 ^ 31 <= z < 2 ^ 31)%Z.
  Definition boolean (v : string) : Prop := v = "true" \/ v = "false".
  Inductive guessed : string -> string -> Prop :=
  | guessed_int v : int32 v -> guessed v "Int"
  | guessed_float v : ~ int32 v -> is_f64 v = true -> guessed v "Float"
  | guessed_bool v : ~ int32 v -> is_f64 v = false -> boolean v -> guessed v "Boolean"
  | guessed_text v : ~ int32 v -> is_f64 v = false -> ~ boolean v -> ~ contains "," v -> guessed v "String"
  | guessed_first v a b w ty : ~ int32 v -> is_f64 v = false -> ~ boolean v ->
      v = a ++ String "," b -> ~ contains "," a -> trimmed a w -> guessed w ty -> guessed v ty.
End Guess.

(** ** Calling the field *)
(** What the templates see: the arguments of the field. *)
Definition values (vals : list (string * string)) (p : list string) : option string :=
  match p with [a; k] => if String.eqb a "args" then aget k vals else None | _ => None end.
