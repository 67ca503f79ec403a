(** The values of scalars and enums in a response: src/core/scalar.rs, the enums of
    src/core/blueprint/index.rs and src/core/blueprint/operators/enum_alias.rs. *)
From Coq Require Import String Ascii ZArith NArith Bool List.
From Verif Require Import Base JsonModel IrModel.
Import ListNotations.
Open Scope list_scope.
Open Scope string_scope.

(** * Scalars: scalar.rs *)

(** scalar.rs:18-77; [NoRule] is [Scalar::Empty] *)
Inductive scalar : Type :=
| NoRule | Email | PhoneNumber | Date | DateTime | Url | JSON
| Int8 | Int16 | Int32 | Int64 | Int128
| UInt8 | UInt16 | UInt32 | UInt64 | UInt128 | Bytes.
(** scalar.rs:13-16,149-151 *)
Definition custom_scalars : list (string * scalar) :=
  [("Empty", NoRule); ("Email", Email); ("PhoneNumber", PhoneNumber); ("Date", Date); ("DateTime", DateTime);
   ("Url", Url); ("JSON", JSON); ("Int8", Int8); ("Int16", Int16); ("Int32", Int32); ("Int64", Int64);
   ("Int128", Int128); ("UInt8", UInt8); ("UInt16", UInt16); ("UInt32", UInt32); ("UInt64", UInt64);
   ("UInt128", UInt128); ("Bytes", Bytes)].
(** scalar.rs:146-148 *)
Definition find_scalar (name : string) : option scalar := aget name custom_scalars.

(** serde_json [Number::as_i64], [Number::as_u64]: only numbers read as integers *)
Definition as_i64 (v : value) : option Z :=
  match v with
  | VNum (NInt z) => if ((- 2 ^ 63 <=? z) && (z <? 2 ^ 63))%Z%bool then Some z else None
  | _ => None
  end.
Definition as_u64 (v : value) : option Z :=
  match v with
  | VNum (NInt z) => if ((0 <=? z) && (z <? 2 ^ 64))%Z%bool then Some z else None
  | _ => None
  end.

(** [from_str] of Rust's integers: an optional sign (a minus only if the type is signed), at
    least one digit, and the bounds of the type. *)
Fixpoint digits_value (acc : Z) (s : string) : option Z :=
  match s with
  | EmptyString => Some acc
  | String c t =>
      let n := N_of_ascii c in
      if ((48 <=? n) && (n <=? 57))%N%bool then digits_value (10 * acc + Z.of_N (n - 48))%Z t else None
  end.
Definition unsigned_value (s : string) : option Z :=
  match s with EmptyString => None | _ => digits_value 0 s end.
Definition parse_integer (signed : bool) (lo hi : Z) (s : string) : bool :=
  let r := match s with
           | String "+" t => unsigned_value t
           | String "-" t => if signed then option_map Z.opp (unsigned_value t) else None
           | _ => unsigned_value s
           end in
  match r with Some z => ((lo <=? z) && (z <=? hi))%Z%bool | None => false end.

Section Validate.
  (** [validators::email], [phonenumber::parse], [DateTime::parse_from_rfc3339] and
      [Url::parse], from other crates. *)
  Variables email phone rfc3339 url : string -> bool.

  (** scalar.rs:78-104 *)
  Definition eval_str (v : value) (f : string -> bool) : bool :=
    match as_str v with Some s => f s | None => false end.
  Definition eval_signed (v : value) (lo hi : Z) : bool :=
    match as_i64 v with Some n => ((lo <=? n) && (n <=? hi))%Z%bool | None => false end.
  Definition eval_unsigned (v : value) (hi : Z) : bool :=
    match as_u64 v with Some n => (n <=? hi)%Z | None => false end.

  (** scalar.rs:117-145 *)
  Definition validate_scalar (s : scalar) (v : value) : bool :=
    match s with
    | JSON | NoRule => true
    | Email => eval_str v email
    | PhoneNumber => eval_str v phone
    | Date | DateTime => eval_str v rfc3339
    | Url => eval_str v url
    | Bytes => match as_str v with Some _ => true | None => false end
    | Int64 => eval_str v (parse_integer true (- 2 ^ 63) (2 ^ 63 - 1))
    | UInt64 => eval_str v (parse_integer false 0 (2 ^ 64 - 1))
    | Int128 => eval_str v (parse_integer true (- 2 ^ 127) (2 ^ 127 - 1))
    | UInt128 => eval_str v (parse_integer false 0 (2 ^ 128 - 1))
    | Int8 => eval_signed v (- 2 ^ 7) (2 ^ 7 - 1)
    | Int16 => eval_signed v (- 2 ^ 15) (2 ^ 15 - 1)
    | Int32 => eval_signed v (- 2 ^ 31) (2 ^ 31 - 1)
    | UInt8 => eval_unsigned v (2 ^ 8 - 1)
    | UInt16 => eval_unsigned v (2 ^ 16 - 1)
    | UInt32 => eval_unsigned v (2 ^ 32 - 1)
    end.
  (** jit/builder.rs:227-235: the rule of a field whose type is the named scalar *)
  Definition validate_named (name : string) (v : value) : bool :=
    validate_scalar (match find_scalar name with Some s => s | None => NoRule end) v.
End Validate.

(** * Enums *)

(** One value of an enum: config/config.rs:302-306, with the options of its alias. *)
Record variant : Type := { n_name : string; n_alias : option (list string) }.
(** blueprint/definitions.rs:256 *)
Definition options (v : variant) : list string := match n_alias v with Some l => l | None => [] end.

(** blueprint/index.rs:59-70 for the values of one enum *)
Definition validate_enum_value (variants : list variant) (s : string) : bool :=
  existsb (fun v => (String.eqb (n_name v) s || smem s (options v))%bool) variants.

(** enum_alias.rs:24-32 *)
Definition has_alias (variants : list variant) : bool :=
  existsb (fun v => match n_alias v with Some _ => true | None => false end) variants.
Definition alias_map (variants : list variant) : list (string * string) :=
  fold_left (fun m v => fold_left (fun m o => aset o (n_name v) m) (options v) (aset (n_name v) (n_name v) m))
            variants [].
(** enum_alias.rs:16-43: the resolver of a field of the enum's type *)
Definition with_aliases {IO} (variants : list variant) (resolver : option (ir IO)) : option (ir IO) :=
  if has_alias variants then option_map (fun r => IMap r (alias_map variants)) resolver else resolver.
