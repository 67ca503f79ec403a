(** C58: the values of scalars and enums in a response are values of their types. *)
From Coq Require Import String Ascii ZArith NArith Bool Lia List.
From Verif Require Import Base JsonModel TypeModel IrModel PlanModel PlanSpec PlanProps ScalarModel ScalarSpec ScalarProofs.
Import ListNotations.
Open Scope list_scope.
Open Scope string_scope.

(** Which values are valid, for each of the scalars the server knows.  Integers up to 32 bits
    are numbers; larger ones are texts. *)
Theorem C58_small_integers : forall email phone rfc3339 url v,
  let valid name := validate_named email phone rfc3339 url name v = true in
  (valid "Int8" <-> exists z, v = VNum (NInt z) /\ signed 8 z) /\
  (valid "Int16" <-> exists z, v = VNum (NInt z) /\ signed 16 z) /\
  (valid "Int32" <-> exists z, v = VNum (NInt z) /\ signed 32 z) /\
  (valid "UInt8" <-> exists z, v = VNum (NInt z) /\ unsigned 8 z) /\
  (valid "UInt16" <-> exists z, v = VNum (NInt z) /\ unsigned 16 z) /\
  (valid "UInt32" <-> exists z, v = VNum (NInt z) /\ unsigned 32 z).
Proof. exact small_integers. Qed.
Print Assumptions C58_small_integers.

Theorem C58_big_integers : forall email phone rfc3339 url v,
  let valid name := validate_named email phone rfc3339 url name v = true in
  (valid "Int64" <-> exists s z, v = VStr s /\ integer s z /\ signed 64 z) /\
  (valid "Int128" <-> exists s z, v = VStr s /\ integer s z /\ signed 128 z) /\
  (valid "UInt64" <-> exists s z, v = VStr s /\ integer s z /\ unsigned 64 z /\ forall t, s <> String "-" t) /\
  (valid "UInt128" <-> exists s z, v = VStr s /\ integer s z /\ unsigned 128 z /\ forall t, s <> String "-" t).
Proof. exact big_integers. Qed.
Print Assumptions C58_big_integers.

(** The others are texts of the format that names them, given what the libraries take to be
    such a text. *)
Theorem C58_texts : forall email phone rfc3339 url v,
  let valid name := validate_named email phone rfc3339 url name v = true in
  (valid "Email" <-> exists s, v = VStr s /\ email s = true) /\
  (valid "PhoneNumber" <-> exists s, v = VStr s /\ phone s = true) /\
  (valid "Date" <-> exists s, v = VStr s /\ rfc3339 s = true) /\
  (valid "DateTime" <-> exists s, v = VStr s /\ rfc3339 s = true) /\
  (valid "Url" <-> exists s, v = VStr s /\ url s = true) /\
  (valid "Bytes" <-> exists s, v = VStr s).
Proof. exact texts. Qed.
Print Assumptions C58_texts.

(** In a response (see C03 and [Answer]) a field of such a scalar is null or valid. *)
Theorem C58_scalars_in_responses : forall {IR E} email phone rfc3339 url implements enum_value vars
    (st : nat -> option (result value E)) (node : pfield IR) v dp out name,
  Answer implements (validate_named email phone rfc3339 url) enum_value vars st node v dp out ->
  p_scalar node = Some name ->
  out = VNull \/ validate_named email phone rfc3339 url name out = true.
Proof. intros IR E email phone rfc3339 url. exact (@scalar_answer email phone rfc3339 url IR E). Qed.
Print Assumptions C58_scalars_in_responses.

Definition rules58 : string -> value -> bool := validate_named (fun _ => true) (fun _ => true) (fun _ => true) (fun _ => true).
Definition age58 (t : typ) (scalar : string) : pfield string := PField 0 "age" "age" (Some "http") t None None None false (Some scalar) [].
Definition answer58 (enums : list variant) (f : pfield string) (v : value) : result value (synth_error (E := string)) :=
  synthesize (fun a b => String.eqb a b) rules58 (fun _ => validate_enum_value enums) [] (fun i => if Nat.eqb i 0 then Some (Ok v) else None)
             "Query" [f].

Example C58_witness_integers :
  rules58 "Int8" (VNum (NInt (-128))) = true /\ rules58 "Int8" (VNum (NInt 128)) = false /\
  rules58 "UInt32" (VNum (NInt 4294967295)) = true /\ rules58 "UInt32" (VNum (NInt (-1))) = false /\
  rules58 "Int64" (VStr "-9223372036854775808") = true /\ rules58 "Int64" (VStr "9223372036854775808") = false /\
  rules58 "UInt64" (VStr "+7") = true /\ rules58 "UInt64" (VStr "-0") = false.
Proof. repeat split; vm_compute; reflexivity. Qed.
Example C58_witness_integer_text : integer "-120" (-120) /\ signed 8 (-120).
Proof.
  split; [|unfold signed; lia]. apply (int_minus "120" 120). change "120" with (("1" ++ "2") ++ "0"). change 120%Z with (10 * (10 * 1 + 2) + 0)%Z.
  apply nat_more; [apply nat_more; [apply nat_digit|]|]; cbn; tauto.
Qed.
Example C58_witness_response :
  answer58 [] (age58 (TNamed "Int8" false) "Int8") (VNum (NInt 42)) = Ok (VObj [("age", VNum (NInt 42))]) /\
  answer58 [] (age58 (TNamed "Int8" false) "Int8") (VNum (NInt 420)) = Err (EScalar 0 "Int8" [SField "age"]).
Proof. split; vm_compute; reflexivity. Qed.

(** ** Enums *)

(** A text is accepted for an enum exactly if it is a name or an alias of one of its values. *)
Theorem C58_enum_values : forall variants s,
  validate_enum_value variants s = true <-> exists n, stands_for variants s n.
Proof. exact enum_value_iff. Qed.
Print Assumptions C58_enum_values.

(** The result of a resolver of a field of an enum with aliases: every text in it, at any depth
    of lists, is replaced by the name of the value it stands for, or there is an error. *)
Theorem C58_aliases_are_replaced : forall {F} variants v w,
  map_enum (F := F) (alias_map variants) v = Ok w -> named variants v w.
Proof. intros F. exact (@mapped_sound F). Qed.
Print Assumptions C58_aliases_are_replaced.

Theorem C58_every_alias_is_replaced : forall {F} variants v w,
  unambiguous variants -> named variants v w -> map_enum (F := F) (alias_map variants) v = Ok w.
Proof. intros F variants v w U. exact (mapped_complete variants U v w). Qed.
Print Assumptions C58_every_alias_is_replaced.

(** This is done for every resolver of such a field, and for those alone. *)
Theorem C58_resolvers_with_aliases : forall {IO} variants (resolver : option (ir IO)),
  with_aliases variants resolver =
  match resolver with
  | Some r => Some (if existsb (fun v => match n_alias v with Some _ => true | None => false end) variants
                    then IMap r (alias_map variants) else r)
  | None => None
  end.
Proof. intros IO variants [r|]; unfold with_aliases, has_alias; destruct (existsb _ _); reflexivity. Qed.
Print Assumptions C58_resolvers_with_aliases.

Definition color58 : list variant :=
  [{| n_name := "BLUE"; n_alias := None |}; {| n_name := "RED"; n_alias := Some ["r"; "rouge"] |}].
Example C58_witness_aliases :
  unambiguous color58 /\
  named color58 (VList [VStr "rouge"; VNull; VStr "BLUE"]) (VList [VStr "RED"; VNull; VStr "BLUE"]) /\
  map_enum (F := string) (alias_map color58) (VStr "GREEN") <> Ok (VStr "GREEN").
Proof.
  split; [|split].
  - intros s n n' (v & [<-|[<-|[]]] & <- & H) (v' & [<-|[<-|[]]] & <- & H'); cbn in *; try reflexivity; exfalso.
    + destruct H as [->|(l & Q & _)]; [|discriminate]. destruct H' as [H'|(l & [= <-] & [H'|[H'|[]]])]; discriminate.
    + destruct H' as [->|(l & Q & _)]; [|discriminate]. destruct H as [H|(l & [= <-] & [H|[H|[]]])]; discriminate.
  - constructor. constructor; [|constructor; [constructor|constructor; [|constructor]]]; constructor.
    + eexists. split; [right; left; reflexivity|]. split; [reflexivity|]. right. eexists. split; [reflexivity|cbn; tauto].
    + eexists. split; [left; reflexivity|]. split; [reflexivity|]. now left.
  - vm_compute. discriminate.
Qed.

(** ** What does not hold *)

(** Values of the built-in scalars are not looked at: a field of type Int is answered with a
    text, and with a whole object, none of whose members was asked for. *)
Theorem C58_built_in_scalars_refuted :
  answer58 [] (age58 (TNamed "Int" true) "Int") (VStr "x") = Ok (VObj [("age", VStr "x")]) /\
  answer58 [] (age58 (TNamed "Int" true) "Int") (VObj [("secret", VStr "s")]) = Ok (VObj [("age", VObj [("secret", VStr "s")])]).
Proof. split; vm_compute; reflexivity. Qed.
Print Assumptions C58_built_in_scalars_refuted.

(** A list of custom scalars is never valid: the rule is applied to the list. *)
Theorem C58_lists_of_scalars_refuted :
  rules58 "Int8" (VNum (NInt 1)) = true /\
  answer58 [] (age58 (TList (TNamed "Int8" false) false) "Int8") (VList [VNum (NInt 1)]) = Err (EScalar 0 "Int8" [SField "age"]).
Proof. split; vm_compute; reflexivity. Qed.
Print Assumptions C58_lists_of_scalars_refuted.

(** A 64-bit integer that an upstream sends as a number is rejected. *)
Theorem C58_int64_numbers_refuted : forall n,
  answer58 [] (age58 (TNamed "Int64" false) "Int64") (VNum n) = Err (EScalar 0 "Int64" [SField "age"]).
Proof. intros n. reflexivity. Qed.
Print Assumptions C58_int64_numbers_refuted.

Definition car58 : pfield string :=
  PField 0 "car" "car" (Some "http") (TNamed "Car" false) None None None false None
    [PField 1 "color" "color" None (TNamed "Color" false) None None None true None []].
Definition colors58 : pfield string :=
  PField 0 "colors" "colors" (Some "http") (TList (TNamed "Color" false) false) None None None true None [].

(** An alias in the data of a field without a resolver reaches the client, although the schema
    does not know it as a value of the enum. *)
Theorem C58_alias_without_resolver_refuted :
  with_aliases (IO := string) color58 None = None /\ (forall n, stands_for color58 "r" n -> n <> "r") /\
  answer58 color58 car58 (VObj [("color", VStr "r")]) = Ok (VObj [("car", VObj [("color", VStr "r")])]).
Proof.
  split; [reflexivity|]. split; [|vm_compute; reflexivity]. intros n (v & [<-|[<-|[]]] & <- & _); discriminate.
Qed.
Print Assumptions C58_alias_without_resolver_refuted.

(** A null in a list of enum values is an error, although the type of the items allows it. *)
Theorem C58_null_among_enum_values_refuted :
  p_type colors58 = TList (TNamed "Color" false) false /\
  answer58 color58 colors58 (VList [VStr "RED"]) = Ok (VObj [("colors", VList [VStr "RED"])]) /\
  answer58 color58 colors58 (VList [VStr "RED"; VNull]) = Err (EEnum 0 "Color" [SField "colors"]).
Proof. split; [reflexivity|]. split; vm_compute; reflexivity. Qed.
Print Assumptions C58_null_among_enum_values_refuted.

(** If two values of an enum share an alias, nothing is reported; the later one is answered. *)
Theorem C58_shared_alias_is_reported_refuted : exists variants,
  stands_for variants "x" "A" /\ stands_for variants "x" "B" /\ map_enum (F := string) (alias_map variants) (VStr "x") = Ok (VStr "B").
Proof.
  exists [{| n_name := "A"; n_alias := Some ["x"] |}; {| n_name := "B"; n_alias := Some ["x"] |}]. split; [|split; [|reflexivity]].
  - eexists. split; [left; reflexivity|]. split; [reflexivity|]. right. eexists. split; [reflexivity|now left].
  - eexists. split; [right; left; reflexivity|]. split; [reflexivity|]. right. eexists. split; [reflexivity|now left].
Qed.
Print Assumptions C58_shared_alias_is_reported_refuted.
