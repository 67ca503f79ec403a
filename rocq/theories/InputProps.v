(** C38: arguments are checked and completed before any resolver sees them. *)
From Coq Require Import String Ascii ZArith NArith Bool Arith List.
From Verif Require Import Base JsonModel TypeModel BuilderModel InputModel InputSpec InputProofs.
Import ListNotations.
Open Scope list_scope.
Open Scope string_scope.

(** An input type [Filter] with a required name, a limit with a default, and a nested
    [Filter] list; [Page] always has a size. *)
Definition filter38 : list (string * input_field) :=
  [ ("limit", {| if_type := TNamed "Int" false; if_default := Some (VNum (NInt 10)) |});
    ("name", {| if_type := TNamed "String" true; if_default := None |});
    ("or", {| if_type := TList (TNamed "Filter" false) false; if_default := None |});
    ("page", {| if_type := TNamed "Page" true; if_default := Some (VObj []) |}) ].
Definition page38 : list (string * input_field) :=
  [ ("size", {| if_type := TNamed "Int" true; if_default := Some (VNum (NInt 25)) |}) ].
Definition inputs38 (n : string) : option (list (string * input_field)) :=
  if String.eqb n "Filter" then Some filter38 else if String.eqb n "Page" then Some page38 else None.
Definition given38 : value :=
  VObj [("name", VStr "a"); ("extra", VBool true); ("or", VList [VObj [("limit", (VNum (NInt 1))); ("name", VStr "b")]])].
Definition full38 : value :=
  VObj [("name", VStr "a"); ("extra", VBool true);
        ("or", VList [VObj [("limit", (VNum (NInt 1))); ("name", VStr "b"); ("page", VObj [("size", (VNum (NInt 25)))])]]);
        ("limit", (VNum (NInt 10))); ("page", VObj [("size", (VNum (NInt 25)))])].
Example full38_is_the_result : parse_arg inputs38 5 "users" "filter" (TNamed "Filter" true) None (Some given38) = Ok (Some full38).
Proof. vm_compute. reflexivity. Qed.
Example inputs38_distinct : names_distinct inputs38.
Proof.
  intros n def. unfold inputs38. destruct (String.eqb n "Filter"); [|destruct (String.eqb n "Page"); [|discriminate]];
    intros H; injection H as <-; vm_compute; repeat (constructor; [intros I; cbn in I; repeat (destruct I as [I|I]; [discriminate|]); exact I|]); constructor.
Qed.
Example inputs38_defaults : defaults_non_null inputs38.
Proof.
  intros n def k f. unfold inputs38. destruct (String.eqb n "Filter"); [|destruct (String.eqb n "Page"); [|discriminate]];
    intros H; injection H as <-; intros I _; cbn in I; repeat (destruct I as [I|I]; [injection I as <- <-; discriminate|]); destruct I.
Qed.

(** A non-null argument reaches its resolver with a non-null value, and every input
    object in any argument has its non-null fields and its defaults, at every depth. *)
Theorem C38_required_present : forall inputs parent arg ty default v r,
  names_distinct inputs -> defaults_non_null inputs ->
  resolved inputs parent arg ty default v r ->
  (is_nullable ty = false -> default <> Some VNull -> exists w, r = Some w /\ w <> VNull) /\
  (forall w, r = Some w -> filled inputs (type_name ty) w).
Proof.
  intros inputs parent arg ty default v r D N (fuel & H). split.
  - intros A B. exact (parse_non_null inputs fuel _ _ _ _ _ _ H A B).
  - intros w ->. exact (value_filled inputs D N fuel _ _ _ _ _ _ H).
Qed.
Print Assumptions C38_required_present.
Example required_present_met : resolved inputs38 "users" "filter" (TNamed "Filter" true) None (Some given38) (Some full38).
Proof. exists 5. vm_compute. reflexivity. Qed.
Example filled_is_not_trivial : ~ filled inputs38 "Filter" given38.
Proof.
  intros F. inversion F as [? ? A|? ? A B|? ? A|? def ? A B C]; subst.
  - discriminate A.
  - exact (B _ eq_refl).
  - injection A as <-. specialize (B "page" {| if_type := TNamed "Page" true; if_default := Some (VObj []) |}).
    cbn in B. destruct B as [B _]; [auto 9|discriminate].
Qed.

(** What the client gave is kept: completing an argument only adds members to objects. *)
Theorem C38_given_values_kept : forall inputs parent arg ty default v r,
  names_distinct inputs ->
  resolved inputs parent arg ty default (Some v) r -> exists w, r = Some w /\ extended v w.
Proof.
  intros inputs parent arg ty default v r D (fuel & H).
  destruct (parse_keeps inputs fuel _ _ _ _ _ _ H) as (w & ->). exists w. split; [reflexivity|].
  exact (value_extended inputs D fuel _ _ _ _ _ _ H).
Qed.
Print Assumptions C38_given_values_kept.
Example extended_is_not_trivial : ~ extended (VObj [("limit", (VNum (NInt 1)))]) (VObj [("limit", (VNum (NInt 10)))]).
Proof.
  intros E. inversion E as [|? ? F|m m' F G]; subst. destruct (F "limit" (VNum (NInt 1)) eq_refl) as (w & W & X).
  injection W as <-. inversion X.
Qed.

(** A default stands for exactly the value written in its place. *)
Theorem C38_default_as_if_given : forall inputs parent arg ty d other r,
  d <> VNull -> (resolved inputs parent arg ty (Some d) None r <-> resolved inputs parent arg ty other (Some d) r).
Proof.
  intros inputs parent arg ty d other r N. split; intros (fuel & H); exists fuel.
  - rewrite <- (absent_takes_default inputs fuel parent arg ty d other N). exact H.
  - rewrite (absent_takes_default inputs fuel parent arg ty d other N). exact H.
Qed.
Print Assumptions C38_default_as_if_given.
Example default_as_if_given_met :
  resolved inputs38 "users" "page" (TNamed "Page" true) (Some (VObj [])) None (Some (VObj [("size", (VNum (NInt 25)))])).
Proof. exists 3. vm_compute. reflexivity. Qed.

(** Inside an input object, each field of its type is resolved like an argument of its
    own, and members the type does not know are passed on as they are. *)
Theorem C38_members_like_arguments : forall inputs parent arg ty default m m' def,
  names_distinct inputs -> inputs (type_name ty) = Some def ->
  resolved inputs parent arg ty default (Some (VObj m)) (Some (VObj m')) ->
  (forall k f, In (k, f) def ->
     resolved inputs (parent ++ "." ++ arg) k (if_type f) (if_default f) (aget k m) (aget k m')) /\
  (forall k, ~ In k (map fst def) -> aget k m' = aget k m).
Proof. intros inputs parent arg ty default m m' def D I (fuel & H). exact (members_resolved inputs D fuel _ _ _ _ _ _ _ I H). Qed.
Print Assumptions C38_members_like_arguments.

(** There is one outcome, and exactly the acceptable inputs have one: an argument is
    refused if and only if something non-null is missing (or its defaults never end). *)
Theorem C38_accepted_exactly : forall inputs parent arg ty default v,
  names_distinct inputs ->
  ((exists r, resolved inputs parent arg ty default v r) <-> accepted inputs ty default v) /\
  (forall r1 r2, resolved inputs parent arg ty default v r1 -> resolved inputs parent arg ty default v r2 -> r1 = r2).
Proof.
  intros inputs parent arg ty default v D. split.
  - exact (accepts_exactly inputs D parent arg ty default v).
  - exact (resolved_fun inputs parent arg ty default v).
Qed.
Print Assumptions C38_accepted_exactly.
Example refused38 : ~ accepted inputs38 (TNamed "Filter" true) None (Some (VObj [("limit", (VNum (NInt 1)))])).
Proof.
  intros A. apply (accepts_exactly inputs38 inputs38_distinct "users" "filter") in A as (r & n & H).
  assert (E : parse_arg inputs38 5 "users" "filter" (TNamed "Filter" true) None (Some (VObj [("limit", (VNum (NInt 1)))])) =
              Err (ArgumentIsRequired "name" "users.filter")) by (vm_compute; reflexivity).
  destruct (Nat.le_ge_cases n 5) as [L|L].
  - assert (X := parse_more inputs38 n 5 "users" "filter" (TNamed "Filter" true) None (Some (VObj [("limit", (VNum (NInt 1)))])) L).
    rewrite E, H in X. specialize (X ltac:(discriminate)). discriminate.
  - assert (X := parse_more inputs38 5 n "users" "filter" (TNamed "Filter" true) None (Some (VObj [("limit", (VNum (NInt 1)))])) L).
    rewrite E, H in X. specialize (X ltac:(discriminate)). discriminate.
Qed.

(** Completing an argument ends when the defaults of fields of input types are atoms. *)
Theorem C38_ends : forall inputs parent arg ty default v,
  names_distinct inputs -> flat_defaults inputs ->
  (inputs (type_name ty) <> None -> forall d, default = Some d -> flat d) ->
  exists fuel, parse_arg inputs fuel parent arg ty default v <> Err Endless.
Proof.
  intros inputs parent arg ty default v D F A. exists (S (odepth v)).
  apply (flat_ends inputs D F); [exact A|apply Nat.lt_succ_diag_r].
Qed.
Print Assumptions C38_ends.
Definition inputs38b (n : string) : option (list (string * input_field)) :=
  if String.eqb n "Tree" then
    Some [("left", {| if_type := TNamed "Tree" false; if_default := Some VNull |});
          ("right", {| if_type := TNamed "Tree" false; if_default := None |})]
  else None.
Example ends_met : names_distinct inputs38b /\ flat_defaults inputs38b.
Proof.
  split.
  - intros n def. unfold inputs38b. destruct (String.eqb n "Tree"); [|discriminate]. intros H; injection H as <-.
    vm_compute. repeat (constructor; [intros I; cbn in I; repeat (destruct I as [I|I]; [discriminate|]); exact I|]). constructor.
  - intros n def k f d. unfold inputs38b at 1. destruct (String.eqb n "Tree"); [|discriminate]. intros H; injection H as <-.
    intros [I|[I|[]]]; injection I as <- <-; intros E _; [|discriminate]. injection E as <-. split; discriminate.
Qed.

(** Variables are replaced by their values wherever they occur; a request is refused for
    a variable only if that variable is mentioned and has no value. *)
Theorem C38_variables_replaced : forall vars q,
  (forall v, resolve_value vars q = Ok v <-> instance vars q v) /\
  ((exists n, resolve_value vars q = Err (VariableIsNotFound n) /\ mentions n q /\ aget n vars = None) <->
   (exists n, mentions n q /\ aget n vars = None)).
Proof.
  intros vars q. split; [exact (resolve_sound vars q)|]. split.
  - intros (n & _ & H). exists n. exact H.
  - intros (n & M & A). destruct (mentions_missing vars q n M A) as (e & E).
    destruct (resolve_missing vars q e E) as (n' & -> & H). exists n'. exact (conj E H).
Qed.
Print Assumptions C38_variables_replaced.
Example variables_replaced_met :
  resolve_value [("id", (VNum (NInt 7)))] (QObj [("a", QList [QVar "id"; QNull])]) = Ok (VObj [("a", VList [(VNum (NInt 7)); VNull])]).
Proof. reflexivity. Qed.

(** All of this holds for every argument of every field of the request, at any depth. *)
Theorem C38_every_argument_of_the_request : forall inputs vars fuel sel out,
  resolve_input inputs vars fuel sel = Ok out -> Forall2 (ready inputs vars) sel out.
Proof. exact plan_ready. Qed.
Print Assumptions C38_every_argument_of_the_request.
Definition sel38 : list (rfield qvalue) :=
  [ RField "users" [ {| ra_name := "filter"; ra_type := TNamed "Filter" true; ra_value := Some (QObj [("name", QVar "n")]); ra_default := None |} ]
      [ RField "posts" [ {| ra_name := "page"; ra_type := TNamed "Page" false; ra_value := None; ra_default := Some (QObj []) |} ] [] ] ].
Example every_argument_met : resolve_input inputs38 [("n", VStr "x")] 5 sel38 = Ok
  [ RField "users" [ {| ra_name := "filter"; ra_type := TNamed "Filter" true;
        ra_value := Some (VObj [("name", VStr "x"); ("limit", (VNum (NInt 10))); ("page", VObj [("size", (VNum (NInt 25)))])]); ra_default := None |} ]
      [ RField "posts" [ {| ra_name := "page"; ra_type := TNamed "Page" false; ra_value := Some (VObj [("size", (VNum (NInt 25)))]); ra_default := Some (VObj []) |} ] [] ] ].
Proof. vm_compute. reflexivity. Qed.

(** Where the code departs from GraphQL. *)

(** A null default is passed to a non-null argument. *)
Theorem C38_null_default_refuted : exists inputs ty d,
  is_nullable ty = false /\ resolved inputs "user" "id" ty (Some d) None (Some VNull).
Proof. exists inputs38, (TNamed "Int" true), VNull. split; [reflexivity|]. exists 1. reflexivity. Qed.
Print Assumptions C38_null_default_refuted.

(** Items are checked against the type of their list: a list of nullable inputs with a
    null item is refused if the list itself is required, and a list of required inputs
    with a null item is accepted if the list is optional. *)
Theorem C38_list_items_refuted :
  (exists fuel, parse_arg inputs38 fuel "users" "or" (TList (TNamed "Filter" false) true) None (Some (VList [VNull]))
     = Err (ArgumentIsRequired "0" "users.or.0")) /\
  resolved inputs38 "users" "or" (TList (TNamed "Filter" true) false) None (Some (VList [VNull])) (Some (VList [VNull])).
Proof. split; exists 2; vm_compute; reflexivity. Qed.
Print Assumptions C38_list_items_refuted.

(** A default that contains its own type is completed for ever. *)
Definition loop38 (n : string) : option (list (string * input_field)) :=
  if String.eqb n "A" then Some [("a", {| if_type := TNamed "A" false; if_default := Some (VObj []) |})] else None.
Theorem C38_endless_default_refuted : forall fuel parent arg,
  parse_arg loop38 fuel parent arg (TNamed "A" false) None (Some (VObj [])) = Err Endless.
Proof.
  assert (X : forall fuel parent arg d v, choose parent arg (TNamed "A" false) d v = Ok (Some (VObj [])) ->
                parse_arg loop38 fuel parent arg (TNamed "A" false) d v = Err Endless).
  { induction fuel as [|fuel IH]; intros parent arg d v C; [reflexivity|]. cbn [parse_arg]. rewrite C.
    cbn [type_name loop38 String.eqb Ascii.eqb Bool.eqb parse_fields aget if_type if_default].
    rewrite IH by reflexivity. reflexivity. }
  intros fuel parent arg. now apply X.
Qed.
Print Assumptions C38_endless_default_refuted.

(** Leaving out an optional variable does not leave out the argument: the request fails. *)
Theorem C38_optional_variable_refuted : exists inputs n,
  resolve_input inputs [] 5 [RField "users" [ {| ra_name := "page"; ra_type := TNamed "Page" false; ra_value := Some (QVar n); ra_default := None |} ] []]
  = Err (VariableIsNotFound n) /\
  is_ok (resolve_input inputs [] 5 [RField "users" [ {| ra_name := "page"; ra_type := TNamed "Page" false; ra_value := None; ra_default := None |} ] []]) = true.
Proof. exists inputs38, "p". split; vm_compute; reflexivity. Qed.
Print Assumptions C38_optional_variable_refuted.
