(** Property C52: what the expressions of a template stand for. *)
From Coq Require Import String Ascii ZArith NArith Bool List.
From Verif Require Import Base JsonModel JsonSpec CtxModel CtxSpec CtxProofs.
Import ListNotations.
Open Scope string_scope.
Open Scope list_scope.

(** Whatever is put into a template is what the expression stands for. *)
Theorem C52_only_what_it_stands_for : forall rx c p s,
  path_string rx c p = Some s -> stands_for rx c p s.
Proof. exact path_string_sound. Qed.
Print Assumptions C52_only_what_it_stands_for.

(** And it is put there.  Enumeration values are left out if the parent value or the
    arguments were replaced on the way, see [C52_enums_get_lost_refuted]. *)
Theorem C52_everything_it_stands_for_partial : forall rx c p s,
  stands_for rx c p s ->
  (forall n, denotes c p (VEnum n) -> c_over_value c = None /\ c_over_args c = None) ->
  path_string rx c p = Some s.
Proof. exact path_string_complete. Qed.
Print Assumptions C52_everything_it_stands_for_partial.

(** In a GraphQL document, for expressions of at least two names. *)
Theorem C52_graphql_expressions : forall rx c p s, 2 <= length p ->
  path_graphql rx c p = Some s <-> graphql_for rx c p s.
Proof. exact path_graphql_spec. Qed.
Print Assumptions C52_graphql_expressions.

Definition rx52 : req_ext :=
  {| x_header := fun n => if String.eqb n "x-user" then Some "Ann" else None;
     x_var := fun n => if String.eqb n "region" then Some "eu" else None;
     x_env := fun n => if String.eqb n "HOME" then Some "/root" else None;
     x_vars_json := "{""region"":""eu""}";
     x_json_text := fun v => match v with VNum (NInt z) => Z_to_string z | VList _ => "[..]" | _ => "{..}" end;
     x_graphql_text := fun v => match v with VStr s => ("""" ++ s ++ """")%string | _ => "?" end; x_parse := fun _ => None |}.
Definition ctx52 (over : option value) : ctx :=
  {| c_value := Some (VObj [("id", VNum (NInt 7)); ("tags", VList [VStr "a"; VEnum "B"])]);
     c_args := Some [("kind", VEnum "BIG"); ("flag", VBool false); ("user", VObj [("name", VStr "Ann")])];
     c_over_value := None; c_over_args := over; c_is_query := true |}.
Definition all52 (over : option value) : list (option string) :=
  map (path_string rx52 (ctx52 over))
    [["value"; "tags"; "1"]; ["args"; "user"; "name"]; ["args"; "flag"]; ["args"; "kind"]; ["headers"; "x-user"];
     ["vars"; "region"]; ["env"; "HOME"]; ["vars"]; ["value"; "tags"]; ["args"; "none"]; ["what"; "is"; "this"]].
Example C52_witness :
  all52 None = [Some "B"; Some "Ann"; Some "false"; Some "BIG"; Some "Ann"; Some "eu"; Some "/root";
                Some "{""region"":""eu""}"; Some "[..]"; None; None] /\
  path_graphql rx52 (ctx52 None) ["args"; "user"; "name"] = Some """Ann""" /\
  stands_for rx52 (ctx52 None) ["value"; "tags"; "1"] "B" /\
  (forall n, denotes (ctx52 None) ["value"; "tags"; "1"] (VEnum n) ->
     c_over_value (ctx52 None) = None /\ c_over_args (ctx52 None) = None).
Proof.
  split; [reflexivity|]. split; [reflexivity|]. split; [apply path_string_sound; reflexivity|].
  intros n _. split; reflexivity.
Qed.

(** Finding: an enumeration value passed on as an argument to another resolver (@call, @expr
    around it) renders as nothing. *)
Theorem C52_enums_get_lost_refuted : exists rx c p s,
  stands_for rx c p s /\ path_string rx c p = None.
Proof.
  exists rx52, (ctx52 (Some (VObj [("kind", VEnum "BIG")]))), ["args"; "kind"], "BIG". split; [|reflexivity].
  apply (stands_value rx52 _ _ (VEnum "BIG")); [|constructor].
  apply (denotes_args _ _ (VObj [("kind", VEnum "BIG")])); [now constructor|].
  eapply reaches_key; [reflexivity|constructor].
Qed.
Print Assumptions C52_enums_get_lost_refuted.
