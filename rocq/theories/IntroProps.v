(** C73: introspection. *)
From Coq Require Import String Ascii ZArith NArith Bool List.
From Verif Require Import Base JsonModel TypeModel CtxModel PlanModel BuilderModel IrModel OpModel ExecModel IntroModel IntroSpec IntroProofs BuilderProps ExecProps.
Import ListNotations.
Open Scope string_scope.
Open Scope list_scope.

(** Where introspection is switched off, and for operations that do not ask for it, what the library
    says of the schema does not matter: the answer is the operation's own. *)
Theorem C73_switched_off :
  forall E (enabled asks : bool) (before input : option E) own schema schema',
    enabled = false \/ asks = false ->
    execute enabled asks before input own schema = execute enabled asks before input own schema' /\
    (before = None -> input = None -> execute enabled asks before input own schema = own).
Proof.
  intros E enabled asks before input own schema schema' H.
  assert (X : enabled && asks = false) by (destruct H as [-> | ->]; [reflexivity|apply andb_false_r]).
  unfold execute. rewrite X. split; [reflexivity|]. intros -> ->. reflexivity.
Qed.
Print Assumptions C73_switched_off.

(** If a guard of the operation does not hold, or a variable has no value, nothing is said of the schema. *)
Theorem C73_guards_come_first :
  forall E (enabled asks : bool) (before input : option E) own schema e,
    before = Some e \/ (before = None /\ input = Some e) ->
    r_data (execute enabled asks before input own schema) = VNull /\
    r_errors (execute enabled asks before input own schema) = [e] /\
    r_extensions (execute enabled asks before input own schema) = [].
Proof. intros E enabled asks before input own schema e [->|[-> ->]]; auto. Qed.
Print Assumptions C73_guards_come_first.

(** Which operations ask: those with a field, outside all fragments, in whose name "__schema" or
    "__type" occurs. *)
Theorem C73_which_ask :
  forall o, is_introspection_query o = true <->
    exists alias name args ds sel before after,
      In (SField alias name args ds sel) (o_sel o) /\
      (name = (before ++ "__schema" ++ after)%string \/ name = (before ++ "__type" ++ after)%string).
Proof.
  intros o. unfold is_introspection_query. rewrite existsb_exists. split.
  - intros (s & I & H). destruct s as [alias name args ds sel|fr ds|c ds sel]; try discriminate. apply orb_true_iff in H.
    destruct H as [H|H]; apply contains_ok in H; destruct H as (a & b & E); exists alias, name, args, ds, sel, a, b; auto.
  - intros (alias & name & args & ds & sel & a & b & I & H). exists (SField alias name args ds sel). split; [exact I|].
    apply orb_true_iff. destruct H as [H|H]; [left|right]; apply contains_ok; exists a, b; exact H.
Qed.
Print Assumptions C73_which_ask.

(** Otherwise the answer holds all members of the operation's own, unchanged and first, then the
    members of the library's that it lacks; the errors and extensions are those of both. *)
Theorem C73_both_answers :
  forall E (own schema : response E) mine theirs,
    r_data own = VObj mine -> r_data schema = VObj theirs ->
    let answer := execute true true None None own schema in
    exists members rest, r_data answer = VObj members /\ joined mine theirs members /\
      members = mine ++ rest /\ (forall k v, In (k, v) rest -> In (k, v) theirs /\ ~ In k (map fst mine)) /\
      (forall k, aget k members = match aget k mine with Some v => Some v | None => aget k theirs end) /\
      r_errors answer = r_errors own ++ r_errors schema /\ r_extensions answer = r_extensions own ++ r_extensions schema.
Proof.
  intros E own schema mine theirs O T answer. assert (J : joined mine theirs (fold_left add_missing theirs mine)) by exact (add_joined mine theirs [] mine (joined_none mine)).
  destruct (joined_first _ _ _ J) as (rest & El & R). exists (fold_left add_missing theirs mine), rest.
  split; [cbn; unfold merge_data; now rewrite O, T|]. split; [exact J|]. split; [exact El|]. split; [exact R|].
  split; [exact (joined_get _ _ _ J)|]. split; reflexivity.
Qed.
Print Assumptions C73_both_answers.

(** If the library refuses to say anything, the operation's own members are what remains. *)
Theorem C73_nothing_said :
  forall E (own schema : response E), (forall theirs, r_data schema <> VObj theirs) ->
    r_data (execute true true None None own schema) = r_data own /\
    r_errors (execute true true None None own schema) = r_errors own ++ r_errors schema.
Proof. intros E own schema H. split; [|reflexivity]. cbn. unfold merge_data. destruct (r_data schema) eqn:D; try reflexivity. exfalso. eapply H. reflexivity. Qed.
Print Assumptions C73_nothing_said.

(** What an operation asks of the schema, with a field of its own outside all fragments, is answered
    as the library answers it: nothing of the same name takes its place.  Missing: the fields within
    fragments (see below), and that the library's answer, which is not modelled, is right. *)
Theorem C73_questions_are_answered_partial :
  forall IR E (ix : index IR) fuel d name o root ty fs s k (own schema : response E) mine theirs v,
    get_operation d name = Ok o -> build fuel ix d name = Some (Ok (root, ty, fs)) ->
    get_field ix root "__schema" = None -> get_field ix root "__type" = None ->
    about_schema s -> first_shown (o_sel o) k s ->
    r_data own = VObj mine -> (forall x, In x (map fst mine) -> exists f, In f fs /\ b_output f = x) ->
    r_data schema = VObj theirs -> aget k theirs = Some v ->
    exists members, r_data (execute true (is_introspection_query o) None None own schema) = VObj members /\
      aget k members = Some v /\ forall k' v', aget k' mine = Some v' -> aget k' members = Some v'.
Proof.
  intros IR E ix fuel d name o root ty fs s k own schema mine theirs v Go Bu G1 G2 A F O M T V.
  assert (Q : is_introspection_query o = true).
  { apply C73_which_ask. destruct F as (b & a & El & _). destruct s as [alias n args ds sel|fr ds|c ds sel]; try contradiction.
    exists alias, n, args, ds, sel, "", "". split; [rewrite El; apply in_app_iff; right; now left|]. destruct A as [-> | ->]; auto. }
  rewrite Q. destruct (C73_both_answers E own schema mine theirs O T) as (members & rest & D & _ & _ & _ & Get & _).
  exists members. split; [exact D|]. split.
  - rewrite Get. destruct (aget k mine) as [x|] eqn:X; [|exact V]. exfalso.
    assert (I : In k (map fst mine)) by (apply BaseFacts.aget_In in X; apply in_map_iff; exists (k, x); auto).
    destruct (M k I) as (f & If & Ef). revert Ef. eapply build_lacks; eauto. intros n [-> | ->]; assumption.
  - intros k' v' H. rewrite Get, H. reflexivity.
Qed.
Print Assumptions C73_questions_are_answered_partial.

(** *** Operations to try *)
Definition doc73 : document := doc43 [leaf "user"; SField (Some "s") "__schema" [] [] [leaf "queryType"]; leaf "s"] [].
Definition own73 : response string := {| r_data := VObj [("user", VStr "ann")]; r_errors := ["mine"]; r_extensions := [] |}.
Definition schema73 : response string :=
  {| r_data := VObj [("user", VNull); ("s", VStr "Query")]; r_errors := ["theirs"]; r_extensions := [] |}.
Example C73_example_result :
  execute true true None None own73 schema73 =
  {| r_data := VObj [("user", VStr "ann"); ("s", VStr "Query")]; r_errors := ["mine"; "theirs"]; r_extensions := [] |}.
Proof. reflexivity. Qed.
Example C73_example_applies :
  exists o ty fs, get_operation doc73 None = Ok o /\ build 9 ix43 doc73 None = Some (Ok ("Query", ty, fs)) /\
    map b_output fs = ["user"] /\ get_field ix43 "Query" "__schema" = None /\ get_field ix43 "Query" "__type" = None /\
    about_schema (SField (Some "s") "__schema" [] [] [leaf "queryType"]) /\
    first_shown (o_sel o) "s" (SField (Some "s") "__schema" [] [] [leaf "queryType"]).
Proof.
  eexists _, _, _. split; [reflexivity|]. split; [reflexivity|]. repeat split; try reflexivity; [left; reflexivity|].
  exists [leaf "user"], [leaf "s"]. split; [reflexivity|]. split; [reflexivity|]. intros x [<-|[]]. discriminate.
Qed.

(** A question within a fragment is not answered: neither a member nor an error comes back. *)
Theorem C73_in_a_fragment_refuted :
  exists d o ty fs,
    get_operation d None = Ok o /\ build 9 ix43 d None = Some (Ok ("Query", ty, fs)) /\ fs = [] /\
    (exists c ds, In (SInline c ds [leaf "__schema"]) (o_sel o)) /\
    forall E (own schema : response E), execute true (is_introspection_query o) None None own schema = own.
Proof.
  exists (doc43 [SInline None [] [leaf "__schema"]] []). eexists _, _, _. split; [reflexivity|]. split; [reflexivity|].
  split; [reflexivity|]. split; [exists None, []; left; reflexivity|]. intros E own schema. reflexivity.
Qed.
Print Assumptions C73_in_a_fragment_refuted.

(** An operation of which a required root field failed, so that its answer is to be null, is given
    the members about the schema all the same. *)
Theorem C73_failed_is_null_refuted :
  exists (own schema : response string),
    r_data own = VNull /\ r_errors own <> [] /\
    r_data (execute true true None None own schema) = VObj [("__schema", VStr "Query")].
Proof.
  exists (failed ["no user"]), {| r_data := VObj [("__schema", VStr "Query")]; r_errors := []; r_extensions := [] |}.
  repeat split. discriminate.
Qed.
Print Assumptions C73_failed_is_null_refuted.

(** Asking for a type by a variable, beside a constant field: the fields of the plan are constant, so
    the answer is kept by the text.  The next to ask, for another type, is told of the first. *)
Definition text73 : string := "query($n:String!){hello __type(name:$n){name}}".
Definition op73 : operation := {| o_ty := OQuery; o_sel := [leaf "hello"; SField None "__type" [("name", QVar "n")] [] [leaf "name"]] |}.
Definition create73 (text : string) (name : option string) : result (plan string) string :=
  match build 9 (IR := ir string) {| ix_map := [("Query", (DObject [], [("hello", QField (TNamed "String" false) (Some (word "world")) [])]))]; ix_query := "Query"; ix_mutation := None |}
          {| d_operations := Single op73; d_fragments := [] |} name with
  | Some (Ok (root, _, fs)) => Ok (finish_plan (fun _ : string => false) root true (map plan_field fs))
  | _ => Err "syntax error"
  end.
Definition told73 (m : member) : response string :=
  {| r_data := VObj [("__type", match aget "n" (q_vars (request_of m)) with Some n => VObj [("name", n)] | None => VNull end)];
     r_errors := []; r_extensions := [] |}.
Definition respond73 (p : plan string) (m : member) (w : unit) : response string :=
  execute true (is_introspection_query op73) None None {| r_data := VObj [("hello", VStr "world")]; r_errors := []; r_extensions := [] |} (told73 m).
Definition ops73 (i : nat) : member :=
  one07 [] (req07 text73 None [("n", VStr (match i with 0%nat => "User" | _ => "Node" end))]).
Definition type73 (n : string) : response string :=
  {| r_data := VObj [("hello", VStr "world"); ("__type", VObj [("name", VStr n)])]; r_errors := []; r_extensions := [] |}.
Theorem C73_type_by_variable_refuted :
  exists s, steps hash07 body07 create73 respond73 (fun e => failed [e]) ops73 start (whole 0 ++ [ReadConst 1]) = Some s /\
    answer s 0 = Some (type73 "User") /\ answer s 1 = Some (type73 "User") /\
    forall p w, respond73 p (ops73 1) w = type73 "Node".
Proof.
  apply ends_with. match goal with |- match ?x with _ => _ end => let y := eval vm_compute in x in change x with y end.
  split; [reflexivity|]. split; [reflexivity|]. intros p w. reflexivity.
Qed.
Print Assumptions C73_type_by_variable_refuted.
