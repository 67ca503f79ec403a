(** C01-C04 and C46: which fields are answered, with what, and under every
    schedule of the resolvers. *)
From Coq Require Import String Ascii ZArith NArith Bool Arith List Permutation.
From Verif Require Import Base JsonModel TypeModel DiscModel PlanModel PlanSpec PlanProofs SynthProofs.
Import ListNotations.
Open Scope string_scope.
Open Scope list_scope.

(** ** A plan used by the examples *)

(** [query { me { id name } posts { __typename title author { name } } }] *)
Definition leaf (i : nat) (n : string) (ir : option string) (nn : bool) : pfield string :=
  PField i n n ir (TNamed "String" nn) None None None false (Some "Empty") [].

Definition plan01 : list (pfield string) :=
  [ PField 0 "me" "me" (Some "http") (TNamed "User" true) None None (Some "withMe") false None
      [leaf 1 "id" None true; leaf 2 "name" None false];
    PField 3 "posts" "posts" (Some "http") (TList (TNamed "Post" true) false) None (Some "noPosts") None false None
      [ leaf 4 "__typename" None true;
        leaf 5 "title" None true;
        PField 6 "author" "by" (Some "http") (TNamed "User" false) None None None false None
          [leaf 7 "name" None true] ] ].

Definition resolve01 (f : pfield string) (parent : option value) : result value string :=
  match p_name f, parent with
  | "me", _ => Ok (VObj [("id", VStr "1"); ("name", VNull); ("secret", VStr "x")])
  | "posts", _ => Ok (VList [VObj [("title", VStr "a"); ("userId", VStr "7")];
                             VObj [("title", VStr "b"); ("userId", VStr "8")]])
  | "author", Some (VObj m) =>
      match aget "userId" m with
      | Some (VStr u) => Ok (VObj [("name", VStr ("user " ++ u)%string)])
      | _ => Err "no user"
      end
  | _, _ => Err "unknown"
  end.

Definition run01 (vars : variables) :=
  run (fun a b => String.eqb a b) resolve01 "missing" (fun _ _ => true) (fun _ _ => true) "Query" vars plan01.

Example run01_all :
  snd (run01 []) =
  Ok (VObj [("me", VObj [("id", VStr "1"); ("name", VNull)]);
            ("posts", VList [VObj [("__typename", VStr "Post"); ("title", VStr "a");
                                   ("by", VObj [("name", VStr "user 7")])];
                             VObj [("__typename", VStr "Post"); ("title", VStr "b");
                                   ("by", VObj [("name", VStr "user 8")])]])]).
Proof. vm_compute. reflexivity. Qed.

Lemma plan01_ids : NoDup (plan_ids plan01).
Proof. vm_compute. repeat (constructor; [simpl; intuition discriminate|]). constructor. Qed.

Lemma plan01_one : Forall OneDirective plan01.
Proof. repeat (constructor; simpl; auto). Qed.

Lemma plan01_unaliased : Forall Unaliased plan01.
Proof.
  repeat (apply Forall_cons || apply Forall_nil || (apply unaliased; [intros; simpl; auto|simpl]));
    try discriminate.
Qed.

(** ** C01: @skip and @include *)

(** A field is answered exactly when it is requested, unless a [@skip] on a
    variable meets an [@include] that is not constantly true. *)
Theorem C01_directives_decide_partial :
  forall (vars : variables) (skip include : condition),
    (forall a, skip = CVar a -> include = CTrue) ->
    (answered vars skip include = true <-> Requested vars skip include).
Proof. exact answered_simple. Qed.
Print Assumptions C01_directives_decide_partial.

Example C01_directives_witness :
  (forall a, CFalse = CVar a -> CVar "i" = CTrue) /\
  answered [("i", VBool false)] CFalse (CVar "i") = false /\
  answered [("i", VBool true)] CFalse (CVar "i") = true.
Proof. split; [discriminate|split; reflexivity]. Qed.

(** The exact decision for all pairs of conditions: what is requested, plus two
    families of fields that are answered although they are excluded. *)
Theorem C01_exact_decision :
  forall (vars : variables) (skip include : condition),
    answered vars skip include = true <->
    Requested vars skip include \/
    ((exists a, skip = CVar a) /\
     ((CondIs vars skip true /\ (exists b, include = CVar b) /\ CondIs vars include false) \/
      (~ CondIs vars skip true /\ include = CFalse))).
Proof. exact answered_exact. Qed.
Print Assumptions C01_exact_decision.

(** [@skip(if: $s) @include(if: $i)] with s = true, i = false is answered. *)
Theorem C01_skip_and_include_refuted :
  exists vars a b,
    CondIs vars (CVar a) true /\ CondIs vars (CVar b) false /\ answered vars (CVar a) (CVar b) = true.
Proof. exists [("s", VBool true); ("i", VBool false)], "s", "i". repeat split. Qed.
Print Assumptions C01_skip_and_include_refuted.

(** [@skip(if: $s) @include(if: false)] with s = false is answered. *)
Theorem C01_include_false_refuted :
  exists vars a, CondIs vars (CVar a) false /\ answered vars (CVar a) CFalse = true.
Proof. exists [("s", VBool false)], "s". repeat split. Qed.
Print Assumptions C01_include_false_refuted.

(** At every depth the plan that is executed is the one asked for without the
    unwanted fields and their sub-selections. *)
Theorem C01_unwanted_fields_are_pruned :
  forall {IR} (vars : variables) (l : list (pfield IR)),
    Forall OneDirective l -> Pruned vars l (skip_fields vars l).
Proof. exact @skip_fields_pruned. Qed.
Print Assumptions C01_unwanted_fields_are_pruned.

Example C01_pruned_witness :
  Forall OneDirective plan01 /\
  map p_name (skip_fields [("noPosts", VBool true)] plan01) = ["me"] /\
  map p_name (skip_fields [("withMe", VBool false)] plan01) = ["posts"].
Proof. split; [exact plan01_one|split; reflexivity]. Qed.

(** Whatever the executor evaluates or stores belongs to a field that survived,
    and every surviving root resolver is evaluated. *)
Theorem C01_only_wanted_resolvers_run :
  forall {IR E} implements (resolve : pfield IR -> option value -> result value E) missing
         validate enum_value root vars (sel : list (pfield IR)) ev,
    In ev (fst (run implements resolve missing validate enum_value root vars sel)) ->
    exists f g, In f (skip_fields vars sel) /\ Within g f /\ p_ir g <> None /\ event_id ev = p_id g.
Proof. intros IR E i r m v e root vars sel ev. exact (exec_all_event_field i r m (skip_fields vars sel) ev). Qed.
Print Assumptions C01_only_wanted_resolvers_run.

Theorem C01_wanted_root_resolvers_run :
  forall {IR E} implements (resolve : pfield IR -> option value -> result value E) missing
         validate enum_value root vars (sel : list (pfield IR)) f,
    In f (skip_fields vars sel) -> p_ir f <> None ->
    In (Called (p_id f) None) (fst (run implements resolve missing validate enum_value root vars sel)).
Proof. intros IR E i r m v e root vars sel f. exact (exec_all_root_called i r m (skip_fields vars sel) f). Qed.
Print Assumptions C01_wanted_root_resolvers_run.

Example C01_run_witness :
  snd (run01 [("noPosts", VBool true)]) = Ok (VObj [("me", VObj [("id", VStr "1"); ("name", VNull)])]) /\
  map event_id (fst (run01 [("noPosts", VBool true)])) = [0; 0]%nat.
Proof. split; vm_compute; reflexivity. Qed.

(** ** C02: nullability *)

(** The response carries no null in a field of a non-null named type, at any
    depth or list index, and synthesis never panics; provided fields without
    resolver but with resolvers below them are not renamed by an alias. *)
Theorem C02_no_null_where_forbidden_partial :
  forall {IR E} implements (resolve : pfield IR -> option value -> result value E) missing
         validate enum_value vars root (sel : list (pfield IR)),
    NoDup (plan_ids sel) -> Forall Unaliased sel ->
    match snd (run implements resolve missing validate enum_value root vars sel) with
    | Ok data => exists m, data = VObj m /\ Forall (CleanEntry (skip_fields vars sel)) m
    | Err e => e <> EPanic
    end.
Proof. exact @run_fine. Qed.
Print Assumptions C02_no_null_where_forbidden_partial.

Example C02_witness :
  NoDup (plan_ids plan01) /\ Forall Unaliased plan01 /\ is_ok (snd (run01 [])) = true.
Proof. split; [exact plan01_ids|split; [exact plan01_unaliased|reflexivity]]. Qed.

(** A root resolver answering null for a non-null named type makes the whole
    response an error. *)
Theorem C02_null_from_resolver_is_an_error :
  forall {IR E} implements (resolve : pfield IR -> option value -> result value E) missing
         validate enum_value vars root (sel : list (pfield IR)) c n,
    NoDup (plan_ids sel) -> In c sel -> field_skip vars c = false ->
    p_ir c <> None -> p_type c = TNamed n true -> resolve c None = Ok VNull ->
    exists e, synthesize implements validate enum_value vars
                (store_of (exec_all implements resolve missing sel)) root sel = Err e.
Proof.
  intros IR E i r m v e vars root sel c n ND C K Q T R.
  exact (root_null_error i r m v e vars root sel c n ND C K Q T R sel [] [] C).
Qed.
Print Assumptions C02_null_from_resolver_is_an_error.

Definition null_plan02 : list (pfield string) :=
  [PField 0 "me" "me" (Some "http") (TNamed "User" true) None None None false None [leaf 1 "id" None true]].

Example C02_null_witness :
  NoDup (plan_ids null_plan02) /\
  snd (run (E := string) (fun _ _ => true) (fun _ _ => Ok VNull) "missing" (fun _ _ => true) (fun _ _ => true)
           "Query" [] null_plan02) = Err (ERequired 0 [SField "me"]).
Proof. split; [repeat (constructor; [simpl; intuition discriminate|]); constructor|reflexivity]. Qed.

(** [query { data { people: users { name } } }], [users] without resolver,
    [name: String!] with one: the executor looks for the users under the alias. *)
Definition alias_plan : list (pfield string) :=
  [PField 0 "data" "data" (Some "http") (TNamed "Data" true) None None None false None
     [PField 1 "users" "people" None (TList (TNamed "User" true) true) None None None false None
        [leaf 2 "name" (Some "http") true]]].

Definition alias_resolve (upstream : value) (f : pfield string) (parent : option value) : result value string :=
  if String.eqb (p_name f) "data" then Ok upstream else Ok (VStr "bob").

Definition two_users : list value := [VObj [("id", VStr "1")]; VObj [("id", VStr "2")]].

Theorem C02_alias_leaks_null_refuted :
  exists (sel : list (pfield string)) (resolve : pfield string -> option value -> result value string) f,
    NoDup (plan_ids sel) /\
    p_output f = "name" /\ p_type f = TNamed "String" true /\
    (forall g, In g sel -> Within f g) /\
    (forall parent, resolve f parent = Ok (VStr "bob")) /\
    snd (run (fun _ _ => true) resolve "missing" (fun _ _ => true) (fun _ _ => true) "Query" [] sel)
    = Ok (VObj [("data", VObj [("people", VList [VObj [("name", VNull)]; VObj [("name", VNull)]])])]).
Proof.
  exists alias_plan, (alias_resolve (VObj [("users", VList two_users)])), (leaf 2 "name" (Some "http") true).
  split; [repeat (constructor; [simpl; intuition discriminate|]); constructor|].
  split; [reflexivity|]. split; [reflexivity|]. split.
  - intros g [<-|[]]. eapply within_below; [left; reflexivity|]. eapply within_below; [left; reflexivity|]. constructor.
  - split; [intros; reflexivity|]. vm_compute. reflexivity.
Qed.
Print Assumptions C02_alias_leaks_null_refuted.

(** With an upstream key of the alias's name holding a shorter list, the
    synthesizer indexes out of bounds. *)
Theorem C02_alias_panics_refuted :
  exists (sel : list (pfield string)) (resolve : pfield string -> option value -> result value string),
    NoDup (plan_ids sel) /\
    snd (run (fun _ _ => true) resolve "missing" (fun _ _ => true) (fun _ _ => true) "Query" [] sel) = Err EPanic.
Proof.
  exists alias_plan,
    (alias_resolve (VObj [("users", VList two_users); ("people", VList [VObj [("id", VStr "9")]])])).
  split; [repeat (constructor; [simpl; intuition discriminate|]); constructor|]. vm_compute. reflexivity.
Qed.
Print Assumptions C02_alias_panics_refuted.

(** List wrappers are not enforced: null is answered for a field of type
    [[User]!] without resolver, and inside a [[Int!]]. *)
Theorem C02_list_nullability_refuted :
  exists (sel : list (pfield string)) (resolve : pfield string -> option value -> result value string),
    NoDup (plan_ids sel) /\ Forall Unaliased sel /\
    (exists f g, In f sel /\ In g (p_selection f) /\ p_output g = "users"
                 /\ p_type g = TList (TNamed "User" false) true) /\
    (exists f g, In f sel /\ In g (p_selection f) /\ p_output g = "ids"
                 /\ p_type g = TList (TNamed "Int" true) true) /\
    snd (run (fun _ _ => true) resolve "missing" (fun _ _ => true) (fun _ _ => true) "Query" [] sel)
    = Ok (VObj [("data", VObj [("users", VNull); ("ids", VList [VNull])])]).
Proof.
  exists [PField 0 "data" "data" (Some "http") (TNamed "Data" true) None None None false None
            [PField 1 "users" "users" None (TList (TNamed "User" false) true) None None None false None
               [leaf 2 "name" None true];
             PField 3 "ids" "ids" None (TList (TNamed "Int" true) true) None None None false (Some "Empty") []]],
    (fun _ _ => Ok (VObj [("users", VNull); ("ids", VList [VNull])])).
  split; [repeat (constructor; [simpl; intuition discriminate|]); constructor|].
  split; [repeat (apply Forall_cons || apply Forall_nil || (apply unaliased; [intros; simpl; auto|simpl]))|].
  split; [do 2 eexists; split; [left; reflexivity|split; [left; reflexivity|split; reflexivity]]|].
  split; [do 2 eexists; split; [left; reflexivity|split; [right; left; reflexivity|split; reflexivity]]|].
  vm_compute. reflexivity.
Qed.
Print Assumptions C02_list_nullability_refuted.

(** ** C03: exactly the selected fields *)

(** For every plan and every store, the data of a response is an object whose
    members are, in query order, the answers of the fields not skipped. *)
Theorem C03_response_members :
  forall {IR E} implements validate enum_value vars (st : nat -> option (result value E))
         root (l : list (pfield IR)) m,
    synthesize implements validate enum_value vars st root l = Ok (VObj m) ->
    NoDup (map p_output (filter (fun c => negb (field_skip vars c)) l)) ->
    Forall2 (fun c kv => fst kv = p_output c /\ RootAnswer implements validate enum_value vars st root c (snd kv))
            (filter (fun c => negb (field_skip vars c)) l) m.
Proof. exact @synthesize_root. Qed.
Print Assumptions C03_response_members.

Theorem C03_response_is_an_object :
  forall {IR E} implements validate enum_value vars (st : nat -> option (result value E))
         root (l : list (pfield IR)) out,
    synthesize implements validate enum_value vars st root l = Ok out -> exists m, out = VObj m.
Proof. exact @synthesize_object. Qed.
Print Assumptions C03_response_is_an_object.

(** The names of the members of any answered object (see [Answer]). *)
Theorem C03_object_names :
  forall {IR E} implements validate enum_value vars (st : nat -> option (result value E)) (node : pfield IR) obj dp l m,
    Members implements validate enum_value vars st node obj dp l m ->
    map fst m = map p_output (filter (fun c => part_of_value implements c obj && negb (field_skip vars c)) l).
Proof. exact @members_names. Qed.
Print Assumptions C03_object_names.

Example C03_witness :
  NoDup (map p_output (filter (fun c => negb (field_skip [] c)) plan01)) /\
  exists m, snd (run01 []) = Ok (VObj m) /\ map fst m = ["me"; "posts"].
Proof.
  split; [repeat (constructor; [simpl; intuition discriminate|]); constructor|].
  eexists. split; [vm_compute; reflexivity|reflexivity].
Qed.

(** Non-vacuity of [Members]: unselected upstream keys are dropped. *)
Example C03_members_witness :
  Members (E := string) (fun _ _ => true) (fun _ _ => true) (fun _ _ => true) [] (fun _ => None) (hd (leaf 0 "" None true) plan01)
    (VObj [("secret", VStr "x"); ("id", VStr "1")]) []
    [leaf 1 "id" None true; leaf 2 "name" None false] [("id", VStr "1"); ("name", VNull)].
Proof.
  eapply mem_field.
  - intros ? ? Q. discriminate.
  - reflexivity.
  - discriminate.
  - apply src_key; reflexivity.
  - apply an_leaf; [left; discriminate|discriminate|reflexivity].
  - apply mem_null; [intros ? ? Q; discriminate|reflexivity|discriminate|now apply miss_key|constructor].
Qed.

(** ** C04: completion order *)

(** Every schedule leaves the same results in the store. *)
Theorem C04_schedule_independent :
  forall {IR E} implements (resolve : pfield IR -> option value -> result value E) missing
         (l : list (pfield IR)) t1 t2 i,
    NoDup (plan_ids l) ->
    RunsAll implements resolve missing l None t1 -> RunsAll implements resolve missing l None t2 ->
    store_of t1 i = store_of t2 i.
Proof. exact @schedules_agree. Qed.
Print Assumptions C04_schedule_independent.

(** Hence every schedule gives the response of the sequential one. *)
Theorem C04_same_response :
  forall {IR E} implements (resolve : pfield IR -> option value -> result value E) missing
         validate enum_value vars root (l : list (pfield IR)) t,
    NoDup (plan_ids l) -> RunsAll implements resolve missing l None t ->
    synthesize implements validate enum_value vars (store_of t) root l
    = synthesize implements validate enum_value vars
        (store_of (exec_all implements resolve missing l)) root l.
Proof.
  intros IR E i r m v e vars root l t ND R.
  exact (synthesize_ext i v e vars _ _ root l (fun j => schedule_independent i r m l t j ND R)).
Qed.
Print Assumptions C04_same_response.

(** And evaluates the same resolvers on the same parents. *)
Theorem C04_same_evaluations :
  forall {IR E} implements (resolve : pfield IR -> option value -> result value E) missing
         (l : list (pfield IR)) ctx t1 t2,
    RunsAll implements resolve missing l ctx t1 -> RunsAll implements resolve missing l ctx t2 ->
    Permutation t1 t2.
Proof. exact @schedules_same_events. Qed.
Print Assumptions C04_same_evaluations.

(** Non-vacuity: two different schedules of one plan. *)
Definition plan04 : list (pfield string) := [leaf 0 "a" (Some "x") false; leaf 1 "b" (Some "x") false].
Definition resolve04 (f : pfield string) (_ : option value) : result value string := Ok (VStr (p_name f)).

Example C04_witness :
  NoDup (plan_ids plan04) /\
  exists t1 t2, t1 <> t2 /\
    RunsAll (fun _ _ => true) resolve04 "" plan04 None t1 /\
    RunsAll (fun _ _ => true) resolve04 "" plan04 None t2.
Proof.
  split; [repeat (constructor; [simpl; intuition discriminate|]); constructor|].
  exists [Called 0 None; Wrote 0 (Ok (VStr "a")); Called 1 None; Wrote 1 (Ok (VStr "b"))],
         [Called 1 None; Called 0 None; Wrote 1 (Ok (VStr "b")); Wrote 0 (Ok (VStr "a"))].
  split; [discriminate|].
  assert (Ra : Runs (fun _ _ => true) resolve04 "" (leaf 0 "a" (Some "x") false) None
                 ([Called 0 None] ++ [] ++ [Wrote 0 (Ok (VStr "a"))])).
  { apply (runs_ok _ _ _ (leaf 0 "a" (Some "x") false)); try discriminate; try reflexivity. constructor. }
  assert (Rb : Runs (fun _ _ => true) resolve04 "" (leaf 1 "b" (Some "x") false) None
                 ([Called 1 None] ++ [] ++ [Wrote 1 (Ok (VStr "b"))])).
  { apply (runs_ok _ _ _ (leaf 1 "b" (Some "x") false)); try discriminate; try reflexivity. constructor. }
  split; (eapply runs_cons; [exact Ra|eapply runs_cons; [exact Rb|apply runs_nil|]|]).
  - simpl. repeat constructor.
  - simpl. repeat constructor.
  - simpl. repeat constructor.
  - simpl. apply il_right. apply il_left. apply il_right. apply il_left. constructor.
Qed.

(** ** C46: error locations *)

(** When resolvers return lists exactly for list-typed fields, the path of a
    validation error leads to the field that failed. *)
Theorem C46_error_path_locates_field_partial :
  forall {IR E} implements (resolve : pfield IR -> option value -> result value E) missing
         validate enum_value vars root (sel : list (pfield IR)) e i path,
    (forall c v x, resolve c v = Ok x -> is_array x = is_list (p_type c)) ->
    NoDup (plan_ids sel) -> Forall Unaliased sel ->
    snd (run implements resolve missing validate enum_value root vars sel) = Err e ->
    error_location e = Some (i, path) ->
    exists c suffix, In c (skip_fields vars sel) /\ path = SField (p_output c) :: suffix /\
                     Locates c suffix i.
Proof. exact @run_located. Qed.
Print Assumptions C46_error_path_locates_field_partial.

Definition plan46 : list (pfield string) :=
  [PField 0 "posts" "posts" (Some "http") (TList (TNamed "Post" true) true) None None None false None
     [leaf 1 "title" None true];
   PField 2 "me" "me" (Some "http") (TNamed "User" true) None None None false None [leaf 3 "id" None true]].

Example C46_witness :
  NoDup (plan_ids plan46) /\ Forall Unaliased plan46 /\
  snd (run (E := string) (fun _ _ => true)
         (fun f _ => if is_list (p_type f) then Ok (VList [VObj [("title", VStr "t")]; VObj []])
                     else Ok (VObj [])) "missing"
         (fun _ _ => true) (fun _ _ => true) "Query" [] plan46)
  = Err (ERequired 1 [SField "posts"; SIndex 1; SField "title"]).
Proof.
  split; [repeat (constructor; [simpl; intuition discriminate|]); constructor|].
  split; [repeat (apply Forall_cons || apply Forall_nil || (apply unaliased; [intros; simpl; auto|simpl]))|].
  vm_compute. reflexivity.
Qed.

(** A nullable list resolved to null earlier in the query corrupts the path of
    an unrelated later error. *)
Theorem C46_path_of_another_field_refuted :
  exists (sel : list (pfield string)) (resolve : pfield string -> option value -> result value string),
    NoDup (plan_ids sel) /\ Forall Unaliased sel /\
    (exists f g, In f sel /\ p_output f = "me" /\ In g (p_selection f) /\ p_output g = "id" /\ p_id g = 3%nat) /\
    snd (run (fun _ _ => true) resolve "missing" (fun _ _ => true) (fun _ _ => true) "Query" [] sel)
    = Err (ERequired 3 [SField "posts"; SField "me"; SField "id"]).
Proof.
  exists [PField 0 "posts" "posts" (Some "http") (TList (TNamed "Post" true) false) None None None false None
            [leaf 1 "title" None true];
          PField 2 "me" "me" (Some "http") (TNamed "User" true) None None None false None [leaf 3 "id" None true]],
    (fun f _ => if is_list (p_type f) then Ok VNull else Ok (VObj [])).
  split; [repeat (constructor; [simpl; intuition discriminate|]); constructor|].
  split; [repeat (apply Forall_cons || apply Forall_nil || (apply unaliased; [intros; simpl; auto|simpl]))|].
  split; [do 2 eexists; split; [right; left; reflexivity|split; [reflexivity|split; [left; reflexivity|split; reflexivity]]]|].
  vm_compute. reflexivity.
Qed.
Print Assumptions C46_path_of_another_field_refuted.
