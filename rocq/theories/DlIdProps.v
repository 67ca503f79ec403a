(** C41: each batched resolver uses its own data loader. *)
From Coq Require Import String Ascii ZArith Bool Arith List.
From Verif Require Import Base JsonModel MustacheModel CtxModel AuthModel DiscModel IrModel HttpBatchModel DlIdModel DlIdSpec DlIdProofs.
Import ListNotations.
Open Scope string_scope.
Open Scope list_scope.

Section Claims.
  Context {HttpT GqlT GrpcT Op Hook : Type}.
  Variable operation : GrpcT -> Op.
  Variable is_query : GqlT + GrpcT -> bool.
  Notation io := (io HttpT GqlT GrpcT Hook).
  Notation bdef := (bdef HttpT GqlT GrpcT Hook).

  (** After start-up every HTTP, GraphQL and gRPC call of a field of an object type has
      an index into the table of its kind, and the loader there was built from the
      call's own settings. *)
  Theorem C41_every_call_has_its_own_loader_partial :
    forall (ds : list bdef) (c : io),
      In c (all_object_calls (fst (startup operation ds))) -> has_own_loader operation (snd (startup operation ds)) c.
  Proof. exact (startup_own operation). Qed.

  (** No two calls share a loader. *)
  Theorem C41_no_two_calls_share_a_loader :
    forall ds : list bdef,
      ForallOrdPairs (fun a b => ~ share_a_loader a b) (all_object_calls (fst (startup operation ds))).
  Proof. exact (startup_distinct operation). Qed.

  (** Nothing but the indices changes: no call is added, dropped, moved or edited. *)
  Theorem C41_nothing_but_the_indices_changes :
    forall ds : list bdef, map forget_def (fst (startup operation ds)) = map forget_def ds.
  Proof. exact (startup_same operation). Qed.

  (** So no such call is left without its loader when it runs, whatever the settings. *)
  Theorem C41_calls_of_object_types_find_their_loader :
    forall (ds : list bdef) batch (c : io),
      In c (all_object_calls (fst (startup operation ds))) ->
      route_of is_query batch (snd (startup operation ds)) c <> Panics.
  Proof. exact (startup_routes operation is_query). Qed.
End Claims.
Print Assumptions C41_every_call_has_its_own_loader_partial.
Print Assumptions C41_no_two_calls_share_a_loader.
Print Assumptions C41_nothing_but_the_indices_changes.
Print Assumptions C41_calls_of_object_types_find_their_loader.

(** *** Witnesses: templates are texts. *)
Definition io41 : Type := io string string string string.
Definition http41 (t : string) (g : option group) : io41 := Http t g None true false None.
Definition gql41 (t : string) (batch : bool) : io41 := GraphQL t "f" batch None false.
Definition grpc41 (t : string) : io41 := Grpc t None None true None.
Definition g41 : group := {| g_path := ["id"]; g_key := None |}.
Definition user41 : list (bfield string string string string) :=
  [{| bf_name := "posts"; bf_resolver := Some (IMerge [ICache 60 (http41 "/posts" (Some g41)); IPipe (IIO (gql41 "q" true)) (IIO (http41 "/x" None))]) |};
   {| bf_name := "name"; bf_resolver := None |}].
Definition query41 : list (bfield string string string string) :=
  [{| bf_name := "news"; bf_resolver := Some (IEntity [("A", IIO (grpc41 "svc.A")); ("B", IPath (IIO (gql41 "r" false)) ["b"])]) |};
   {| bf_name := "js"; bf_resolver := Some (IIO (Js "run")) |}].

Example C41_case :
  startup (fun t => t) [DefObject "User" user41; DefOther "Date"; DefObject "Query" query41] =
  ([DefObject "User"
      [{| bf_name := "posts"; bf_resolver := Some (IMerge [ICache 60 (Http "/posts" (Some g41) (Some 0) true false None);
            IPipe (IIO (GraphQL "q" "f" true (Some 0) false)) (IIO (Http "/x" None (Some 1) true false None))]) |};
       {| bf_name := "name"; bf_resolver := None |}];
    DefOther "Date";
    DefObject "Query"
      [{| bf_name := "news"; bf_resolver := Some (IEntity [("A", IIO (Grpc "svc.A" None (Some 0) true None));
            ("B", IPath (IIO (GraphQL "r" "f" false (Some 1) false)) ["b"])]) |};
       {| bf_name := "js"; bf_resolver := Some (IIO (Js "run")) |}]],
   {| l_http := [(Some g41, true); (None, true)]; l_gql := [true; false]; l_grpc := [("svc.A", None)] |}).
Proof. vm_compute. reflexivity. Qed.

(** Finding: fields of interface types keep their resolvers but are passed over, so a
    GraphQL or gRPC query call of such a field panics once batching is configured. *)
Theorem C41_calls_of_interface_types_refuted :
  exists (ds : list (bdef string string string string)) n fs c e,
    In (DefInterface n fs) (fst (startup (fun t : string => t) ds)) /\
    In {| bf_name := "owner"; bf_resolver := Some e |} fs /\ In c (calls e) /\
    route_of (fun _ => true) (Some 10%Z) (snd (startup (fun t : string => t) ds)) c = Panics.
Proof.
  exists [DefInterface "Node" [{| bf_name := "owner"; bf_resolver := Some (IIO (gql41 "q" true)) |}]; DefObject "Query" query41].
  exists "Node", [{| bf_name := "owner"; bf_resolver := Some (IIO (gql41 "q" true)) |}], (gql41 "q" true), (IIO (gql41 "q" true)).
  split; [now left|]. split; [now left|]. split; [now left|]. vm_compute. reflexivity.
Qed.
Print Assumptions C41_calls_of_interface_types_refuted.
