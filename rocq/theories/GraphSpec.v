(** Specifications for the type graph: reachability, N+1 paths, union members. *)
From Coq Require Import String Ascii ZArith NArith Bool List.
From Verif Require Import Base Ordered JsonModel TypeModel ConfigModel MergeSpec GraphModel.
Import ListNotations.
Open Scope string_scope.
Open Scope list_scope.

(** A schema has one definition per name. *)
Definition names_disjoint (c : config) : Prop :=
  forall n, find_union c n <> None -> find_type c n = None.

(** [Refers c n m]: the definition of [n] mentions [m]. *)
Inductive Refers (c : config) : string -> string -> Prop :=
| Ref_member : forall n u m, find_union c n = Some u -> In m (u_types u) -> Refers c n m
| Ref_field : forall n t fn f, find_type c n = Some t -> In (fn, f) (t_fields t) ->
    Refers c n (type_name (f_type f))
| Ref_arg : forall n t fn f an a, find_type c n = Some t -> In (fn, f) (t_fields t) ->
    In (an, a) (f_args f) -> Refers c n (type_name (arg_type a))
| Ref_interface : forall n t m, find_type c n = Some t -> In m (t_implements t) -> Refers c n m.

(** Names the query and mutation operations can reach. *)
Inductive Reachable (c : config) : string -> Prop :=
| Reach_query : forall q, r_query (c_schema c) = Some q -> Reachable c q
| Reach_mutation : forall m, r_mutation (c_schema c) = Some m -> Reachable c m
| Reach_step : forall n m, Reachable c n -> Refers c n m -> Reachable c m.

(** A resolver that can answer for many parents with one upstream request: an HTTP or
    gRPC call with a batch key, a GraphQL call marked for batching, or an entity
    resolver one of whose members is such a resolver. *)
Inductive Batches : resolver -> Prop :=
| Bat_http : forall k ks x, Batches (RHttp (k :: ks) x)
| Bat_grpc : forall k ks x, Batches (RGrpc (k :: ks) x)
| Bat_graphql : forall x, Batches (RGraphql true x)
| Bat_entity : forall m k r, In (k, r) m -> Batches r -> Batches (REntity m).

(** A field whose resolver is called once per element: it has resolvers and not
    all of them are batched. *)
Definition Unbatched (f : field) : Prop :=
  f_resolvers f <> [] /\ exists r, In r (f_resolvers f) /\ ~ Batches r.

(** [NPlusOne c ty inside path ty' f]: starting at type [ty] ([inside] tells
    whether a list was already entered), following the fields of [path] ends with
    the unbatched field [f] of type [ty'], reached inside a list. *)
Inductive NPlusOne (c : config) : string -> bool -> list string -> string -> string -> Prop :=
| N1_here : forall ty t name f,
    find_type c ty = Some t -> In (name, f) (t_fields t) -> Unbatched f ->
    NPlusOne c ty true [name] ty name
| N1_step : forall ty inside t name f path ty' f',
    find_type c ty = Some t -> In (name, f) (t_fields t) ->
    NPlusOne c (type_name (f_type f)) (inside || is_list (f_type f)) path ty' f' ->
    NPlusOne c ty inside (name :: path) ty' f'.

(** A type whose entity resolver is called once per representation. *)
Definition EntityUnbatched (t : gtype) : Prop :=
  t_resolvers t <> [] /\ exists r, In r (t_resolvers t) /\ ~ Batches r.
Definition EntityBatched (t : gtype) : Prop :=
  t_resolvers t <> [] /\ forall r, In r (t_resolvers t) -> Batches r.

(** [Reported c r ty f]: one of the reports [r] is an N+1 path, from the query root or
    from a batched entity, that ends at the field [f] of type [ty]. *)
Inductive Reported (c : config) (r : list (list path_name)) : string -> string -> Prop :=
| Rep_query : forall qr q ty f, r_query (c_schema c) = Some qr -> In (map PField q) r ->
    NPlusOne c qr false q ty f -> Reported c r ty f
| Rep_entity : forall e t q ty f, In (e, t) (c_types c) -> EntityBatched t ->
    In (PEntity e :: map PField q) r -> NPlusOne c e true q ty f -> Reported c r ty f.

(** A report that is right: a real N+1 path from the query root, a real one below a
    batched entity, or an entity whose own resolver is not batched. *)
Definition report_ok (c : config) (p : list path_name) : Prop :=
  (exists qr q ty f, r_query (c_schema c) = Some qr /\ p = map PField q /\ NPlusOne c qr false q ty f) \/
  (exists e t q ty f, In (e, t) (c_types c) /\ EntityBatched t /\ p = PEntity e :: map PField q /\
     NPlusOne c e true q ty f) \/
  (exists e t, In (e, t) (c_types c) /\ EntityUnbatched t /\ p = [PEntity e]).

(** [FirstN1 c ty inside ty' f]: some N+1 path from [ty] ends at field [f] of [ty'] and
    meets no other unbatched field inside a list before. *)
Inductive FirstN1 (c : config) : string -> bool -> string -> string -> Prop :=
| F1_here : forall ty t n f, find_type c ty = Some t -> In (n, f) (t_fields t) -> Unbatched f ->
    FirstN1 c ty true ty n
| F1_step : forall ty b t n f ty' f', find_type c ty = Some t -> In (n, f) (t_fields t) ->
    ~ (b = true /\ Unbatched f) ->
    FirstN1 c (type_name (f_type f)) (b || is_list (f_type f)) ty' f' -> FirstN1 c ty b ty' f'.

(** Object types listed by a union, directly or through member unions. *)
Inductive LeafOf (unions : list (string * gunion)) : list string -> string -> Prop :=
| Leaf_here : forall ms n, In n ms -> oget scmp n unions = None -> LeafOf unions ms n
| Leaf_in : forall ms m u n, In m ms -> oget scmp m unions = Some u ->
    LeafOf unions (u_types u) n -> LeafOf unions ms n.

(** Union [m] is met when expanding the members [ms]. *)
Inductive Inside (unions : list (string * gunion)) : list string -> string -> Prop :=
| In_here : forall ms n u, In n ms -> oget scmp n unions = Some u -> Inside unions ms n
| In_deep : forall ms m u n, In m ms -> oget scmp m unions = Some u ->
    Inside unions (u_types u) n -> Inside unions ms n.

(** A union that contains itself. *)
Definition Recursive (unions : list (string * gunion)) (n : string) : Prop :=
  exists u, oget scmp n unions = Some u /\ Inside unions (u_types u) n.

(** [Expands unions ms l]: expanding the members [ms] fully ends, and meets the
    unions of [l], in order and with repetitions. *)
Inductive Expands (unions : list (string * gunion)) : list string -> list string -> Prop :=
| Ex_nil : Expands unions [] []
| Ex_leaf : forall n rest l, oget scmp n unions = None -> Expands unions rest l ->
    Expands unions (n :: rest) l
| Ex_union : forall n u rest l1 l2, oget scmp n unions = Some u ->
    Expands unions (u_types u) l1 -> Expands unions rest l2 ->
    Expands unions (n :: rest) (n :: l1 ++ l2).
