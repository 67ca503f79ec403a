(** What a resolver expression means (C32, C33, C06). *)
From Coq Require Import String Ascii ZArith NArith Bool List.
From Verif Require Import Base JsonModel MustacheModel CtxModel AuthModel DiscModel MergeModel IrModel TtlModel.
Import ListNotations.
Open Scope string_scope.
Open Scope list_scope.

(** [EnumMapped m v w]: [w] is [v] with every text replaced by what [m] says. *)
Inductive EnumMapped (m : list (string * string)) : value -> value -> Prop :=
| EM_null : EnumMapped m VNull VNull
| EM_str : forall s t, aget s m = Some t -> EnumMapped m (VStr s) (VStr t)
| EM_list : forall l l', EnumMappedAll m l l' -> EnumMapped m (VList l) (VList l')
with EnumMappedAll (m : list (string * string)) : list value -> list value -> Prop :=
| EMA_nil : EnumMappedAll m [] []
| EMA_cons : forall v w l l',
    EnumMapped m v w -> EnumMappedAll m l l' -> EnumMappedAll m (v :: l) (w :: l').

(** [EnumError m v msg]: what is wrong with the first element that cannot be mapped. *)
Inductive EnumError (m : list (string * string)) : value -> string -> Prop :=
| EE_unknown : forall s, aget s m = None ->
    EnumError m (VStr s) ("Can't find mapped key: " ++ s ++ ".")
| EE_kind : forall v, v <> VNull -> (forall s, v <> VStr s) -> (forall l, v <> VList l) ->
    EnumError m v "Mapped key must be either string or array value."
| EE_list : forall good good' v rest msg,
    EnumMappedAll m good good' -> EnumError m v msg -> EnumError m (VList (good ++ v :: rest)) msg.

(** [MergedAll vs v]: [v] is all of [vs] merged, each onto those before it. *)
Inductive MergedAll : list value -> value -> Prop :=
| MA_none : MergedAll [] VNull
| MA_one : forall v, MergedAll [v] v
| MA_more : forall vs u w, vs <> [] -> MergedAll vs u -> MergedAll (vs ++ [w]) (m_json u w).

(** The first failure among results. *)
Definition FirstError {A E} (rs : list (result A E)) (e : E) : Prop :=
  exists good rest, rs = map Ok good ++ Err e :: rest.

(** [Resolvers m l tasks]: each representation of [l] with its type and the
    resolver [m] has for that type. *)
Inductive Resolvers {A} (m : list (string * A)) : list value -> list (string * value * A) -> Prop :=
| Resolvers_nil : Resolvers m [] []
| Resolvers_cons : forall repr l n e tasks,
    get_type_name repr = Some n -> aget n m = Some e -> Resolvers m l tasks ->
    Resolvers m (repr :: l) ((n, repr, e) :: tasks).

(** The first representation without a resolver. *)
Inductive Unresolvable {A} (m : list (string * A)) : list value -> string -> Prop :=
| Un_untyped : forall good tasks repr rest, Resolvers m good tasks -> get_type_name repr = None ->
    Unresolvable m (good ++ repr :: rest) "expected __typename to be the part of the representation"
| Un_unknown : forall good tasks repr rest n, Resolvers m good tasks ->
    get_type_name repr = Some n -> aget n m = None ->
    Unresolvable m (good ++ repr :: rest) ("Cannot find a resolver for type: `" ++ n ++ "`").

(** A resolved entity carries the name of its type. *)
Definition named {F} (n : string) (r : result value (ir_error F)) : result value (ir_error F) :=
  match r with
  | Ok v => match set_type_name n v with Ok w => Ok w | Err msg => Err (EEntity msg) end
  | Err er => Err er
  end.

Section Meaning.
  Context {IO F Key St : Type}.
  Notation ir := (ir IO).
  Notation error := (ir_error F).
  Variable rx : req_ext.
  Variable ext : auth_ext.
  Variable req : request.
  Variable do_io : IO -> ctx -> St -> result value F * St.
  Variable cache_key : IO -> ctx -> option Key.
  Variable cache_get : Key -> St -> result (option value) F * St.
  Variable cache_set : Key -> value -> Z -> St -> result unit F * St.

  Definition or_null (o : option value) : value := match o with Some v => v | None => VNull end.

  (** [Ev e c st r st']: in context [c] and outside state [st], [e] ends with [r]
      and leaves the outside in [st']. *)
  Inductive Ev : ir -> ctx -> St -> result value error -> St -> Prop :=
  | Ev_dynamic : forall d c st, Ev (IDynamic d) c st (Ok (render_value rx d c)) st
  | Ev_context : forall p c st,
      Ev (IContextPath p) c st (Ok (or_null (option_map cow_value (path_value c p)))) st
  | Ev_service : forall s c st, Ev (IService s) c st (Ok (VObj [("sdl", VStr s)])) st
  | Ev_call : forall io c st r st', do_io io c st = (r, st') -> Ev (IIO io) c st (lift r) st'
  (* caching: without a key a call, with a key the stored value or a call that is stored *)
  | Ev_nokey : forall age io c st r st',
      cache_key io c = None -> do_io io c st = (r, st') -> Ev (ICache age io) c st (lift r) st'
  | Ev_broken_cache : forall age io c st k f st',
      cache_key io c = Some k -> cache_get k st = (Err f, st') ->
      Ev (ICache age io) c st (Err (EOutside f)) st'
  | Ev_hit : forall age io c st k v st',
      cache_key io c = Some k -> cache_get k st = (Ok (Some v), st') ->
      Ev (ICache age io) c st (Ok v) st'
  | Ev_miss_fail : forall age io c st k st1 f st2,
      cache_key io c = Some k -> cache_get k st = (Ok None, st1) -> do_io io c st1 = (Err f, st2) ->
      Ev (ICache age io) c st (Err (EOutside f)) st2
  | Ev_miss_unstored : forall age io c st k st1 v st2 f st3,
      cache_key io c = Some k -> cache_get k st = (Ok None, st1) -> do_io io c st1 = (Ok v, st2) ->
      cache_set k v age st2 = (Err f, st3) -> Ev (ICache age io) c st (Err (EOutside f)) st3
  | Ev_miss : forall age io c st k st1 v st2 st3,
      cache_key io c = Some k -> cache_get k st = (Ok None, st1) -> do_io io c st1 = (Ok v, st2) ->
      cache_set k v age st2 = (Ok tt, st3) -> Ev (ICache age io) c st (Ok v) st3
  (* a path selects from the result *)
  | Ev_path : forall e p c st v st',
      Ev e c st (Ok v) st' -> Ev (IPath e p) c st (Ok (or_null (get_path p v))) st'
  | Ev_path_err : forall e p c st er st', Ev e c st (Err er) st' -> Ev (IPath e p) c st (Err er) st'
  (* a guard that fails ends the evaluation; the outside is untouched *)
  | Ev_guard_fails : forall a e c st er,
      verify ext a req = Fail er -> Ev (IProtect a e) c st (Err (EAuth er)) st
  | Ev_guard : forall a e c st r st',
      verify ext a req = Succeed -> Ev e c st r st' -> Ev (IProtect a e) c st r st'
  (* an enum map maps every element, or fails *)
  | Ev_map : forall e m c st v w st',
      Ev e c st (Ok v) st' -> EnumMapped m v w -> Ev (IMap e m) c st (Ok w) st'
  | Ev_map_fails : forall e m c st v st' msg,
      Ev e c st (Ok v) st' -> EnumError m v msg -> Ev (IMap e m) c st (Err (EExpr msg)) st'
  | Ev_map_err : forall e m c st er st', Ev e c st (Err er) st' -> Ev (IMap e m) c st (Err er) st'
  (* the second stage of a pipe sees the first's result as its arguments *)
  | Ev_pipe : forall e1 e2 c st v st1 r st2,
      Ev e1 c st (Ok v) st1 -> Ev e2 (with_args v c) st1 r st2 -> Ev (IPipe e1 e2) c st r st2
  | Ev_pipe_err : forall e1 e2 c st er st', Ev e1 c st (Err er) st' -> Ev (IPipe e1 e2) c st (Err er) st'
  (* a merge evaluates all its members in the same context *)
  | Ev_merge : forall l c st vs v st',
      EvAll l c st (map Ok vs) st' -> MergedAll vs v -> Ev (IMerge l) c st (Ok v) st'
  | Ev_merge_err : forall l c st rs er st',
      EvAll l c st rs st' -> FirstError rs er -> Ev (IMerge l) c st (Err er) st'
  | Ev_discriminate : forall d e c st v w st',
      Ev e c st (Ok v) st' -> resolve_type d v = Ok w -> Ev (IDiscriminate d e) c st (Ok w) st'
  | Ev_discriminate_fails : forall d e c st v m st',
      Ev e c st (Ok v) st' -> resolve_type d v = Err m ->
      Ev (IDiscriminate d e) c st (Err (EDiscriminate m)) st'
  | Ev_discriminate_err : forall d e c st er st',
      Ev e c st (Err er) st' -> Ev (IDiscriminate d e) c st (Err er) st'
  (* entities: one result per representation, by the resolver of its type *)
  | Ev_entity : forall m c st l tasks vs st',
      option_map cow_value (path_arg c ["representations"]) = Some (VList l) ->
      Resolvers m l tasks -> EvEntities tasks c st (map Ok vs) st' ->
      Ev (IEntity m) c st (Ok (VList vs)) st'
  | Ev_entity_err : forall m c st l tasks rs er st',
      option_map cow_value (path_arg c ["representations"]) = Some (VList l) ->
      Resolvers m l tasks -> EvEntities tasks c st rs st' -> FirstError rs er ->
      Ev (IEntity m) c st (Err er) st'
  | Ev_entity_unresolvable : forall m c st l msg,
      option_map cow_value (path_arg c ["representations"]) = Some (VList l) ->
      Unresolvable m l msg -> Ev (IEntity m) c st (Err (EEntity msg)) st
  | Ev_entity_unreadable : forall m c st,
      (forall l, option_map cow_value (path_arg c ["representations"]) <> Some (VList l)) ->
      Ev (IEntity m) c st (Err (EEntity "expected `representations` arg as an array of _Any")) st
  with EvAll : list ir -> ctx -> St -> list (result value error) -> St -> Prop :=
  | EvAll_nil : forall c st, EvAll [] c st [] st
  | EvAll_cons : forall e l c st r st1 rs st2,
      Ev e c st r st1 -> EvAll l c st1 rs st2 -> EvAll (e :: l) c st (r :: rs) st2
  with EvEntities : list (string * value * ir) -> ctx -> St -> list (result value error) -> St -> Prop :=
  | EvEntities_nil : forall c st, EvEntities [] c st [] st
  | EvEntities_cons : forall n repr e tasks c st r st1 rs st2,
      Ev e (with_value repr c) st r st1 -> EvEntities tasks c st1 rs st2 ->
      EvEntities ((n, repr, e) :: tasks) c st (named n r :: rs) st2.
End Meaning.

(** ** Upstream calls under guards (C32) *)

Section Guards.
  Context {IO : Type}.
  Variable ext : auth_ext.
  Variable req : request.

  (** [Reachable e io]: the call [io] occurs in [e] outside every guard that this
      request fails. *)
  Inductive Reachable : ir IO -> IO -> Prop :=
  | R_call : forall io, Reachable (IIO io) io
  | R_cache : forall age io, Reachable (ICache age io) io
  | R_path : forall e p io, Reachable e io -> Reachable (IPath e p) io
  | R_guard : forall a e io, verify ext a req = Succeed -> Reachable e io -> Reachable (IProtect a e) io
  | R_map : forall e m io, Reachable e io -> Reachable (IMap e m) io
  | R_pipe1 : forall e1 e2 io, Reachable e1 io -> Reachable (IPipe e1 e2) io
  | R_pipe2 : forall e1 e2 io, Reachable e2 io -> Reachable (IPipe e1 e2) io
  | R_merge : forall l e io, In e l -> Reachable e io -> Reachable (IMerge l) io
  | R_disc : forall d e io, Reachable e io -> Reachable (IDiscriminate d e) io
  | R_entity : forall m k e io, In (k, e) m -> Reachable e io -> Reachable (IEntity m) io.

  (** The outside with a log of the calls made. *)
  Definition logged {F St} (do_io : IO -> ctx -> St -> result value F * St) :
    IO -> ctx -> St * list IO -> result value F * (St * list IO) :=
    fun io c s => let '(r, st) := do_io io c (fst s) in (r, (st, snd s ++ [io])).
  Definition unlogged {B C F St} (op : St -> result B F * St) : St * C -> result B F * (St * C) :=
    fun s => let '(r, st) := op (fst s) in (r, (st, snd s)).
End Guards.

(** ** Replacing parts of an expression *)

(** [Replaced e e' x y]: [y] is [x] with some occurrences of [e] replaced by [e']. *)
Inductive Replaced {IO} (e e' : ir IO) : ir IO -> ir IO -> Prop :=
| Rp_here : Replaced e e' e e'
| Rp_same : forall x, Replaced e e' x x
| Rp_path : forall x y p, Replaced e e' x y -> Replaced e e' (IPath x p) (IPath y p)
| Rp_guard : forall x y a, Replaced e e' x y -> Replaced e e' (IProtect a x) (IProtect a y)
| Rp_map : forall x y m, Replaced e e' x y -> Replaced e e' (IMap x m) (IMap y m)
| Rp_pipe : forall x y x' y', Replaced e e' x y -> Replaced e e' x' y' ->
    Replaced e e' (IPipe x x') (IPipe y y')
| Rp_disc : forall x y d, Replaced e e' x y -> Replaced e e' (IDiscriminate d x) (IDiscriminate d y)
| Rp_merge : forall l l', ReplacedAll e e' l l' -> Replaced e e' (IMerge l) (IMerge l')
| Rp_entity : forall m m', ReplacedIn e e' m m' -> Replaced e e' (IEntity m) (IEntity m')
with ReplacedAll {IO} (e e' : ir IO) : list (ir IO) -> list (ir IO) -> Prop :=
| Rpa_nil : ReplacedAll e e' [] []
| Rpa_cons : forall x y l l', Replaced e e' x y -> ReplacedAll e e' l l' ->
    ReplacedAll e e' (x :: l) (y :: l')
with ReplacedIn {IO} (e e' : ir IO) : list (string * ir IO) -> list (string * ir IO) -> Prop :=
| Rpi_nil : ReplacedIn e e' [] []
| Rpi_cons : forall k x y m m', Replaced e e' x y -> ReplacedIn e e' m m' ->
    ReplacedIn e e' ((k, x) :: m) ((k, y) :: m').

(** ** Caching a resolver (C33) *)

(** [CachedCopy age x y]: [y] is [x] with every upstream call behind a cache of
    that age, and otherwise the same. *)
Inductive CachedCopy {IO} (age : Z) : ir IO -> ir IO -> Prop :=
| CC_dynamic : forall d, CachedCopy age (IDynamic d) (IDynamic d)
| CC_context : forall p, CachedCopy age (IContextPath p) (IContextPath p)
| CC_service : forall s, CachedCopy age (IService s) (IService s)
| CC_call : forall io, CachedCopy age (IIO io) (ICache age io)
| CC_cache : forall other io, CachedCopy age (ICache other io) (ICache age io)
| CC_path : forall x y p, CachedCopy age x y -> CachedCopy age (IPath x p) (IPath y p)
| CC_guard : forall x y a, CachedCopy age x y -> CachedCopy age (IProtect a x) (IProtect a y)
| CC_map : forall x y m, CachedCopy age x y -> CachedCopy age (IMap x m) (IMap y m)
| CC_pipe : forall x y x' y', CachedCopy age x y -> CachedCopy age x' y' ->
    CachedCopy age (IPipe x x') (IPipe y y')
| CC_disc : forall x y d, CachedCopy age x y -> CachedCopy age (IDiscriminate d x) (IDiscriminate d y)
| CC_merge : forall l l', Forall2 (CachedCopy age) l l' -> CachedCopy age (IMerge l) (IMerge l')
| CC_entity : forall m m',
    Forall2 (fun x y => fst x = fst y /\ CachedCopy age (snd x) (snd y)) m m' ->
    CachedCopy age (IEntity m) (IEntity m').

(** The outside of the caching theorem: a resolver cache, a clock, and an upstream
    whose answers depend on the call alone.  Any time may pass during a call. *)
Record outside := { o_cache : ttl_map value; o_now : Z }.

Section Stable.
  Context {IO F : Type}.
  Variable answer : IO -> ctx -> result value F.
  Variable elapsed : IO -> ctx -> outside -> Z.
  Variable cap : nat.

  Definition stable_call (io : IO) (c : ctx) (o : outside) : result value F * outside :=
    (answer io c, {| o_cache := o_cache o; o_now := o_now o + elapsed io c o |}).
  Definition stable_get (k : Z) (o : outside) : result (option value) F * outside :=
    (Ok (t_get (o_now o) k (o_cache o)), o).
  Definition stable_set (k : Z) (v : value) (ttl : Z) (o : outside) : result unit F * outside :=
    (Ok tt, {| o_cache := t_insert cap (o_now o) k v ttl (o_cache o); o_now := o_now o |}).

  (** Everything in the cache is what the upstream answers to calls of that key. *)
  Definition Consistent (key : IO -> ctx -> option Z) (o : outside) : Prop :=
    forall k v t, In (k, (v, t)) (o_cache o) ->
    forall io c, key io c = Some k -> answer io c = Ok v.
End Stable.

(** ** Guards taken out of expressions (C06) *)

(** [Hoisted e a]: the guard [a] stands in [e] below nothing but paths, guards,
    pipes, discriminators and merges. *)
Inductive Hoisted {IO} : ir IO -> auth -> Prop :=
| H_here : forall a e, Hoisted (IProtect a e) a
| H_guard : forall a b e, Hoisted e a -> Hoisted (IProtect b e) a
| H_path : forall a e p, Hoisted e a -> Hoisted (IPath e p) a
| H_pipe1 : forall a e1 e2, Hoisted e1 a -> Hoisted (IPipe e1 e2) a
| H_pipe2 : forall a e1 e2, Hoisted e2 a -> Hoisted (IPipe e1 e2) a
| H_disc : forall a d e, Hoisted e a -> Hoisted (IDiscriminate d e) a
| H_merge : forall a l e, In e l -> Hoisted e a -> Hoisted (IMerge l) a.
