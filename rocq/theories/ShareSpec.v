(** Vocabulary for the sharing of operations (C54) and for guarded operations (C07). *)
From Coq Require Import String ZArith Bool List.
From Verif Require Import Base JsonModel MustacheModel CtxModel AuthModel DiscModel IrModel PlanModel.
Import ListNotations.

(** [Makes e io]: evaluating the resolver expression may make the upstream call [io]. *)
Inductive Makes {IO} : ir IO -> IO -> Prop :=
| M_io : forall io, Makes (IIO io) io
| M_cache : forall age io, Makes (ICache age io) io
| M_path : forall e p io, Makes e io -> Makes (IPath e p) io
| M_protect : forall a e io, Makes e io -> Makes (IProtect a e) io
| M_map : forall e m io, Makes e io -> Makes (IMap e m) io
| M_pipe1 : forall e1 e2 io, Makes e1 io -> Makes (IPipe e1 e2) io
| M_pipe2 : forall e1 e2 io, Makes e2 io -> Makes (IPipe e1 e2) io
| M_merge : forall l e io, In e l -> Makes e io -> Makes (IMerge l) io
| M_discriminate : forall d e io, Makes e io -> Makes (IDiscriminate d e) io
| M_entity : forall m k e io, In (k, e) m -> Makes e io -> Makes (IEntity m) io.

(** No enum mapping stands around an upstream call. *)
Inductive NoMapping {IO} : ir IO -> Prop :=
| N_dynamic : forall d, NoMapping (IDynamic d)
| N_io : forall io, NoMapping (IIO io)
| N_cache : forall age io, NoMapping (ICache age io)
| N_path : forall e p, NoMapping e -> NoMapping (IPath e p)
| N_context : forall p, NoMapping (IContextPath p)
| N_protect : forall a e, NoMapping e -> NoMapping (IProtect a e)
| N_pipe : forall e1 e2, NoMapping e1 -> NoMapping e2 -> NoMapping (IPipe e1 e2)
| N_merge : forall l, (forall e, In e l -> NoMapping e) -> NoMapping (IMerge l)
| N_discriminate : forall d e, NoMapping e -> NoMapping (IDiscriminate d e)
| N_entity : forall m, (forall k e, In (k, e) m -> NoMapping e) -> NoMapping (IEntity m)
| N_service : forall s, NoMapping (IService s).

(** Every upstream call the expression makes is answered from a cache first, and there
    is one. *)
Inductive Cached {IO} : ir IO -> Prop :=
| C_cache : forall age io, Cached (ICache age io)
| C_path : forall e p, Cached e -> Cached (IPath e p)
| C_protect : forall a e, Cached e -> Cached (IProtect a e)
| C_pipe : forall e1 e2, Cached e1 -> Cached e2 -> Cached (IPipe e1 e2)
| C_merge : forall l, l <> [] -> (forall e, In e l -> Cached e) -> Cached (IMerge l)
| C_discriminate : forall d e, Cached e -> Cached (IDiscriminate d e)
| C_entity : forall m, m <> [] -> (forall k e, In (k, e) m -> Cached e) -> Cached (IEntity m).

(** A template without expressions. *)
Inductive Fixed : dynamic -> Prop :=
| F_value : forall v, Fixed (DValue v)
| F_text : forall m, (forall p, ~ In (Expression p) m) -> Fixed (DMustache m)
| F_object : forall l, (forall k d, In (k, d) l -> Fixed d) -> Fixed (DObject l)
| F_array : forall l, (forall d, In d l -> Fixed d) -> Fixed (DArray l).

(** An expression without upstream calls, templates and parts of the context. *)
Inductive Constant {IO} : ir IO -> Prop :=
| K_dynamic : forall d, Fixed d -> Constant (IDynamic d)
| K_path : forall e p, Constant e -> Constant (IPath e p)
| K_protect : forall a e, Constant e -> Constant (IProtect a e)
| K_map : forall e m, Constant e -> Constant (IMap e m)
| K_pipe : forall e1 e2, Constant e1 -> Constant e2 -> Constant (IPipe e1 e2)
| K_merge : forall l, (forall e, In e l -> Constant e) -> Constant (IMerge l)
| K_discriminate : forall d e, Constant e -> Constant (IDiscriminate d e)
| K_entity : forall m, (forall k e, In (k, e) m -> Constant e) -> Constant (IEntity m)
| K_service : forall s, Constant (IService s).

(** A guard stands in the way of every value of the expression: of a merge around all of
    its parts, of entities (of which one is looked up) around one of them at least. *)
Inductive Guarded {IO} : ir IO -> Prop :=
| G_here : forall a e, Guarded (IProtect a e)
| G_path : forall e p, Guarded e -> Guarded (IPath e p)
| G_map : forall e m, Guarded e -> Guarded (IMap e m)
| G_pipe1 : forall e1 e2, Guarded e1 -> Guarded (IPipe e1 e2)
| G_pipe2 : forall e1 e2, Guarded e2 -> Guarded (IPipe e1 e2)
| G_merge : forall l, (forall e, In e l -> Guarded e) -> Guarded (IMerge l)
| G_discriminate : forall d e, Guarded e -> Guarded (IDiscriminate d e)
| G_entity : forall m k e, In (k, e) m -> Guarded e -> Guarded (IEntity m).

(** [Within fs f]: [f] is one of the fields or stands somewhere below one. *)
Inductive Within {IR} : list (pfield IR) -> pfield IR -> Prop :=
| W_here : forall fs f, In f fs -> Within fs f
| W_below : forall fs f g, In f fs -> Within (p_selection f) g -> Within fs g.
