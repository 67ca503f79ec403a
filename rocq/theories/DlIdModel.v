(** Data loaders given out at start-up (src/core/app_context.rs:35-150) and how a call
    finds its loader (src/core/ir/eval_io.rs:43-118, src/core/ir/eval_http.rs:53-100). *)
From Coq Require Import String Ascii ZArith Bool Arith List.
From Verif Require Import Base JsonModel MustacheModel CtxModel AuthModel DiscModel MergeModel IrModel HttpBatchModel.
Import ListNotations.
Open Scope string_scope.
Open Scope list_scope.

Section DlId.
  (** Request templates of each kind, the protobuf operation of a gRPC template, and the
      names of hook scripts. *)
  Context {HttpT GqlT GrpcT Op Hook : Type}.
  Variable operation : GrpcT -> Op.
  Variable is_query : GqlT + GrpcT -> bool.    (** [operation_type] is [Query] *)

  (** src/core/ir/model.rs:45-71; ids are [DataLoaderId]s. *)
  Inductive io : Type :=
  | Http (t : HttpT) (g : option group) (dl : option nat) (is_list dedupe : bool) (hook : option Hook)
  | GraphQL (t : GqlT) (field_name : string) (batch : bool) (dl : option nat) (dedupe : bool)
  | Grpc (t : GrpcT) (g : option group) (dl : option nat) (dedupe : bool) (hook : option Hook)
  | Js (name : string).

  (** The three tables; a loader is what it was built from: app_context.rs:57-62, 80-84,
      101-108 (the settings of [upstream.batch] and the runtime are the same for all). *)
  Record loaders : Type :=
    { l_http : list (option group * bool);
      l_gql : list bool;
      l_grpc : list (Op * option group) }.

  (** app_context.rs:50-126, the arms for calls: the id is the length of the table. *)
  Definition assign (c : io) (l : loaders) : io * loaders :=
    match c with
    | Http t g _ is_list dedupe hook =>
        (Http t g (Some (length (l_http l))) is_list dedupe hook,
         {| l_http := l_http l ++ [(g, is_list)]; l_gql := l_gql l; l_grpc := l_grpc l |})
    | GraphQL t f batch _ dedupe =>
        (GraphQL t f batch (Some (length (l_gql l))) dedupe,
         {| l_http := l_http l; l_gql := l_gql l ++ [batch]; l_grpc := l_grpc l |})
    | Grpc t g _ dedupe hook =>
        (Grpc t g (Some (length (l_grpc l))) dedupe hook,
         {| l_http := l_http l; l_gql := l_gql l; l_grpc := l_grpc l ++ [(operation t, g)] |})
    | Js name => (Js name, l)
    end.

  (** src/core/ir/model.rs:168-208 ([modify_inner]) with the modifier of
      app_context.rs:50-127, which answers [Some] exactly for calls; it is a [FnMut] that
      fills the tables.  The [Cache] arm runs it on the inner call (181-187). *)
  Fixpoint assign_ir (e : ir io) (l : loaders) {struct e} : ir io * loaders :=
    match e with
    | IIO c => let '(c', l) := assign c l in (IIO c', l)
    | ICache age c => let '(c', l) := assign c l in (ICache age c', l)
    | IPipe e1 e2 =>
        let '(e1', l) := assign_ir e1 l in
        let '(e2', l) := assign_ir e2 l in (IPipe e1' e2', l)
    | IPath e p => let '(e', l) := assign_ir e l in (IPath e' p, l)
    | IProtect a e => let '(e', l) := assign_ir e l in (IProtect a e', l)
    | IMap e m => let '(e', l) := assign_ir e l in (IMap e' m, l)
    | IDiscriminate d e => let '(e', l) := assign_ir e l in (IDiscriminate d e', l)
    | IEntity m =>
        let '(m', l) :=
          (fix go (m : list (string * ir io)) (l : loaders) : list (string * ir io) * loaders :=
             match m with
             | [] => ([], l)
             | (k, e) :: t => let '(e', l) := assign_ir e l in let '(t', l) := go t l in ((k, e') :: t', l)
             end) m l in (IEntity m', l)
    | IMerge es =>
        let '(es', l) :=
          (fix go (es : list (ir io)) (l : loaders) : list (ir io) * loaders :=
             match es with
             | [] => ([], l)
             | e :: t => let '(e', l) := assign_ir e l in let '(t', l) := go t l in (e' :: t', l)
             end) es l in (IMerge es', l)
    | IContextPath p => (IContextPath p, l)
    | IDynamic d => (IDynamic d, l)
    | IService s => (IService s, l)
    end.

  (** src/core/blueprint/blueprint.rs: definitions whose fields can have resolvers; other
      kinds have no fields with resolvers. *)
  Record bfield : Type := { bf_name : string; bf_resolver : option (ir io) }.
  Inductive bdef : Type :=
  | DefObject (name : string) (fields : list bfield)
  | DefInterface (name : string) (fields : list bfield)
  | DefOther (name : string).

  (** app_context.rs:47-49 and 128-129, blueprint.rs:136-140 *)
  Fixpoint assign_fields (fs : list bfield) (l : loaders) : list bfield * loaders :=
    match fs with
    | [] => ([], l)
    | f :: t =>
        let '(r, l) := match bf_resolver f with
                       | Some e => let '(e', l) := assign_ir e l in (Some e', l)
                       | None => (None, l)
                       end in
        let '(t', l) := assign_fields t l in
        ({| bf_name := bf_name f; bf_resolver := r |} :: t', l)
    end.

  (** app_context.rs:45-46 and 130-131 *)
  Fixpoint assign_defs (ds : list bdef) (l : loaders) : list bdef * loaders :=
    match ds with
    | [] => ([], l)
    | DefObject n fs :: t =>
        let '(fs', l) := assign_fields fs l in
        let '(t', l) := assign_defs t l in (DefObject n fs' :: t', l)
    | d :: t => let '(t', l) := assign_defs t l in (d :: t', l)
    end.

  (** app_context.rs:35-145 *)
  Definition startup (ds : list bdef) : list bdef * loaders :=
    assign_defs ds {| l_http := []; l_gql := []; l_grpc := [] |}.

  (** *** How a call finds its loader *)
  Inductive route : Type :=
  | Direct                                            (** its own upstream call *)
  | ViaHttp (settings : option group * bool)
  | ViaGql (settings : bool)
  | ViaGrpc (settings : Op * option group)
  | Script                                            (** no upstream call *)
  | Panics.                                           (** [data_loader.unwrap()], eval_http.rs:168-169, 259-260 *)

  (** [batch_set]: the upstream settings have a [batch]; [delay]: its delay
      (src/core/blueprint/upstream.rs:37-43).  eval_http.rs:58-67 and 82-87 for HTTP,
      eval_io.rs:66-74 and 83-93 for the others. *)
  Definition route_of (batch : option Z) (l : loaders) (c : io) : route :=
    match c with
    | Http _ _ dl _ _ _ =>
        if match batch with Some delay => Z.leb 1 delay | None => false end then
          match dl with
          | Some n => match nth_error (l_http l) n with Some s => ViaHttp s | None => Direct end
          | None => Direct
          end
        else Direct
    | GraphQL t _ _ dl _ =>
        if match batch with Some _ => is_query (inl t) | None => false end then
          match dl with
          | Some n => match nth_error (l_gql l) n with Some s => ViaGql s | None => Panics end
          | None => Panics
          end
        else Direct
    | Grpc t _ dl _ _ =>
        if match batch with Some _ => is_query (inr t) | None => false end then
          match dl with
          | Some n => match nth_error (l_grpc l) n with Some s => ViaGrpc s | None => Panics end
          | None => Panics
          end
        else Direct
    | Js _ => Script
    end.
End DlId.
Arguments io HttpT GqlT GrpcT Hook : clear implicits.
Arguments bdef HttpT GqlT GrpcT Hook : clear implicits.
Arguments bfield HttpT GqlT GrpcT Hook : clear implicits.
Arguments loaders Op : clear implicits.
