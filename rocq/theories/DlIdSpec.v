(** Vocabulary for data loaders given out at start-up (C41). *)
From Coq Require Import String ZArith Bool Arith List.
From Verif Require Import Base IrModel HttpBatchModel DlIdModel.
Import ListNotations.
Open Scope list_scope.

Section Vocabulary.
  Context {IO : Type}.
  (** The calls in an expression, from left to right. *)
  Fixpoint calls (e : ir IO) : list IO :=
    match e with
    | IIO c | ICache _ c => [c]
    | IPath e _ | IProtect _ e | IMap e _ | IDiscriminate _ e => calls e
    | IPipe e1 e2 => calls e1 ++ calls e2
    | IMerge l => flat_map calls l
    | IEntity m => flat_map (fun ke => calls (snd ke)) m
    | IContextPath _ | IDynamic _ | IService _ => []
    end.

  (** The expression with every call replaced. *)
  Fixpoint replace_calls {IO'} (f : IO -> IO') (e : ir IO) : ir IO' :=
    match e with
    | IIO c => IIO (f c)
    | ICache age c => ICache age (f c)
    | IPath e p => IPath (replace_calls f e) p
    | IProtect a e => IProtect a (replace_calls f e)
    | IMap e m => IMap (replace_calls f e) m
    | IDiscriminate d e => IDiscriminate d (replace_calls f e)
    | IPipe e1 e2 => IPipe (replace_calls f e1) (replace_calls f e2)
    | IMerge l => IMerge (map (replace_calls f) l)
    | IEntity m => IEntity (map (fun ke => (fst ke, replace_calls f (snd ke))) m)
    | IContextPath p => IContextPath p
    | IDynamic d => IDynamic d
    | IService s => IService s
    end.
End Vocabulary.

Section Blueprint.
  Context {HttpT GqlT GrpcT Op Hook : Type}.
  Variable operation : GrpcT -> Op.
  Notation io := (io HttpT GqlT GrpcT Hook).
  Notation bdef := (bdef HttpT GqlT GrpcT Hook).
  Notation bfield := (bfield HttpT GqlT GrpcT Hook).

  Definition field_calls (f : bfield) : list io :=
    match bf_resolver f with Some e => calls e | None => [] end.
  (** The calls of the fields of object types, in order. *)
  Definition object_calls (d : bdef) : list io :=
    match d with DefObject _ fs => flat_map field_calls fs | _ => [] end.
  Definition all_object_calls (ds : list bdef) : list io := flat_map object_calls ds.

  (** A call without its loader's index. *)
  Definition forget (c : io) : io :=
    match c with
    | Http t g _ il d h => Http t g None il d h
    | GraphQL t f b _ d => GraphQL t f b None d
    | Grpc t g _ d h => Grpc t g None d h
    | Js n => Js n
    end.
  Definition forget_field (f : bfield) : bfield :=
    {| bf_name := bf_name f; bf_resolver := option_map (replace_calls forget) (bf_resolver f) |}.
  Definition forget_def (d : bdef) : bdef :=
    match d with
    | DefObject n fs => DefObject n (map forget_field fs)
    | d => d
    end.

  (** The loader a call is given was built from the call's own settings. *)
  Definition has_own_loader (l : loaders Op) (c : io) : Prop :=
    match c with
    | Http _ g dl is_list _ _ => exists n, dl = Some n /\ nth_error (l_http l) n = Some (g, is_list)
    | GraphQL _ _ batch dl _ => exists n, dl = Some n /\ nth_error (l_gql l) n = Some batch
    | Grpc t g dl _ _ => exists n, dl = Some n /\ nth_error (l_grpc l) n = Some (operation t, g)
    | Js _ => True
    end.

  (** Two calls of the same kind with the same index. *)
  Definition share_a_loader (a b : io) : Prop :=
    match a, b with
    | Http _ _ (Some n) _ _ _, Http _ _ (Some m) _ _ _ => n = m
    | GraphQL _ _ _ (Some n) _, GraphQL _ _ _ (Some m) _ => n = m
    | Grpc _ _ (Some n) _ _, Grpc _ _ (Some m) _ _ => n = m
    | _, _ => False
    end.
End Blueprint.
