(** What a user of the resolver cache sees (C34). *)
From Coq Require Import ZArith Bool List.
From Verif Require Import TtlModel.
Import ListNotations.
Open Scope Z_scope.

Section Spec.
  Context {V : Type}.

  (** [Stored l k v t]: the last write of [k] in the history [l] wrote [v], to be
      kept until [t]. *)
  Inductive Stored (k : Z) : list (use V) -> V -> Z -> Prop :=
  | Stored_last : forall past now v ttl, Stored k (past ++ [USet now k v ttl]) v (now + ttl)
  | Stored_earlier : forall past u v t,
      (forall now w ttl, u <> USet now k w ttl) ->
      Stored k past v t -> Stored k (past ++ [u]) v t.

  (** The keys written in a history. *)
  Definition written (l : list (use V)) : list Z :=
    flat_map (fun u => match u with USet _ k _ _ => [k] | UGet _ _ => [] end) l.

  Definition is_get (u : use V) : bool := match u with UGet _ _ => true | USet _ _ _ _ => false end.
End Spec.
