(** Vocabulary for the data loader (C10, C11). *)
From Coq Require Import Bool Arith List.
From Verif Require Import Base DlModel.
Import ListNotations.
Open Scope list_scope.

(** What a cache has to do: looking up changes no content, a stored key has the
    stored value or is forgotten, other keys keep their value or are forgotten,
    nothing is there at the start and after clearing. *)
Record CacheLaws {K V} (sto : storage K V) : Prop :=
  { law_get : forall k k' c, fst (c_get sto k (snd (c_get sto k' c))) = fst (c_get sto k c);
    law_put : forall k v c x, fst (c_get sto k (c_put sto k v c)) = Some x -> x = v;
    law_other : forall k k' v c x, k <> k' -> fst (c_get sto k (c_put sto k' v c)) = Some x -> fst (c_get sto k c) = Some x;
    law_new : forall k, fst (c_get sto k (c_new sto)) = None;
    law_clear : forall k c, fst (c_get sto k (c_clear sto c)) = None }.

Section Spec.
  Context {K V Er : Type}.
  Variable keq : forall a b : K, {a = b} + {a <> b}.
  Variable sto : storage K V.
  Notation state := (state (Er := Er) sto).

  (** What a call made now finds in the cache. *)
  Definition cached (s : state) (k : K) : option V :=
    if d_disabled _ s || d_all_disabled _ s then None else fst (c_get sto k (d_cache _ s)).

  (** The batch handed to the loader for call [i]. *)
  Definition in_batch (s : state) (i : nat) (b : batch (Er := Er)) : Prop :=
    In b (d_batches _ s) /\ In i (map w_call (b_members b)).

  (** The calls somebody still works for: those waiting for a batch to start, and the
      members of running batches. *)
  Definition running (b : batch (K := K) (V := V) (Er := Er)) : bool :=
    match b_status b with Running => true | _ => false end.
  Definition in_work (s : state) : list nat :=
    map w_call (d_pending _ s) ++ flat_map (fun b => map w_call (b_members b)) (filter running (d_batches _ s)).
End Spec.
