(** Ordered containers: the stand-ins for Rust's [BTreeMap] and [BTreeSet].
    Nothing here models tailcall itself.  A [BTreeMap<K, V>] is the list of its
    entries in strictly increasing key order (its iteration order); the order on
    keys is a comparison function. *)
From Coq Require Import String Ascii ZArith NArith Bool List.
From Verif Require Import Base.
Import ListNotations.
Open Scope list_scope.

(** Comparison functions ([Ord] of Rust's strings, options, tuples and sequences). *)
Definition cmp_opt {A} (c : A -> A -> comparison) (x y : option A) : comparison :=
  match x, y with
  | None, None => Eq
  | None, Some _ => Lt
  | Some _, None => Gt
  | Some a, Some b => c a b
  end.

Definition cmp_pair {A B} (c : A -> A -> comparison) (d : B -> B -> comparison)
  (x y : A * B) : comparison :=
  match c (fst x) (fst y) with Eq => d (snd x) (snd y) | r => r end.

Fixpoint cmp_list {A} (c : A -> A -> comparison) (x y : list A) : comparison :=
  match x, y with
  | [], [] => Eq
  | [], _ :: _ => Lt
  | _ :: _, [] => Gt
  | a :: x', b :: y' => match c a b with Eq => cmp_list c x' y' | r => r end
  end.

Section Map.
  Context {K V : Type}.
  Variable cmp : K -> K -> comparison.

  (** [BTreeMap::get] *)
  Fixpoint oget (k : K) (m : list (K * V)) : option V :=
    match m with
    | [] => None
    | (k', v) :: t => match cmp k k' with Eq => Some v | _ => oget k t end
    end.

  (** [BTreeMap::insert] *)
  Fixpoint oins (k : K) (v : V) (m : list (K * V)) : list (K * V) :=
    match m with
    | [] => [(k, v)]
    | (k', v') :: t =>
        match cmp k k' with
        | Lt => (k, v) :: (k', v') :: t
        | Eq => (k', v) :: t
        | Gt => (k', v') :: oins k v t
        end
    end.

  (** [BTreeMap::remove] *)
  Fixpoint odel (k : K) (m : list (K * V)) : list (K * V) :=
    match m with
    | [] => []
    | (k', v') :: t =>
        match cmp k k' with Eq => odel k t | _ => (k', v') :: odel k t end
    end.

  (** Collecting pairs into a [BTreeMap]: later entries overwrite. *)
  Definition omap_of (l : list (K * V)) : list (K * V) :=
    fold_left (fun acc kv => oins (fst kv) (snd kv) acc) l [].

  (** Strictly increasing keys: the invariant of [BTreeMap]. *)
  Inductive osorted : list (K * V) -> Prop :=
  | osorted_nil : osorted []
  | osorted_cons : forall k v t,
      (forall k' v', In (k', v') t -> cmp k k' = Lt) ->
      osorted t -> osorted ((k, v) :: t).
End Map.

(** [BTreeSet<K>]: the list of its elements in increasing order. *)
Section Set_.
  Context {K : Type}.
  Variable cmp : K -> K -> comparison.

  (** [BTreeSet::insert] *)
  Fixpoint sins (k : K) (m : list K) : list K :=
    match m with
    | [] => [k]
    | k' :: t =>
        match cmp k k' with
        | Lt => k :: k' :: t
        | Eq => k' :: t
        | Gt => k' :: sins k t
        end
    end.

  (** [BTreeSet::extend] *)
  Definition sextend (a : list K) (b : list K) : list K :=
    fold_left (fun acc k => sins k acc) b a.

  Inductive ssorted : list K -> Prop :=
  | ssorted_nil : ssorted []
  | ssorted_cons : forall k t,
      (forall k', In k' t -> cmp k k' = Lt) -> ssorted t -> ssorted (k :: t).
End Set_.

Notation scmp := String.compare.
