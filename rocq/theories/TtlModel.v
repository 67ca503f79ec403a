(** The resolver cache: src/core/cache/cache.rs over the ttl_cache crate. *)
From Coq Require Import ZArith Bool List.
Import ListNotations.
Open Scope list_scope.
Open Scope Z_scope.

Section Ttl.
  Context {V : Type}.

  (** ttl_cache::TtlCache: a linked hash map from keys to a value and the instant
      (in milliseconds) it expires, oldest insertion first.  Keys are the [u64] of
      [IoId]. *)
  Definition ttl_map := list (Z * (V * Z)).

  Fixpoint t_find (k : Z) (m : ttl_map) : option (V * Z) :=
    match m with
    | [] => None
    | (k', e) :: t => if k =? k' then Some e else t_find k t
    end.

  Definition t_remove (k : Z) (m : ttl_map) : ttl_map :=
    filter (fun e => negb (k =? fst e)) m.

  (** TtlCache::insert: the key moves to the back; past the capacity the oldest
      entry goes. *)
  Definition t_insert (cap : nat) (now : Z) (k : Z) (v : V) (ttl : Z) (m : ttl_map) : ttl_map :=
    let m' := t_remove k m ++ [(k, (v, now + ttl))] in
    if (cap <? length m')%nat then tl m' else m'.

  (** TtlCache::get: an entry is expired when the clock is past its instant. *)
  Definition t_get (now : Z) (k : Z) (m : ttl_map) : option V :=
    match t_find k m with
    | Some (v, e) => if e <? now then None else Some v
    | None => None
    end.

  (** src/core/cache/cache.rs:11-15 *)
  Record mem_cache := { mc_data : ttl_map; mc_hits : N; mc_miss : N }.

  (** src/core/cache/cache.rs:23-31 *)
  Definition mc_new : mem_cache := {| mc_data := []; mc_hits := 0; mc_miss := 0 |}.

  (** src/core/cache/cache.rs:41-45 *)
  Definition mc_set (cap : nat) (now : Z) (k : Z) (v : V) (ttl : Z) (c : mem_cache) : mem_cache :=
    {| mc_data := t_insert cap now k v ttl (mc_data c); mc_hits := mc_hits c; mc_miss := mc_miss c |}.

  (** src/core/cache/cache.rs:47-55 *)
  Definition mc_get (now : Z) (k : Z) (c : mem_cache) : option V * mem_cache :=
    match t_get now k (mc_data c) with
    | Some v => (Some v, {| mc_data := mc_data c; mc_hits := mc_hits c + 1; mc_miss := mc_miss c |})
    | None => (None, {| mc_data := mc_data c; mc_hits := mc_hits c; mc_miss := mc_miss c + 1 |})
    end.

  (** src/core/cache/cache.rs:57-69: the two counters the rate is computed from,
      or nothing. *)
  Definition mc_hit_rate (c : mem_cache) : option (N * N) :=
    if (0 <? mc_hits c + mc_miss c)%N then Some (mc_hits c, (mc_hits c + mc_miss c)%N) else None.

  (** A use of the cache at an instant. *)
  Inductive use : Type :=
  | USet (now k : Z) (v : V) (ttl : Z)
  | UGet (now k : Z).

  (** The cache after some uses, and what each lookup returned. *)
  Fixpoint uses (cap : nat) (l : list use) (c : mem_cache) : list (option V) * mem_cache :=
    match l with
    | [] => ([], c)
    | USet now k v ttl :: t => uses cap t (mc_set cap now k v ttl c)
    | UGet now k :: t =>
        let '(r, c) := mc_get now k c in
        let '(rs, c) := uses cap t c in (r :: rs, c)
    end.
End Ttl.
Arguments use V : clear implicits.
Arguments ttl_map V : clear implicits.
Arguments mem_cache V : clear implicits.
