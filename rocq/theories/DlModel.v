(** The data loader: src/core/data_loader/data_loader.rs, storage.rs, cache.rs. *)
From Coq Require Import Bool Arith Lia List.
From Verif Require Import Base.
Import ListNotations.
Open Scope list_scope.

Section Maps.
  Context {K V : Type}.
  Variable keq : forall a b : K, {a = b} + {a <> b}.

  (** [HashMap::get], [HashMap::insert], [HashSet::insert] on lists. *)
  Fixpoint lookup (k : K) (m : list (K * V)) : option V :=
    match m with
    | [] => None
    | (k', v) :: t => if keq k k' then Some v else lookup k t
    end.
  Fixpoint hput (k : K) (v : V) (m : list (K * V)) : list (K * V) :=
    match m with
    | [] => [(k, v)]
    | (k', v') :: t => if keq k k' then (k, v) :: t else (k', v') :: hput k v t
    end.
  Definition sadd (s : list K) (k : K) : list K := if in_dec keq k s then s else s ++ [k].
  Definition sadds (s l : list K) : list K := fold_left sadd l s.
  Definition hdel (k : K) (m : list (K * V)) : list (K * V) :=
    filter (fun e => if keq k (fst e) then false else true) m.
End Maps.

(** src/core/data_loader/storage.rs:5-29 *)
Record storage (K V : Type) : Type :=
  { C : Type; c_new : C; c_get : K -> C -> option V * C; c_put : K -> V -> C -> C; c_clear : C -> C }.
Arguments C {K V}. Arguments c_new {K V} s. Arguments c_get {K V} s. Arguments c_put {K V} s. Arguments c_clear {K V} s.

(** src/core/data_loader/cache.rs:14-57 *)
Definition no_cache (K V : Type) : storage K V :=
  {| C := unit; c_new := tt; c_get := fun _ c => (None, c); c_put := fun _ _ c => c; c_clear := fun c => c |}.

(** src/core/data_loader/cache.rs:60-116 *)
Definition hash_cache {K V : Type} (keq : forall a b : K, {a = b} + {a <> b}) : storage K V :=
  {| C := list (K * V); c_new := []; c_get := fun k c => (lookup keq k c, c); c_put := hput keq; c_clear := fun _ => [] |}.

(** src/core/data_loader/cache.rs:118-170, [lru::LruCache]: most recent first. *)
Definition lru_cache {K V : Type} (keq : forall a b : K, {a = b} + {a <> b}) (cap : nat) : storage K V :=
  {| C := list (K * V); c_new := [];
     c_get := fun k c => match lookup keq k c with
                         | Some v => (Some v, (k, v) :: hdel keq k c)
                         | None => (None, c)
                         end;
     c_put := fun k v c => firstn cap ((k, v) :: hdel keq k c);
     c_clear := fun _ => [] |}.

Section Loader.
  Context {K V Er : Type}.
  Variable keq : forall a b : K, {a = b} + {a <> b}.
  Variable sto : storage K V.
  (** [max_batch_size] *)
  Variable max_size : nat.

  (** data_loader.rs:135-141, 271-275: a call that waits: the keys it misses and the
      values it found in the cache. *)
  Record waiting : Type := { w_call : nat; w_missing : list K; w_cached : list (K * V) }.

  Inductive status : Type :=
  | Running
  | Finished (r : result (list (K * V)) Er)
  | Crashed.                                 (** the task panicked *)

  (** What was handed to [Loader::load]; [b_members] are the senders. *)
  Record batch : Type :=
    { b_keys : list K; b_members : list waiting; b_disable : bool; b_status : status }.

  (** What the future of [load_many] ends with: a result, or a panic because the
      sender was dropped (line 210). *)
  Inductive outcome : Type := Got (r : result (list (K * V)) Er) | Lost.

  (** [Requests] (277-287), the spawned timers with the flag they captured, all
      batches ever started, and what the calls were answered with. *)
  Record state : Type :=
    { d_keys : list K; d_pending : list waiting; d_cache : C sto; d_disabled : bool; d_all_disabled : bool;
      d_timers : list bool; d_batches : list batch;
      d_asked : list (nat * list K); d_answers : list (nat * outcome) }.

  Definition new : state :=
    {| d_keys := []; d_pending := []; d_cache := c_new sto; d_disabled := false; d_all_disabled := false;
       d_timers := []; d_batches := []; d_asked := []; d_answers := [] |}.

  Definition answer (s : state) (i : nat) : option outcome :=
    match find (fun a => Nat.eqb (fst a) i) (d_answers s) with Some (_, o) => Some o | None => None end.
  Definition asked (s : state) (i : nat) : option (list K) :=
    match find (fun a => Nat.eqb (fst a) i) (d_asked s) with Some (_, ks) => Some ks | None => None end.

  (** data_loader.rs:135-146: the cached values, the missing keys, the cache after. *)
  Fixpoint look (ks : list K) (c : C sto) (hit : list (K * V)) (miss : list K)
    : list (K * V) * list K * C sto :=
    match ks with
    | [] => (hit, miss, c)
    | k :: t =>
        match c_get sto k c with
        | (Some v, c') => look t c' (hput keq k v hit) miss
        | (None, c') => look t c' hit (sadd keq miss k)
        end
    end.

  (** data_loader.rs:353-359 *)
  Definition reply (vals : list (K * V)) (w : waiting) : list (K * V) :=
    fold_left (fun res k => match lookup keq k vals with Some v => hput keq k v res | None => res end)
              (w_missing w) (w_cached w).

  Definition send (r : result (list (K * V)) Er) (w : waiting) : nat * outcome :=
    (w_call w, Got (match r with Ok vals => Ok (reply vals w) | Err e => Err e end)).

  Inductive label : Type :=
  | Ask (i : nat) (ks : list K)                            (** 117-211 *)
  | Fire (t : nat)                                          (** 191-201 *)
  | Done (b : nat) (r : result (list (K * V)) Er)           (** 333-370 *)
  | Crash (b : nat)                                         (** [load] panics *)
  | EnableAll (on : bool)                                   (** 91-93 *)
  | Enable (on : bool)                                      (** 96-103 *)
  | Feed (kvs : list (K * V))                               (** 217-231 *)
  | Clear.                                                  (** 250-258 *)

  Fixpoint set_nth {A} (n : nat) (x : A) (l : list A) : list A :=
    match l, n with
    | [], _ => []
    | _ :: t, 0 => x :: t
    | y :: t, S n => y :: set_nth n x t
    end.
  Fixpoint del_nth {A} (n : nat) (l : list A) : list A :=
    match l, n with
    | [], _ => []
    | _ :: t, 0 => t
    | y :: t, S n => y :: del_nth n t
    end.
  Definition with_status (b : batch) (x : status) : batch :=
    {| b_keys := b_keys b; b_members := b_members b; b_disable := b_disable b; b_status := x |}.

  (** Line 161 with 175-183, and lines 193-200.  The flag [b_disable] is read right
      after the lock is released; here at once. *)
  Definition start_batch (ks : list K) (ws : list waiting) (dis : bool) (s : state) : state :=
    {| d_keys := []; d_pending := []; d_cache := d_cache s; d_disabled := d_disabled s;
       d_all_disabled := d_all_disabled s; d_timers := d_timers s;
       d_batches := d_batches s ++ [{| b_keys := ks; b_members := ws; b_disable := dis; b_status := Running |}];
       d_asked := d_asked s; d_answers := d_answers s |}.

  Definition load_many (i : nat) (ks : list K) (s : state) : state :=
    let '(hit, miss, c) :=
      if d_disabled s || d_all_disabled s then ([], sadds keq [] ks, d_cache s)
      else look ks (d_cache s) [] [] in
    let asked' := (i, ks) :: d_asked s in
    match miss with
    | [] =>
        {| d_keys := d_keys s; d_pending := d_pending s; d_cache := c; d_disabled := d_disabled s;
           d_all_disabled := d_all_disabled s; d_timers := d_timers s; d_batches := d_batches s;
           d_asked := asked'; d_answers := (i, Got (Ok hit)) :: d_answers s |}
    | _ =>
        let keys' := sadds keq (d_keys s) miss in
        let pending' := d_pending s ++ [{| w_call := i; w_missing := miss; w_cached := hit |}] in
        let s' :=
          {| d_keys := keys'; d_pending := pending'; d_cache := c; d_disabled := d_disabled s;
             d_all_disabled := d_all_disabled s; d_timers := d_timers s; d_batches := d_batches s;
             d_asked := asked'; d_answers := d_answers s |} in
        if max_size <=? length keys' then start_batch keys' pending' (d_all_disabled s) s'
        else
          {| d_keys := keys'; d_pending := pending'; d_cache := c; d_disabled := d_disabled s;
             d_all_disabled := d_all_disabled s;
             d_timers := match d_keys s with [] => d_timers s ++ [d_all_disabled s] | _ => d_timers s end;
             d_batches := d_batches s; d_asked := asked'; d_answers := d_answers s |}
    end.

  Definition with_timers (ts : list bool) (s : state) : state :=
    {| d_keys := d_keys s; d_pending := d_pending s; d_cache := d_cache s; d_disabled := d_disabled s;
       d_all_disabled := d_all_disabled s; d_timers := ts; d_batches := d_batches s;
       d_asked := d_asked s; d_answers := d_answers s |}.

  Definition with_cache (c : C sto) (s : state) : state :=
    {| d_keys := d_keys s; d_pending := d_pending s; d_cache := c; d_disabled := d_disabled s;
       d_all_disabled := d_all_disabled s; d_timers := d_timers s; d_batches := d_batches s;
       d_asked := d_asked s; d_answers := d_answers s |}.

  (** All of [do_load] after the loader returned runs under the lock. *)
  Definition end_batch (n : nat) (b : batch) (x : status) (c : C sto) (ans : list (nat * outcome)) (s : state) : state :=
    {| d_keys := d_keys s; d_pending := d_pending s; d_cache := c; d_disabled := d_disabled s;
       d_all_disabled := d_all_disabled s; d_timers := d_timers s;
       d_batches := set_nth n (with_status b x) (d_batches s);
       d_asked := d_asked s; d_answers := ans ++ d_answers s |}.

  Definition store_all (vals : list (K * V)) (c : C sto) : C sto :=
    fold_left (fun c kv => c_put sto (fst kv) (snd kv) c) vals c.

  Definition lost (w : waiting) : nat * outcome := (w_call w, Lost).

  Definition step (s : state) (l : label) : option state :=
    match l with
    | Ask i ks => match asked s i with Some _ => None | None => Some (load_many i ks s) end
    | Fire t =>
        match nth_error (d_timers s) t with
        | None => None
        | Some dis =>
            let s := with_timers (del_nth t (d_timers s)) s in
            match d_keys s with
            | [] =>
                (* the taken senders are dropped *)
                Some {| d_keys := []; d_pending := []; d_cache := d_cache s; d_disabled := d_disabled s;
                        d_all_disabled := d_all_disabled s; d_timers := d_timers s; d_batches := d_batches s;
                        d_asked := d_asked s; d_answers := map lost (d_pending s) ++ d_answers s |}
            | _ => Some (start_batch (d_keys s) (d_pending s) dis s)
            end
        end
    | Done n r =>
        match nth_error (d_batches s) n with
        | Some b =>
            match b_status b with
            | Running =>
                let c := match r with
                         | Ok vals => if d_disabled s || b_disable b then d_cache s else store_all vals (d_cache s)
                         | Err _ => d_cache s
                         end in
                Some (end_batch n b (Finished r) c (map (send r) (b_members b)) s)
            | _ => None
            end
        | None => None
        end
    | Crash n =>
        match nth_error (d_batches s) n with
        | Some b =>
            match b_status b with
            | Running => Some (end_batch n b Crashed (d_cache s) (map lost (b_members b)) s)
            | _ => None
            end
        | None => None
        end
    | EnableAll on =>
        Some {| d_keys := d_keys s; d_pending := d_pending s; d_cache := d_cache s; d_disabled := d_disabled s;
                d_all_disabled := negb on; d_timers := d_timers s; d_batches := d_batches s;
                d_asked := d_asked s; d_answers := d_answers s |}
    | Enable on =>
        Some {| d_keys := d_keys s; d_pending := d_pending s; d_cache := d_cache s; d_disabled := negb on;
                d_all_disabled := d_all_disabled s; d_timers := d_timers s; d_batches := d_batches s;
                d_asked := d_asked s; d_answers := d_answers s |}
    | Feed kvs => Some (with_cache (store_all kvs (d_cache s)) s)
    | Clear => Some (with_cache (c_clear sto (d_cache s)) s)
    end.

  Fixpoint steps (s : state) (ls : list label) : option state :=
    match ls with
    | [] => Some s
    | l :: rest => match step s l with Some s' => steps s' rest | None => None end
    end.
End Loader.
