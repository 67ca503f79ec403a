(** Walks over the type graph of a configuration: unused types, N+1 paths,
    nested unions. *)
From Coq Require Import String Ascii ZArith NArith Bool List.
From Verif Require Import Base Ordered JsonModel TypeModel ConfigModel.
Import ListNotations.
Open Scope string_scope.
Open Scope list_scope.

(* ---------- src/core/config/config.rs:573-625 and transformer/tree_shake.rs ---------- *)

(** src/core/config/config.rs:614-620: the names pushed for an object type, in
    push order. *)
Definition type_targets (t : gtype) : list string :=
  flat_map (fun kf => map (fun ka => type_name (arg_type (snd ka))) (f_args (snd kf))
                      ++ [type_name (f_type (snd kf))]) (t_fields t)
  ++ t_implements t.

(** src/core/config/config.rs:607-621: what is pushed for a name, or [None] when
    the name is neither a union nor an object type. *)
Definition pushed (c : config) (n : string) : option (list string) :=
  match find_union c n with
  | Some u => Some (u_types u)
  | None => match find_type c n with Some t => Some (type_targets t) | None => None end
  end.

(** src/core/config/config.rs:603-622: the [while let Some(..) = stack.pop()]
    loop; the head of the list is the top of the stack.  [None]: out of fuel
    (shown not to happen). *)
Fixpoint used_loop (fuel : nat) (c : config) (stack set : list string) : option (list string) :=
  match fuel with
  | O => None
  | S fuel' =>
      match stack with
      | [] => Some set
      | n :: rest =>
          if smem n set then used_loop fuel' c rest set
          else match pushed c n with
               | Some ts => used_loop fuel' c (rev ts ++ rest) (n :: set)
               | None => used_loop fuel' c rest set
               end
      end
  end.

(** src/core/config/config.rs:595-602: the mutation root is pushed last. *)
Definition root_stack (c : config) : list string :=
  (match r_mutation (c_schema c) with Some m => [m] | None => [] end) ++
  (match r_query (c_schema c) with Some q => [q] | None => [] end).

Definition all_names (c : config) : list string := map fst (c_types c) ++ map fst (c_unions c).

Definition out_degree (c : config) (n : string) : nat :=
  match pushed c n with Some ts => List.length ts | None => 0 end.

(** Enough fuel: one round per name ever pushed. *)
Definition used_fuel (c : config) : nat :=
  S (List.length (root_stack c) + list_sum (map (fun n => S (out_degree c n)) (all_names c))).

(** src/core/config/config.rs:594-625 *)
Definition used_names (c : config) : option (list string) :=
  used_loop (used_fuel c) c (root_stack c) [].

(** src/core/config/config.rs:582-591 *)
Definition unused_types (c : config) : option (list string) :=
  match used_names c with
  | Some used => Some (filter (fun n => negb (smem n used)) (all_names c))
  | None => None
  end.

(** src/core/config/config.rs:573-580 *)
Definition remove_types (c : config) (names : list string) : config :=
  {| c_server := c_server c; c_upstream := c_upstream c; c_schema := c_schema c;
     c_types := fold_left (fun m n => odel scmp n m) names (c_types c);
     c_unions := fold_left (fun m n => odel scmp n m) names (c_unions c);
     c_enums := c_enums c; c_links := c_links c; c_telemetry := c_telemetry c |}.

(** src/core/config/transformer/tree_shake.rs:17-21 *)
Definition tree_shake (c : config) : option config :=
  match unused_types c with Some names => Some (remove_types c names) | None => None end.

(* ---------- src/core/config/npo/tracker.rs ---------- *)

(** src/core/config/npo/tracker.rs:103-106 *)
Inductive path_name : Type :=
| PField (f : string)
| PEntity (t : string).

(** src/core/config/npo/tracker.rs:127.  Chunks are lists: [Chunk::append],
    [concat] and [prepend] (tailcall-chunk) keep the order of elements. *)
Definition npo_cache := list ((string * bool) * list (list path_name)).

Definition state_eqb (a b : string * bool) : bool :=
  String.eqb (fst a) (fst b) && Bool.eqb (snd a) (snd b).

Fixpoint cache_get (k : string * bool) (m : npo_cache) : option (list (list path_name)) :=
  match m with
  | [] => None
  | (k', v) :: t => if state_eqb k k' then Some v else cache_get k t
  end.

(** [HashMap::insert] *)
Definition cache_put (k : string * bool) (v : list (list path_name)) (m : npo_cache) : npo_cache :=
  (k, v) :: m.

(** src/core/config/npo/tracker.rs:152 *)
Definition unbatched (f : field) : bool :=
  has_resolver (f_resolvers f) && negb (is_batched (f_resolvers f)).

(** src/core/config/npo/tracker.rs:149-162: the loop over the fields of a type,
    with [visit] standing for the recursive call. *)
Fixpoint npo_fields
  (visit : npo_cache -> string -> bool -> option (npo_cache * list (list path_name)))
  (cache : npo_cache) (fields : list (string * field)) (is_list_ : bool)
  (chunks : list (list path_name)) : option (npo_cache * list (list path_name)) :=
  match fields with
  | [] => Some (cache, chunks)
  | (name, f) :: rest =>
      if is_list_ && unbatched f then
        npo_fields visit cache rest is_list_ (chunks ++ [[PField name]])
      else
        match visit cache (type_name (f_type f)) (is_list_ || is_list (f_type f)) with
        | Some (cache', sub) =>
            npo_fields visit cache' rest is_list_ (chunks ++ map (cons (PField name)) sub)
        | None => None
        end
  end.

(** src/core/config/npo/tracker.rs:135-168 without the prepending of the parent
    (170-178), which the caller does.  [None]: out of fuel (shown not to happen). *)
Fixpoint npo_iter (fuel : nat) (c : config) (cache : npo_cache) (ty : string) (is_list_ : bool) :
  option (npo_cache * list (list path_name)) :=
  match cache_get (ty, is_list_) cache with
  | Some chunks => Some (cache, chunks)
  | None =>
      match fuel with
      | O => None
      | S fuel' =>
          let cache1 := cache_put (ty, is_list_) [] cache in
          match find_type c ty with
          | Some t =>
              match npo_fields (npo_iter fuel' c) cache1 (t_fields t) is_list_ [] with
              | Some (cache2, chunks) =>
                  Some (cache_put (ty, is_list_) chunks cache2, chunks)
              | None => None
              end
          | None => Some (cache_put (ty, is_list_) [] cache1, [])
          end
      end
  end.

(** src/core/config/npo/tracker.rs:187-204 *)
Fixpoint npo_entities (fuel : nat) (c : config) (cache : npo_cache) (types : list (string * gtype))
  (chunks : list (list path_name)) : option (list (list path_name)) :=
  match types with
  | [] => Some chunks
  | (name, t) :: rest =>
      if has_resolver (t_resolvers t) then
        if is_batched (t_resolvers t) then
          match npo_iter fuel c cache name true with
          | Some (cache', sub) =>
              npo_entities fuel c cache' rest (chunks ++ map (cons (PEntity name)) sub)
          | None => None
          end
        else npo_entities fuel c cache rest (chunks ++ [[PEntity name]])
      else npo_entities fuel c cache rest chunks
  end.

(** Enough fuel: one level per distinct (type, flag) of the configuration, plus
    one for a name that is not a type. *)
Definition npo_fuel (c : config) : nat := S (S (2 * List.length (c_types c))).

(** src/core/config/npo/tracker.rs:181-211 *)
Definition n_plus_one (c : config) : option (list (list path_name)) :=
  match r_query (c_schema c) with
  | None => npo_entities (npo_fuel c) c [] (c_types c) []
  | Some q =>
      match npo_iter (npo_fuel c) c [] q false with
      | Some (cache, chunks) => npo_entities (npo_fuel c) c cache (c_types c) chunks
      | None => None
      end
  end.

(* ---------- src/core/config/transformer/nested_unions.rs ---------- *)

(** src/core/config/transformer/nested_unions.rs:49-69.  State: the member set
    being built, the [seen] set, and whether any step failed ([Valid::from_iter]
    visits every member even after a failure).  [None]: out of fuel. *)
Fixpoint walk_members
  (walk : list string -> list string -> list string -> option (list string * list string * bool))
  (unions : list (string * gunion))
  (members acc seen : list string) : option (list string * list string * bool) :=
  match members with
  | [] => Some (acc, seen, true)
  | n :: rest =>
      match oget scmp n unions with
      | Some u =>
          if smem n seen then
            match walk_members walk unions rest acc seen with
            | Some (a, s, _) => Some (a, s, false)
            | None => None
            end
          else
            match walk (u_types u) acc (n :: seen) with
            | Some (a1, s1, ok1) =>
                match walk_members walk unions rest a1 s1 with
                | Some (a2, s2, ok2) => Some (a2, s2, ok1 && ok2)
                | None => None
                end
            | None => None
            end
      | None => walk_members walk unions rest (sins scmp n acc) seen
      end
  end.

Fixpoint walk_union (fuel : nat) (unions : list (string * gunion)) (members acc seen : list string) :
  option (list string * list string * bool) :=
  match fuel with
  | O => None
  | S fuel' => walk_members (walk_union fuel' unions) unions members acc seen
  end.

Definition union_fuel (unions : list (string * gunion)) : nat := S (List.length unions).

(** src/core/config/transformer/nested_unions.rs:35-45 for one union: the
    flattened members, or [Err] for "Recursive type". *)
Definition flatten_union (unions : list (string * gunion)) (u : gunion) :
  option (result gunion unit) :=
  match walk_union (union_fuel unions) unions (u_types u) [] [] with
  | Some (acc, _, true) => Some (Ok {| u_types := acc; u_doc := u_doc u |})
  | Some (_, _, false) => Some (Err tt)
  | None => None
  end.

(** src/core/config/transformer/nested_unions.rs:32-47: every union is visited,
    the result is kept if none failed. *)
Fixpoint flatten_all (unions : list (string * gunion)) (l : list (string * gunion)) :
  option (result (list (string * gunion)) unit) :=
  match l with
  | [] => Some (Ok [])
  | (n, u) :: rest =>
      match flatten_union unions u, flatten_all unions rest with
      | Some (Ok u'), Some (Ok rest') => Some (Ok ((n, u') :: rest'))
      | None, _ | _, None => None
      | _, _ => Some (Err tt)
      end
  end.

(** src/core/config/transformer/nested_unions.rs:17-24 *)
Definition nested_unions (c : config) : option (result config unit) :=
  match flatten_all (c_unions c) (c_unions c) with
  | Some (Ok us) =>
      Some (Ok {| c_server := c_server c; c_upstream := c_upstream c; c_schema := c_schema c;
                  c_types := c_types c; c_unions := us; c_enums := c_enums c;
                  c_links := c_links c; c_telemetry := c_telemetry c |})
  | Some (Err e) => Some (Err e)
  | None => None
  end.
