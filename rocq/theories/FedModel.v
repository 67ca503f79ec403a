(** Merging the configurations of several subgraphs:
    src/core/config/config_module/merge.rs and src/core/config/config_module.rs. *)
From Coq Require Import String Ascii ZArith NArith Bool Arith List.
From Verif Require Import Base Ordered JsonModel TypeModel ConfigModel MergeModel AmbModel.
Import ListNotations.
Open Scope string_scope.
Open Scope list_scope.

(** [Valid] of the crate tailcall-valid: a value or the errors collected so far.  The
    traces of the errors are left out. *)
Definition valid (A : Type) : Type := result A (list string).

(** [Valid::fuse]: both, or the errors of both. *)
Definition vfuse {A B} (a : valid A) (b : valid B) : valid (A * B) :=
  match a, b with
  | Ok x, Ok y => Ok (x, y)
  | Ok _, Err e => Err e
  | Err e, Ok _ => Err e
  | Err e, Err e' => Err (e ++ e')
  end.

(** [Valid::from_iter]: all, or the errors of all. *)
Fixpoint viter {A B} (f : A -> valid B) (l : list A) : valid (list B) :=
  match l with
  | [] => Ok []
  | a :: t => rmap (fun bs => fst bs :: snd bs) (vfuse (f a) (viter f t))
  end.

(** merge.rs:12-46 *)
Fixpoint typ_merge (non_null_merge : bool -> bool -> bool) (a b : typ) : valid typ :=
  match a, b with
  | TNamed name non_null, TNamed other_name other_non_null =>
      if String.eqb name other_name
      then Ok (TNamed name (non_null_merge non_null other_non_null))
      else Err ["Type mismatch: expected `" ++ name ++ "`, got `" ++ other_name ++ "`"]%string
  | TList of_type non_null, TList other_of_type other_non_null =>
      rmap (fun t => TList t (non_null_merge non_null other_non_null)) (typ_merge non_null_merge of_type other_of_type)
  | _, _ => Err ["Type mismatch: expected list, got singular value"]
  end.
(** merge.rs:48-61 *)
Definition typ_shrink : typ -> typ -> valid typ := typ_merge orb.
(** merge.rs:63-76 *)
Definition typ_expand : typ -> typ -> valid typ := typ_merge andb.

(** merge.rs:365-395, before the result is collected into a map.  The entries of [a] are
    removed as they are met (names of [b] are distinct, so removing them is looking them
    up); the loop over what is left of [a] comes second.  The order of that second loop,
    changed by [swap_remove] in an index map, only shows in the order of errors. *)
Definition entries_shrink {V} (type_of : V -> typ) (shrink : V -> V -> valid V) (a b : list (string * V)) :
  valid (list (string * V)) :=
  rmap (fun bs => flat_map opt_list (fst bs))
    (vfuse
      (viter (fun nb =>
         match aget (fst nb) a with
         | Some x => rmap (fun m => Some (fst nb, m)) (shrink x (snd nb))
         | None =>
             if is_nullable (type_of (snd nb)) then Ok None
             else Err ["Input arg is marked as non_null on the right side, but is not present on the left side"]
         end) b)
      (viter (fun na =>
         if is_nullable (type_of (snd na)) then Ok tt
         else Err ["Input arg is marked as non_null on the left side, but is not present on the right side"])
         (filter (fun na => negb (amem (fst na) b)) a))).

(** merge.rs:397-417, before the results are collected: what is merged, then what is
    left of [a]. *)
Definition entries_expand {V} (expand : V -> V -> valid V) (a b : list (string * V)) : valid (list (string * V)) :=
  rmap (fun merged => merged ++ filter (fun na => negb (amem (fst na) b)) a)
    (viter (fun nb =>
       match aget (fst nb) a with
       | Some x => rmap (fun m => (fst nb, m)) (expand x (snd nb))
       | None => Ok nb
       end) b).

(** [self.or(other)] on options *)
Definition opt_or {A} (a b : option A) : option A := match a with Some _ => a | None => b end.

(** src/core/config/directives/modify.rs:16-25, derived *)
Definition m_modify (a b : modify) : modify :=
  {| mod_name := m_opt m_last (mod_name a) (mod_name b); mod_omit := m_opt m_last (mod_omit a) (mod_omit b) |}.

(** merge.rs:78-87 *)
Definition arg_shrink (a b : arg) : valid arg :=
  rmap (fun ty => {| arg_type := ty; arg_doc := m_opt m_last (arg_doc a) (arg_doc b);
                     arg_modify := m_opt m_modify (arg_modify a) (arg_modify b);
                     arg_default := opt_or (arg_default a) (arg_default b) |})
    (typ_shrink (arg_type a) (arg_type b)).

(** Arguments are an [IndexMap]: collecting keeps the order (names are distinct). *)
Definition args_shrink : list (string * arg) -> list (string * arg) -> valid (list (string * arg)) :=
  entries_shrink arg_type arg_shrink.

(** merge.rs:93-107 and 115-129: the members other than the type and the arguments *)
Definition field_with (a b : field) (ty : typ) (args : list (string * arg)) : field :=
  {| f_type := ty; f_args := args;
     f_doc := m_opt m_last (f_doc a) (f_doc b);
     f_modify := m_opt m_modify (f_modify a) (f_modify b);
     f_omit := f_omit a || f_omit b;
     f_cache := m_opt m_last (f_cache a) (f_cache b);
     f_default := opt_or (f_default a) (f_default b);
     f_protected := m_opt m_protected (f_protected a) (f_protected b);
     f_discriminate := m_opt (m_opt m_last) (f_discriminate a) (f_discriminate b);
     f_resolvers := m_resolvers (f_resolvers a) (f_resolvers b);
     f_directives := m_vec (f_directives a) (f_directives b) |}.
(** merge.rs:89-108 *)
Definition field_shrink (a b : field) : valid field :=
  rmap (fun p => field_with a b (fst p) (snd p)) (vfuse (typ_shrink (f_type a) (f_type b)) (args_shrink (f_args a) (f_args b))).
(** merge.rs:110-130 *)
Definition field_expand (a b : field) : valid field :=
  rmap (fun p => field_with a b (fst p) (snd p)) (vfuse (typ_expand (f_type a) (f_type b)) (args_shrink (f_args a) (f_args b))).

(** merge.rs:134-145 and 150-161: the members other than the fields *)
Definition gtype_with (a b : gtype) (fields : list (string * field)) : gtype :=
  {| t_fields := fields;
     t_added := m_vec (t_added a) (t_added b);
     t_doc := m_opt m_last (t_doc a) (t_doc b);
     t_implements := m_set scmp (t_implements a) (t_implements b);
     t_cache := m_opt m_last (t_cache a) (t_cache b);
     t_protected := m_opt m_protected (t_protected a) (t_protected b);
     t_resolvers := m_resolvers (t_resolvers a) (t_resolvers b);
     t_directives := m_vec (t_directives a) (t_directives b) |}.
(** merge.rs:132-146; fields are a [BTreeMap] *)
Definition gtype_shrink (a b : gtype) : valid gtype :=
  rmap (fun fs => gtype_with a b (omap_of scmp fs)) (entries_shrink f_type field_shrink (t_fields a) (t_fields b)).
(** merge.rs:148-162 *)
Definition gtype_expand (a b : gtype) : valid gtype :=
  rmap (fun fs => gtype_with a b (omap_of scmp fs)) (entries_expand field_expand (t_fields a) (t_fields b)).

(** [BTreeSet::contains] on variants *)
Definition has_variant (v : variant) (l : list variant) : bool :=
  existsb (fun w => match vcmp v w with Eq => true | _ => false end) l.
(** merge.rs:164-173 *)
Definition genum_shrink (a b : genum) : valid genum :=
  Ok {| e_variants := filter (fun v => has_variant v (e_variants b)) (e_variants a);
        e_doc := m_opt m_last (e_doc a) (e_doc b) |}.
(** merge.rs:175-184 *)
Definition genum_expand (a b : genum) : valid genum :=
  Ok {| e_variants := sextend vcmp (e_variants a) (e_variants b); e_doc := m_opt m_last (e_doc a) (e_doc b) |}.

(** The derived [PartialEq] of [Enum], config.rs:293-298. *)
Definition genum_eqb (a b : genum) : bool :=
  match cmp_list vcmp (e_variants a) (e_variants b), cmp_opt scmp (e_doc a) (e_doc b) with Eq, Eq => true | _, _ => false end.

(** merge.rs:186-202 *)
Definition schema_unify (a b : root_schema) : root_schema :=
  {| r_query := opt_or (r_query a) (r_query b);
     r_mutation := opt_or (r_mutation a) (r_mutation b);
     r_subscription := opt_or (r_subscription a) (r_subscription b) |}.

(** src/core/config/config_module.rs:28-34.  Of the interface map only the keys matter
    here. *)
Record cache := { k_config : config; k_inputs : list string; k_outputs : list string; k_interfaces : list string }.

(** src/core/config/config.rs:505-562, the keys of the map *)
Definition interfaces (c : config) : list string := flat_map (fun kt => t_implements (snd kt)) (c_types c).

(** src/core/config/config_module.rs:36-49; [None]: a walk did not end. *)
Definition cache_of (fuel : nat) (c : config) : option cache :=
  match input_types fuel c, output_types fuel c with
  | Some i, Some o => Some {| k_config := c; k_inputs := i; k_outputs := o; k_interfaces := interfaces c |}
  | _, _ => None
  end.

(** merge.rs:213-241 *)
Definition unify_type (k1 k2 : cache) (n : string) (ty other_type : gtype) : valid gtype :=
  let is_self_input := smem n (k_inputs k1) in
  let is_other_input := smem n (k_inputs k2) in
  let is_self_output := smem n (k_outputs k1) || smem n (k_interfaces k1) in
  let is_other_output := smem n (k_outputs k2) || smem n (k_interfaces k2) in
  match is_self_input, is_self_output, is_other_input, is_other_output with
  | true, false, true, false => gtype_shrink ty other_type
  | false, true, false, true => gtype_expand ty other_type
  | false, false, true, false | true, false, false, false => gtype_shrink ty other_type
  | false, false, false, true | false, true, false, false => gtype_expand ty other_type
  | true, true, _, _ | _, _, true, true =>
      Err ["Type is used both as input and output type that couldn't be merged for federation"]
  | true, false, false, true | false, true, true, false =>
      Err ["Type is used as input type in one subgraph and output type in another"]
  | false, false, false, false => Err ["Cannot infer the usage of type and therefore merge it from the subgraph"]
  end.

(** merge.rs:255-287 *)
Definition unify_enum (k1 k2 : cache) (n : string) (en other_enum : genum) : valid genum :=
  let is_self_input := smem n (k_inputs k1) in
  let is_other_input := smem n (k_inputs k2) in
  let is_self_output := smem n (k_outputs k1) in
  let is_other_output := smem n (k_outputs k2) in
  match is_self_input, is_self_output, is_other_input, is_other_output with
  | true, false, true, false => genum_shrink en other_enum
  | false, true, false, true => genum_expand en other_enum
  | false, false, true, false | true, false, false, false => genum_shrink en other_enum
  | false, false, false, true | false, true, false, false => genum_expand en other_enum
  | true, true, _, _ | _, _, true, true =>
      if genum_eqb en other_enum then Ok en
      else Err ["Enum is used both as input and output types and in that case the enum content should be equal for every subgraph"]
  | true, false, false, true | false, true, true, false =>
      Err ["Enum is used as input type in one subgraph and output type in another"]
  | false, false, false, false => Err ["Cannot infer the usage of enum and therefore merge it from the subgraph"]
  end.

(** merge.rs:209-247 and 249-292 with the [extend] of 295-296: the definitions of one
    kind *)
Definition unify_definitions {V} (one : string -> V -> V -> valid V) (a b : list (string * V)) : valid (list (string * V)) :=
  rmap (fun merged => fold_left (fun acc kv => oins scmp (fst kv) (snd kv) acc) merged
                        (filter (fun na => negb (amem (fst na) b)) a))
    (viter (fun nb =>
       match aget (fst nb) a with
       | Some x => rmap (fun m => (fst nb, m)) (one (fst nb) x (snd nb))
       | None => Ok nb
       end) b).

(** merge.rs:204-312.  The settings are those of the left configuration
    ([..self.config]). *)
Definition unify (k1 k2 : cache) : valid cache :=
  let c1 := k_config k1 in
  let c2 := k_config k2 in
  rmap (fun te =>
    {| k_config :=
         {| c_server := c_server c1; c_upstream := c_upstream c1;
            c_schema := schema_unify (c_schema c1) (c_schema c2);
            c_types := fst te;
            c_unions := m_btree m_gunion (c_unions c1) (c_unions c2);
            c_enums := snd te;
            c_links := c_links c1; c_telemetry := c_telemetry c1 |};
       k_inputs := m_vec (k_inputs k1) (k_inputs k2);
       k_outputs := m_vec (k_outputs k1) (k_outputs k2);
       k_interfaces := m_vec (k_interfaces k1) (k_interfaces k2) |})
    (vfuse (unify_definitions (unify_type k1 k2) (c_types c1) (c_types c2))
           (unify_definitions (unify_enum k1 k2) (c_enums c1) (c_enums c2))).

(** src/core/config/reader.rs:220-226: one file after the other, stopping at the first
    failure (also 65-79, for links). *)
Definition unify_all (k : cache) (others : list cache) : valid cache :=
  fold_left (fun acc other => rbind acc (fun k => unify k other)) others (Ok k).
