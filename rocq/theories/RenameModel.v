(** Renaming types, src/core/config/transformer/rename_types.rs. *)
From Coq Require Import String Ascii ZArith NArith Bool List.
From Verif Require Import Base Ordered JsonModel TypeModel ConfigModel.
Import ListNotations.
Open Scope string_scope.
Open Scope list_scope.

(** [map.remove(k)] followed by [map.insert(v, _)] if it was there:
    src/core/config/transformer/rename_types.rs:38-39, 51-52, 57-58. *)
Definition move {V} (k v : string) (m : list (string * V)) : list (string * V) :=
  match oget scmp k m with
  | Some x => oins scmp v x (odel scmp k m)
  | None => m
  end.

Definition has {V} (k : string) (m : list (string * V)) : bool :=
  match oget scmp k m with Some _ => true | None => false end.

(** The mutable state of the first loop. *)
Record rename_state := {
  rs_types : list (string * gtype);
  rs_enums : list (string * genum);
  rs_unions : list (string * gunion);
  rs_query : option string;
  rs_mutation : option string;
  rs_lookup : list (string * string);
  rs_ok : bool
}.

(** src/core/config/transformer/rename_types.rs:32-69, one entry of the map.
    [Valid::from_iter] goes on after a failure. *)
Definition rename_one (s : rename_state) (kv : string * string) : rename_state :=
  let k := fst kv in let v := snd kv in
  if has k (rs_types s) || has k (rs_enums s) || has k (rs_unions s) then
    let is_type := has k (rs_types s) in
    {| rs_types := move k v (rs_types s);
       rs_enums := move k v (rs_enums s);
       rs_unions := move k v (rs_unions s);
       rs_query :=
         if is_type then
           match rs_query s with
           | Some q => if String.eqb q k then Some v else Some q
           | None => None
           end
         else rs_query s;
       rs_mutation :=
         if is_type then
           match rs_query s with
           | Some q => if String.eqb q k then rs_mutation s else
               match rs_mutation s with
               | Some m => if String.eqb m k then Some v else Some m
               | None => None
               end
           | None =>
               match rs_mutation s with
               | Some m => if String.eqb m k then Some v else Some m
               | None => None
               end
           end
         else rs_mutation s;
       rs_lookup := aset k v (rs_lookup s);
       rs_ok := rs_ok s |}
  else
    {| rs_types := rs_types s; rs_enums := rs_enums s; rs_unions := rs_unions s;
       rs_query := rs_query s; rs_mutation := rs_mutation s; rs_lookup := rs_lookup s;
       rs_ok := false |}.

(** [lookup.get(n)] *)
Definition looked (lookup : list (string * string)) (n : string) : string :=
  match aget n lookup with Some v => v | None => n end.

(** src/core/config/transformer/rename_types.rs:74-76 and 80-82 *)
Definition rename_typ (lookup : list (string * string)) (t : typ) : typ :=
  match aget (type_name t) lookup with Some v => with_name v t | None => t end.

(** src/core/config/transformer/rename_types.rs:79-84 *)
Definition rename_arg (lookup : list (string * string)) (a : arg) : arg :=
  {| arg_type := rename_typ lookup (arg_type a); arg_doc := arg_doc a;
     arg_modify := arg_modify a; arg_default := arg_default a |}.

Definition map_values {V W} (f : V -> W) (m : list (string * V)) : list (string * W) :=
  map (fun kv => (fst kv, f (snd kv))) m.

(** src/core/config/transformer/rename_types.rs:72-85 *)
Definition rename_field (lookup : list (string * string)) (f : field) : field :=
  {| f_type := rename_typ lookup (f_type f);
     f_args := map_values (rename_arg lookup) (f_args f);
     f_doc := f_doc f; f_modify := f_modify f; f_omit := f_omit f; f_cache := f_cache f;
     f_default := f_default f; f_protected := f_protected f;
     f_discriminate := f_discriminate f; f_resolvers := f_resolvers f;
     f_directives := f_directives f |}.

(** src/core/config/transformer/rename_types.rs:71-98 *)
Definition rename_gtype (lookup : list (string * string)) (t : gtype) : gtype :=
  {| t_fields := map_values (rename_field lookup) (t_fields t);
     t_added := t_added t; t_doc := t_doc t;
     t_implements := sextend scmp [] (map (looked lookup) (t_implements t));
     t_cache := t_cache t; t_protected := t_protected t; t_resolvers := t_resolvers t;
     t_directives := t_directives t |}.

Definition sremove (k : string) (m : list string) : list string :=
  filter (fun x => negb (String.eqb k x)) m.

(** src/core/config/transformer/rename_types.rs:101-121: the two hash sets are
    walked in the order of the members; the order does not matter. *)
Definition rename_members_1 (lookup : list (string * string)) (ms : list string) : list string :=
  let renamed := filter (fun n => match aget n lookup with Some _ => true | None => false end) ms in
  sextend scmp (fold_left (fun acc n => sremove n acc) renamed ms) (map (looked lookup) renamed).

(** src/core/config/transformer/rename_types.rs:124-135 *)
Definition rename_members_2 (lookup : list (string * string)) (ms : list string) : list string :=
  sextend scmp [] (map (looked lookup) ms).

Definition rename_gunion (lookup : list (string * string)) (u : gunion) : gunion :=
  {| u_types := rename_members_2 lookup (rename_members_1 lookup (u_types u)); u_doc := u_doc u |}.

(** src/core/config/transformer/rename_types.rs:27-138 *)
Definition rename_types (names : list (string * string)) (c : config) : result config unit :=
  let s := fold_left rename_one names
    {| rs_types := c_types c; rs_enums := c_enums c; rs_unions := c_unions c;
       rs_query := r_query (c_schema c); rs_mutation := r_mutation (c_schema c);
       rs_lookup := []; rs_ok := true |} in
  if rs_ok s then
    Ok {| c_server := c_server c; c_upstream := c_upstream c;
          c_schema := {| r_query := rs_query s; r_mutation := rs_mutation s;
                         r_subscription := r_subscription (c_schema c) |};
          c_types := map_values (rename_gtype (rs_lookup s)) (rs_types s);
          c_unions := map_values (rename_gunion (rs_lookup s)) (rs_unions s);
          c_enums := rs_enums s; c_links := c_links c; c_telemetry := c_telemetry c |}
  else Err tt.
