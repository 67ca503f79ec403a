(** Names of types from names of fields: src/core/config/transformer/improve_type_names.rs. *)
From Coq Require Import String Ascii ZArith Bool Arith List.
From Verif Require Import Base Ordered JsonModel TypeModel ConfigModel AmbModel RenameModel.
Import ListNotations.
Open Scope string_scope.
Open Scope list_scope.

Section Improve.
  (** [pluralizer::pluralize(name, 1, false)] *)
  Variable singular : string -> string.
  (** [to_case(Case::Pascal)] and [to_lowercase] *)
  Variable pascal : string -> string.
  Variable lowercase : string -> string.

  (** improve_type_names.rs:11-15: frequency and priority; [u32] is a natural number here. *)
  Definition stats : Type := (nat * nat)%type.

  (** src/core/config/config.rs:365-376 *)
  Definition is_root_operation_type (c : config) (n : string) : bool :=
    existsb (fun r => match r with Some r => String.eqb (lowercase r) (lowercase n) | None => false end)
      [r_query (c_schema c); r_mutation (c_schema c); r_subscription (c_schema c)].

  (** improve_type_names.rs:81-112: one field of the type [tn] *)
  Definition candidate (c : config) (tn : string) (acc : list (string * list (string * stats))) (fx : string * field) :
      list (string * list (string * stats)) :=
    let '(fname, f) := fx in
    let n := type_name (f_type f) in
    if is_scalar c n || prefix "GEN__" fname then acc
    else
      let inner := match oget scmp n acc with Some m => m | None => [] end in
      let s := singular fname in
      oins scmp n
        (match oget scmp s inner with
         | Some (frequency, priority) => oins scmp s (S frequency, priority) inner
         | None => oins scmp s (1, if is_root_operation_type c tn then 0 else 1) inner
         end) acc.

  (** improve_type_names.rs:79-116 *)
  Definition generate (c : config) : list (string * list (string * stats)) :=
    fold_left (fun acc kt => fold_left (candidate c (fst kt)) (t_fields (snd kt)) acc) (c_types c) [].

  (** The order of [(value.frequency, value.priority, key)] *)
  Definition less (a b : string * stats) : bool :=
    match Nat.compare (fst (snd a)) (fst (snd b)) with
    | Lt => true
    | Gt => false
    | Eq => match Nat.compare (snd (snd a)) (snd (snd b)) with
            | Lt => true
            | Gt => false
            | Eq => match scmp (fst a) (fst b) with Lt => true | _ => false end
            end
    end.
  (** [Iterator::max_by_key]: the last of the greatest *)
  Definition greatest (l : list (string * stats)) : option (string * stats) :=
    fold_left (fun best x => match best with
                             | Some b => if less x b then Some b else Some x
                             | None => Some x
                             end) l None.

  (** improve_type_names.rs:36-58: one type *)
  Definition converge_one (c : config) (st : list (string * string) * list string) (kl : string * list (string * stats)) :
      list (string * string) * list string :=
    let '(final, converged) := st in
    let considered := filter (fun x => negb (smem (pascal (fst x)) converged) &&
                                       negb (match find_type c (pascal (fst x)) with Some _ => true | None => false end)) (snd kl) in
    match greatest considered with
    | Some (s, _) => (oins scmp (fst kl) (pascal s) final, pascal s :: converged)
    | None => st
    end.
  (** improve_type_names.rs:32-61 *)
  Definition converge (c : config) (candidates : list (string * list (string * stats))) : list (string * string) :=
    fst (fold_left (converge_one c) candidates ([], [])).

  Definition improved_names (c : config) : list (string * string) := converge c (generate c).

  (** improve_type_names.rs:125-128 *)
  Definition improve_type_names (c : config) : result config unit := rename_types (improved_names c) c.
End Improve.
