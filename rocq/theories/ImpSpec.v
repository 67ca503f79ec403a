(** Vocabulary for names of types made from names of fields (C77). *)
From Coq Require Import String Bool List.
From Verif Require Import Base Ordered TypeModel ConfigModel BuilderModel RenameSpec.
Import ListNotations.
Open Scope string_scope.
Open Scope list_scope.

(** Not a scalar: an object or input type, an enum, a union, or a name without definition. *)
Definition composite (c : config) (n : string) : Prop :=
  match find_type c n with Some t => t_fields t <> [] | None => is_predefined n = false end.

(** How many fields of type [n] are named [s] in the singular; generated names do not count. *)
Definition uses (singular : string -> string) (c : config) (n s : string) : nat :=
  length (filter (fun fx => String.eqb (type_name (f_type (snd fx))) n && String.eqb (singular (fst fx)) s &&
                            negb (prefix "GEN__" (fst fx)))
    (flat_map (fun kt => t_fields (snd kt)) (c_types c))).

(** The first field, in the order of types and fields, of type [n] that is named [s] in the singular
    is one of a root type. *)
Definition first_in_root (singular lowercase : string -> string) (c : config) (n s : string) : bool :=
  match find (fun kfx => String.eqb (type_name (f_type (snd (snd kfx)))) n && String.eqb (singular (fst (snd kfx))) s && negb (prefix "GEN__" (fst (snd kfx))))
      (flat_map (fun kt => map (fun fx => (fst kt, fx)) (t_fields (snd kt))) (c_types c)) with
  | Some (k, _) =>
      let is_root r := match r with Some r => String.eqb (lowercase r) (lowercase k) | None => false end in
      is_root (r_query (c_schema c)) || is_root (r_mutation (c_schema c)) || is_root (r_subscription (c_schema c))
  | None => false
  end.
(** [s'] goes before [s]: used more; or as often, and not from a root type; or as often, from the same, and
    later in the order of texts. *)
Definition preferred (singular lowercase : string -> string) (c : config) (n s' s : string) : Prop :=
  uses singular c n s < uses singular c n s' \/
  uses singular c n s = uses singular c n s' /\
  (first_in_root singular lowercase c n s = true /\ first_in_root singular lowercase c n s' = false \/
   first_in_root singular lowercase c n s = first_in_root singular lowercase c n s' /\ scmp s s' = Lt).

(** Every type of a field that is not a scalar is defined. *)
Definition closed (c : config) : Prop :=
  forall k t f x, In (k, t) (c_types c) -> In (f, x) (t_fields t) -> composite c (type_name (f_type x)) -> defined c (type_name (f_type x)).
(** No name of a field that is not a scalar gives the name of an enum, a union or a predefined scalar. *)
Definition apart (singular pascal : string -> string) (c : config) : Prop :=
  forall k t f x, In (k, t) (c_types c) -> In (f, x) (t_fields t) -> composite c (type_name (f_type x)) ->
    find_enum c (pascal (singular f)) = None /\ find_union c (pascal (singular f)) = None /\ is_predefined (pascal (singular f)) = false.
