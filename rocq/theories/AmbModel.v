(** Types used both as input and as output:
    src/core/config/transformer/ambiguous_type.rs and the walks of
    src/core/config/config.rs it relies on. *)
From Coq Require Import String Ascii ZArith NArith Bool Arith List.
From Verif Require Import Base Ordered JsonModel TypeModel BuilderModel ConfigModel.
Import ListNotations.
Open Scope string_scope.
Open Scope list_scope.

(** src/core/config/config.rs:463-467 *)
Definition is_scalar (c : config) (n : string) : bool :=
  match find_type c n with Some t => gtype_scalar t | None => is_predefined n end.

(** [HashSet::insert] and [HashSet::remove]; the order of a hash set is not
    observable in these walks. *)
Definition set_add (n : string) (s : list string) : list string := if smem n s then s else n :: s.
Definition set_remove (n : string) (s : list string) : list string := filter (fun x => negb (String.eqb x n)) s.

(** A loop that threads an accumulator and may not end. *)
Fixpoint fold_opt {A B} (f : B -> A -> option B) (l : list A) (b : B) : option B :=
  match l with
  | [] => Some b
  | a :: t => match f b a with Some b' => fold_opt f t b' | None => None end
  end.

(** src/core/config/config.rs:441-459.  [None]: the recursion has not ended within
    [fuel] calls. *)
Fixpoint connections (fuel : nat) (c : config) (n : string) (types : list string) {struct fuel} : option (list string) :=
  match fuel with
  | O => None
  | S fuel =>
      match find_union c n with
      | Some u => fold_opt (fun s m => connections fuel c m s) (u_types u) (set_add n types)
      | None =>
          match find_type c n with
          | Some t =>
              fold_opt (fun s kf =>
                let m := type_name (f_type (snd kf)) in
                if negb (smem m s) && negb (is_scalar c m) then connections fuel c m s else Some s)
                (t_fields t) (set_add n types)
          | None => match find_enum c n with Some _ => Some (set_add n types) | None => Some types end
          end
      end
  end.

(** src/core/config/config.rs:565-571 *)
Definition arguments (c : config) : list arg :=
  flat_map (fun kt => flat_map (fun kf => map snd (f_args (snd kf))) (t_fields (snd kt))) (c_types c).

(** src/core/config/config.rs:472-480 *)
Definition input_types (fuel : nat) (c : config) : option (list string) :=
  fold_opt (fun s n => connections fuel c n s)
    (map (fun a => type_name (arg_type a)) (filter (fun a => negb (is_scalar c (type_name (arg_type a)))) (arguments c))) [].

Definition opt_list {A} (o : option A) : list A := match o with Some a => [a] | None => [] end.

(** src/core/config/config.rs:491-503 *)
Definition output_types (fuel : nat) (c : config) : option (list string) :=
  fold_opt (fun s n => connections fuel c n s)
    (opt_list (r_query (c_schema c)) ++ opt_list (r_mutation (c_schema c))) [].

(** ambiguous_type.rs:30, the resolver used for every configuration; the output keeps
    its name.  The names differ, so lines 69-74 are not reached. *)
Definition input_name (n : string) : string := (n ++ "Input")%string.

(** ambiguous_type.rs:65-99: the keys of the resolution map.  [ambiguous] lists the
    intersection in the order of the hash set. *)
Definition resolution_keys (c : config) (outputs ambiguous : list string) : list string :=
  flat_map (fun n =>
    match find_type c n with
    | Some t =>
        n :: filter (fun m => smem m outputs)
               (flat_map (fun kf => map (fun ka => type_name (arg_type (snd ka))) (f_args (snd kf))) (t_fields t))
    | None => []
    end) ambiguous.

(** The state of the loop of ambiguous_type.rs:102-121. *)
Record split_state := { ss_types : list (string * gtype); ss_inputs : list string; ss_outputs : list string }.

(** ambiguous_type.rs:103-120 *)
Definition split_one (s : split_state) (n : string) : split_state :=
  match oget scmp n (ss_types s) with
  | Some t =>
      {| ss_types := oins scmp n t (oins scmp (input_name n) t (odel scmp n (ss_types s)));
         ss_inputs := set_add (input_name n) (set_remove n (ss_inputs s));
         ss_outputs := set_add n (set_remove n (ss_outputs s)) |}
  | None =>
      {| ss_types := odel scmp n (ss_types s);
         ss_inputs := set_remove n (ss_inputs s);
         ss_outputs := set_remove n (ss_outputs s) |}
  end.

(** ambiguous_type.rs:138-143 *)
Definition point_arg (keys : list string) (a : arg) : arg :=
  {| arg_type := if smem (type_name (arg_type a)) keys then with_name (input_name (type_name (arg_type a))) (arg_type a) else arg_type a;
     arg_doc := arg_doc a; arg_modify := arg_modify a; arg_default := arg_default a |}.

(** ambiguous_type.rs:127-137, in the type [k] *)
Definition point_type (keys inputs outputs : list string) (k : string) (ty : typ) : typ :=
  if smem (type_name ty) keys then
    if smem k outputs then with_name (type_name ty) ty
    else if smem k inputs then with_name (input_name (type_name ty)) ty
    else ty
  else ty.

(** ambiguous_type.rs:126-144 *)
Definition point_field (keys inputs outputs : list string) (k : string) (f : field) : field :=
  {| f_type := point_type keys inputs outputs k (f_type f);
     f_args := map (fun ka => (fst ka, point_arg keys (snd ka))) (f_args f);
     f_doc := f_doc f; f_modify := f_modify f; f_omit := f_omit f; f_cache := f_cache f;
     f_default := f_default f; f_protected := f_protected f;
     f_discriminate := f_discriminate f; f_resolvers := f_resolvers f;
     f_directives := f_directives f |}.
Definition point_gtype (keys inputs outputs : list string) (k : string) (t : gtype) : gtype :=
  {| t_fields := map (fun kf => (fst kf, point_field keys inputs outputs k (snd kf))) (t_fields t);
     t_added := t_added t; t_doc := t_doc t; t_implements := t_implements t; t_cache := t_cache t;
     t_protected := t_protected t; t_resolvers := t_resolvers t; t_directives := t_directives t |}.

Section Transform.
  (** The order in which the hash sets and maps give their elements. *)
  Variable hash_order : list string -> list string.

  (** ambiguous_type.rs:62-149; [None]: a walk did not end. *)
  Definition resolve_ambiguous (fuel : nat) (c : config) : option config :=
    match input_types fuel c, output_types fuel c with
    | Some inputs, Some outputs =>
        let keys := resolution_keys c outputs (hash_order (filter (fun n => smem n outputs) inputs)) in
        let s := fold_left split_one (hash_order (nodup string_dec keys))
                   {| ss_types := c_types c; ss_inputs := inputs; ss_outputs := outputs |} in
        Some {| c_server := c_server c; c_upstream := c_upstream c; c_schema := c_schema c;
                c_types := map (fun kt => (fst kt, point_gtype keys (ss_inputs s) (ss_outputs s) (fst kt) (snd kt))) (ss_types s);
                c_unions := c_unions c; c_enums := c_enums c; c_links := c_links c; c_telemetry := c_telemetry c |}
    | _, _ => None
    end.

  (** Enough calls for the walks when unions have no unions as members. *)
  Definition walk_fuel (c : config) : nat :=
    2 * (List.length (c_types c) + List.length (c_unions c) + List.length (c_enums c)) + 3.
End Transform.
