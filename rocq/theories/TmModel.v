(** Merging of similar types: src/core/config/transformer/merge_types. *)
From Coq Require Import String Ascii ZArith Bool Arith List.
From Verif Require Import Base Ordered JsonModel TypeModel ConfigModel MergeModel RenameModel GraphModel AmbModel DocModel.
Import ListNotations.
Open Scope string_scope.
Open Scope list_scope.

(** A threshold is a number; all that is done with it is to ask whether [same / total] reaches it
    (similarity.rs:126).  Simplification: the rounding of 32-bit floats plays no role, a threshold is
    the answer to that question.  [0 / 0] reaches no threshold. *)
Definition threshold : Type := nat -> nat -> bool.
(** the threshold 1.0 *)
Definition exactly : threshold := fun same total => negb (Nat.eqb total 0) && Nat.leb total same.

(** pair_set.rs:12-19 *)
Definition pair_in (a b : string) (s : list (string * string)) : bool :=
  existsb (fun p => (String.eqb (fst p) a && String.eqb (snd p) b) || (String.eqb (fst p) b && String.eqb (snd p) a)) s.
(** pair_map.rs:13-24; the last value added is the first *)
Definition exact_get (a b : string) (m : list (string * string * bool)) : option bool :=
  option_map snd (find (fun e => String.eqb (fst (fst e)) a && String.eqb (snd (fst e)) b) m).
Definition pair_get (a b : string) (m : list (string * string * bool)) : option bool :=
  match exact_get a b m with Some r => Some r | None => exact_get b a m end.

(** [Valid<bool, String>]; the message of a failure is left out *)
Inductive verdict : Type := Similar (b : bool) | Cannot.
Record sstate : Type := { ss_visited : list (string * string); ss_cache : list (string * string * bool) }.

Section Similarity.
  Variable c : config.
  Variable t : threshold.

  (** similarity.rs:60-121, the loop; it returns early or counts the same fields.  [None]: a nested
      comparison has not ended. *)
  Fixpoint compare_fields (rec : string -> gtype -> string -> gtype -> sstate -> option (verdict * sstate))
           (l fields_2 : list (string * field)) (same : nat) (st : sstate) : option ((verdict + nat) * sstate) :=
    match l with
    | [] => Some (inr same, st)
    | (n, field_1) :: l =>
        match oget scmp n fields_2 with
        | None => compare_fields rec l fields_2 same st
        | Some field_2 =>
            let n1 := type_name (f_type field_1) in
            let n2 := type_name (f_type field_2) in
            if is_scalar c n1 && is_scalar c n2 then
              if String.eqb n1 n2 || String.eqb n1 "JSON" || String.eqb n2 "JSON" then
                if Bool.eqb (is_list (f_type field_1)) (is_list (f_type field_2))
                then compare_fields rec l fields_2 (S same) st
                else Some (inl Cannot, st)
              else Some (inl Cannot, st)
            else if String.eqb n1 n2 then
              if Bool.eqb (is_list (f_type field_1)) (is_list (f_type field_2))
              then compare_fields rec l fields_2 (S same) st
              else Some (inl Cannot, st)
            else
              match find_type c n1, find_type c n2 with
              | Some type_1, Some type_2 =>
                  if pair_in n1 n2 (ss_visited st) then Some (inl (Similar true), st)
                  else
                    match rec n1 type_1 n2 type_2 {| ss_visited := (n1, n2) :: ss_visited st; ss_cache := ss_cache st |} with
                    | Some (Similar b, st) => compare_fields rec l fields_2 (if b then S same else same) st
                    | Some (Cannot, st) => Some (inl Cannot, st)
                    | None => None
                    end
              | _, _ => compare_fields rec l fields_2 same st
              end
        end
    end.

  (** similarity.rs:40-136.  [None]: the recursion has not ended within [fuel] calls. *)
  Fixpoint similarity_inner (fuel : nat) (n1 : string) (type_1 : gtype) (n2 : string) (type_2 : gtype) (st : sstate)
    : option (verdict * sstate) :=
    match fuel with
    | O => None
    | S fuel =>
        match pair_get n1 n2 (ss_cache st) with
        | Some r => Some (Similar r, st)
        | None =>
            match compare_fields (similarity_inner fuel) (t_fields type_1) (t_fields type_2) 0 st with
            | None => None
            | Some (inl v, st) => Some (v, st)
            | Some (inr same, st) =>
                let total := length (t_fields type_1) + length (t_fields type_2) - same in
                let is_similar := t same total in
                Some (Similar is_similar, {| ss_visited := ss_visited st; ss_cache := (n1, n2, is_similar) :: ss_cache st |})
            end
        end
    end.

  (** A bound on the calls nested in each other: no pair of types is compared twice. *)
  Definition sim_fuel : nat := 2 + length (c_types c) * length (c_types c).

  (** similarity.rs:29-38; the pairs seen are forgotten, the results are kept *)
  Definition similarity (n1 : string) (type_1 : gtype) (n2 : string) (type_2 : gtype) (cache : list (string * string * bool))
    : option (verdict * list (string * string * bool)) :=
    match similarity_inner sim_fuel n1 type_1 n2 type_2 {| ss_visited := []; ss_cache := cache |} with
    | Some (v, st) => Some (v, ss_cache st)
    | None => None
    end.
End Similarity.

(** mergeable_types.rs:9-15 *)
Record mergeable_types : Type := { mt_input : list string; mt_union : list string; mt_output : list string; mt_interface : list string }.

(** mergeable_types.rs:18-26; [None]: the walk through the types has not ended *)
Definition mergeable_types_new (fuel : nat) (c : config) : option mergeable_types :=
  match input_types fuel c, output_types fuel c, interfaces_types_map fuel c with
  | Some i, Some o, Some m =>
      Some {| mt_input := i; mt_union := nodup string_dec (flat_map (fun ku => u_types (snd ku)) (c_unions c)); mt_output := o; mt_interface := map fst m |}
  | _, _, _ => None
  end.

Section Mergeable.
  Variable m : mergeable_types.
  (** mergeable_types.rs:29-35 *)
  Definition mt_iter : list string := mt_input m ++ mt_union m ++ mt_output m ++ mt_interface m.
  (** mergeable_types.rs:38-75 *)
  Definition both (s : list string) (a b : string) : bool := smem a s && smem b s.
  (** mergeable_types.rs:83-94 *)
  Definition get_threshold (t : threshold) (a b : string) : threshold :=
    if both (mt_input m) a b || both (mt_union m) a b || both (mt_interface m) a b then exactly else t.
  (** mergeable_types.rs:100-105 *)
  Definition mergeable (a b : string) : bool :=
    both (mt_input m) a b || both (mt_union m) a b || both (mt_output m) a b || both (mt_interface m) a b.
End Mergeable.

(** type_merger.rs:45-46, [sort] *)
Fixpoint insert_name (n : string) (l : list string) : list string :=
  match l with
  | [] => [n]
  | x :: l => match scmp n x with Gt => x :: insert_name n l | _ => n :: x :: l end
  end.
Definition sort_names (l : list string) : list string := fold_right insert_name [] l.

Record mstate : Type := { ms_visited : list string; ms_cache : list (string * string * bool) }.

Section Groups.
  Variable c : config.
  Variable t : threshold.
  Variable m : mergeable_types.
  Variable types : list string.

  (** type_merger.rs:60-87, the inner loop; [set] is the set of types similar to [n1] *)
  Fixpoint similar_to (n1 : string) (type_1 : gtype) (l : list string) (set : list string) (st : mstate) : option (list string * mstate) :=
    match l with
    | [] => Some (set, st)
    | n2 :: l =>
        if smem n2 (ms_visited st) || negb (mergeable m n1 n2) then similar_to n1 type_1 l set st
        else
          match find_type c n2 with
          | None => similar_to n1 type_1 l set st
          | Some type_2 =>
              let visited := n1 :: ms_visited st in
              match similarity c (get_threshold m t n1 n2) n1 type_1 n2 type_2 (ms_cache st) with
              | None => None
              | Some (Similar true, cache) =>
                  similar_to n1 type_1 l (if smem n2 set then set else set ++ [n2]) {| ms_visited := n2 :: visited; ms_cache := cache |}
              | Some (_, cache) => similar_to n1 type_1 l set {| ms_visited := visited; ms_cache := cache |}
              end
          end
    end.

  (** type_merger.rs:50-92.  [i] does not count the types passed over at line 54. *)
  Fixpoint group (l : list string) (i : nat) (st : mstate) : option (list (list string)) :=
    match l with
    | [] => Some []
    | n1 :: l =>
        match find_type c n1 with
        | None => group l (S i) st
        | Some type_1 =>
            if smem n1 (ms_visited st) then group l i st
            else
              match similar_to n1 type_1 (skipn (S i) types) [n1] st with
              | None => None
              | Some (set, st) =>
                  match group l (S i) st with
                  | None => None
                  | Some gs => Some (if Nat.ltb 1 (length set) then set :: gs else gs)
                  end
              end
        end
    end.
End Groups.

(** type_merger.rs:215-231, one field *)
Definition merge_field (into : list (string * field)) (kf : string * field) : list (string * field) :=
  match oget scmp (fst kf) into with
  | Some existing =>
      let merged := m_field existing (snd kf) in
      let merged :=
        if String.eqb (type_name (f_type existing)) "JSON" || String.eqb (type_name (f_type (snd kf))) "JSON"
        then {| f_type := TNamed "JSON" false; f_args := f_args merged; f_doc := f_doc merged; f_modify := f_modify merged;
                f_omit := f_omit merged; f_cache := f_cache merged; f_default := f_default merged; f_protected := f_protected merged;
                f_discriminate := f_discriminate merged; f_resolvers := f_resolvers merged; f_directives := f_directives merged |}
        else merged in
      oins scmp (fst kf) merged into
  | None => oins scmp (fst kf) (snd kf) into
  end.
(** type_merger.rs:206-234 *)
Definition merge_type (t into : gtype) : gtype :=
  {| t_fields := fold_left merge_field (t_fields t) (t_fields into);
     t_added := m_vec (t_added into) (t_added t);
     t_doc := m_opt m_last (t_doc into) (t_doc t);
     t_implements := m_set scmp (t_implements into) (t_implements t);
     t_cache := m_opt m_last (t_cache into) (t_cache t);
     t_protected := m_opt m_protected (t_protected into) (t_protected t);
     t_resolvers := t_resolvers into;
     t_directives := t_directives into |}.

(** type_merger.rs:101 *)
Definition merged_name (k : Z) : string := ("GEN__M" ++ Z_to_string k)%string.

(** What step 2 changes. *)
Record merging : Type := { mg_types : list (string * gtype); mg_mapping : list (string * string); mg_counter : Z }.

(** type_merger.rs:100-115, one group *)
Definition merge_group (s : merging) (same_types : list string) : merging :=
  let name := merged_name (mg_counter s) in
  let '(into, mapping, did) :=
    fold_left (fun a n =>
      match oget scmp n (mg_types s) with
      | Some t => let '(into, mapping, _) := a in (merge_type t into, aset n name mapping, true)
      | None => a
      end) same_types (empty_gtype, mg_mapping s, false) in
  if did then {| mg_types := oins scmp name into (mg_types s); mg_mapping := mapping; mg_counter := mg_counter s + 1 |}
  else {| mg_types := mg_types s; mg_mapping := mapping; mg_counter := mg_counter s |}.

(** src/core/config/config.rs:573-580 *)
Definition remove_all {V} (ns : list string) (m : list (string * V)) : list (string * V) := fold_left (fun acc n => odel scmp n acc) ns m.

(** type_merger.rs:36-203, one round: [inr] is the configuration to go on with.  The renaming of step 3
    does to each type and union what that of src/core/config/transformer/rename_types.rs does.  [walk] is
    [mergeable_types_new], which may not end. *)
Definition merge_round (walk : config -> option mergeable_types) (t : threshold) (counter : Z) (c : config) : option (config + (Z * config)) :=
  match walk c with
  | None => None
  | Some m =>
      let types := sort_names (mt_iter m) in
      match group c t m types types 0 {| ms_visited := []; ms_cache := [] |} with
      | None => None
      | Some [] => Some (inl c)
      | Some groups =>
          let s := fold_left merge_group groups {| mg_types := c_types c; mg_mapping := []; mg_counter := counter |} in
          match mg_mapping s with
          | [] => Some (inl c)
          | mapping =>
              let unused := map fst mapping in
              Some (inr (mg_counter s,
                {| c_server := c_server c; c_upstream := c_upstream c; c_schema := c_schema c;
                   c_types := remove_all unused (map_values (rename_gtype mapping) (mg_types s));
                   c_unions := remove_all unused (map_values (rename_gunion mapping) (c_unions c));
                   c_enums := c_enums c; c_links := c_links c; c_telemetry := c_telemetry c |}))
          end
      end
  end.

(** type_merger.rs:36-203.  [None]: not done within [rounds] rounds. *)
Fixpoint merger (rounds : nat) (walk : config -> option mergeable_types) (t : threshold) (counter : Z) (c : config) : option config :=
  match rounds with
  | O => None
  | S rounds =>
      match merge_round walk t counter c with
      | None => None
      | Some (inl c) => Some c
      | Some (inr (counter, c)) => merger rounds walk t counter c
      end
  end.

(** type_merger.rs:236-243 *)
Definition type_merger (walk : config -> option mergeable_types) (t : threshold) (c : config) : option config :=
  merger (S (length (c_types c))) walk t 1 c.
