(** Removal of unused definitions from a blueprint: src/core/blueprint/compress.rs. *)
From Coq Require Import String Bool Arith List.
From Verif Require Import Base TypeModel.
Import ListNotations.
Open Scope string_scope.
Open Scope list_scope.

(** src/core/blueprint/blueprint.rs:114-131: a field or argument with its type; resolvers,
    directives, defaults and descriptions do not matter here. *)
Record bfield : Type := { bf_name : string; bf_type : typ; bf_args : list (string * typ) }.

(** src/core/blueprint/blueprint.rs:30-38, 65-105, 143-157; sets are lists *)
Inductive bdef : Type :=
| BObject (name : string) (fields : list bfield) (implements : list string)
| BInterface (name : string) (fields : list bfield) (implements : list string)
| BInput (name : string) (fields : list (string * typ))
| BEnum (name : string) (values : list string)
| BUnion (name : string) (types : list string)
| BScalar (name : string).

(** src/core/blueprint/blueprint.rs:41-50 *)
Definition bdef_name (d : bdef) : string :=
  match d with
  | BObject n _ _ | BInterface n _ _ | BInput n _ | BEnum n _ | BUnion n _ | BScalar n => n
  end.

(** src/core/blueprint/blueprint.rs:21-28, 107-112: the parts that matter here. *)
Record blueprint : Type := { bp_query : string; bp_mutation : option string; bp_defs : list bdef }.

(** compress.rs:61-66: the objects that implement an interface *)
Definition implementers (defs : list bdef) (i : string) : list string :=
  flat_map (fun d => match d with
                     | BObject n _ implements => if smem i implements then [n] else []
                     | _ => []
                     end) defs.

(** compress.rs:49-81 *)
Definition dependencies (defs : list bdef) (d : bdef) : list string :=
  match d with
  | BObject _ fields implements =>
      map (fun f => type_name (bf_type f)) fields ++
      flat_map (fun f => map (fun a => type_name (snd a)) (bf_args f)) fields ++ implements
  | BInterface n fields _ => map (fun f => type_name (bf_type f)) fields ++ implementers defs n
  | BInput _ fields => map (fun f => type_name (snd f)) fields
  | BEnum _ values => values
  | BUnion _ types => types
  | BScalar n => [n]
  end.

(** compress.rs:45-86: inserting into a map replaces. *)
Definition build_dependency_graph (defs : list bdef) : list (string * list string) :=
  fold_left (fun g d => aset (bdef_name d) (dependencies defs d) g) defs [].

(** compress.rs:89-108; the last element of the vector is the head of [stack]. *)
Fixpoint identify_referenced_types (fuel : nat) (graph : list (string * list string))
    (stack referenced : list string) : option (list string) :=
  match fuel with
  | O => None
  | S fuel =>
      match stack with
      | [] => Some referenced
      | n :: stack =>
          if smem n referenced then identify_referenced_types fuel graph stack referenced
          else match aget n graph with
               | Some deps => identify_referenced_types fuel graph (rev deps ++ stack) (n :: referenced)
               | None => identify_referenced_types fuel graph stack (n :: referenced)
               end
      end
  end.

(** compress.rs:11-20 *)
Definition root_types (b : blueprint) : list string :=
  ["Query"; "Mutation"; "Subscription"; bp_query b;
   match bp_mutation b with Some m => m | None => "Mutation" end].

(** compress.rs:23-32 *)
Definition always_kept : list string :=
  ["Query"; "Mutation"; "Subscription"; "__Schema"; "__Type"; "__Field"; "__InputValue"; "__EnumValue";
   "__Directive"; "__DirectiveLocation"].

(** compress.rs:7-43; [None]: out of fuel *)
Definition compress (fuel : nat) (b : blueprint) : option blueprint :=
  match identify_referenced_types fuel (build_dependency_graph (bp_defs b)) (rev (root_types b)) [] with
  | Some referenced =>
      Some {| bp_query := bp_query b; bp_mutation := bp_mutation b;
              bp_defs := filter (fun d => smem (bdef_name d) (always_kept ++ referenced)) (bp_defs b) |}
  | None => None
  end.
