(** Names of generated types that a language model suggests: src/cli/llm/infer_type_name.rs and src/cli/generator/generator.rs. *)
From Coq Require Import String Ascii ZArith NArith Bool List.
From Verif Require Import Base Ordered JsonModel TypeModel ConfigModel RenameModel ImpModel.
Import ListNotations.
Open Scope string_scope.
Open Scope list_scope.

(** src/cli/llm/error.rs and wizard.rs:44-55: what asking comes to.  [OtherError]: an empty answer or one that is not the JSON asked for. *)
Inductive outcome : Type :=
| Suggestions (names : list string)
| GenAIError
| OtherError.

(** infer_type_name.rs:47-83: only the fields are sent; [ignore] is not *)
Definition question : Type := list (string * string).
(** infer_type_name.rs:117-124 *)
Definition question_of (t : gtype) : question := map (fun kf => (fst kf, type_name (f_type (snd kf)))) (t_fields t).

Section Infer.
  Variable lowercase : string -> string.
  (** [PREFIX] of src/core/generator/mod.rs *)
  Variable generated : string.
  (** The answer to the n-th question of all.  Answers may depend on what was asked and change from one time to the next. *)
  Variable ask : nat -> question -> outcome.

  (** infer_type_name.rs:90-94 *)
  Definition is_auto_generated (n : string) : bool := prefix generated n.
  (** infer_type_name.rs:99-105 *)
  Definition to_be_processed (c : config) : list (string * gtype) :=
    filter (fun nt => negb (is_root_operation_type lowercase c (fst nt)) && is_auto_generated (fst nt)) (c_types c).
  (** infer_type_name.rs:107-112 *)
  Definition used_at_first (c : config) : list string := map fst (filter (fun nt => negb (is_auto_generated (fst nt))) (c_types c)).
  (** infer_type_name.rs:132-139 *)
  Fixpoint choose (c : config) (used : list string) (l : list string) : option string :=
    match l with
    | [] => None
    | n :: l => if has n (c_types c) || existsb (String.eqb n) used then choose c used l else Some n
    end.
  (** infer_type_name.rs:126-167: the loop for one type, with the number of questions so far and the waits, in seconds.  [delay] is a
      [u64] that overflows only after waits of thousands of years. *)
  Fixpoint ask_loop (fuel : nat) (q : question) (n : nat) (delay : Z) (waits : list Z) : option (list string * nat * list Z) :=
    match fuel with
    | O => None
    | S fuel =>
        match ask n q with
        | Suggestions l => Some (l, S n, waits)
        | GenAIError => ask_loop fuel q (S n) (delay * Z.min (delay * 2) 60) (waits ++ [delay])
        | OtherError => ask_loop fuel q (S n) delay waits
        end
    end.
  (** infer_type_name.rs:115-168: new names, and the waits for each type.  The map as a list: the names are those of different types. *)
  Fixpoint infer_from (fuel : nat) (c : config) (todo : list (string * gtype)) (used : list string) (n : nat) :
      option (list (string * string) * list (list Z)) :=
    match todo with
    | [] => Some ([], [])
    | (name, t) :: todo =>
        match ask_loop fuel (question_of t) n 3 [] with
        | None => None
        | Some (l, n, waits) =>
            let chosen := choose c used l in
            match infer_from fuel c todo (match chosen with Some v => used ++ [v] | None => used end) n with
            | None => None
            | Some (names, all) => Some (match chosen with Some v => (name, v) :: names | None => names end, waits :: all)
            end
        end
    end.
  (** infer_type_name.rs:96-171 *)
  Definition infer (fuel : nat) (c : config) : option (list (string * string) * list (list Z)) :=
    infer_from fuel c (to_be_processed c) (used_at_first c) 0.
End Infer.
