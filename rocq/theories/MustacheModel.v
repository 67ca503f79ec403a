(** Mustache templates: src/core/mustache, and the paths of src/core/path.rs. *)
From Coq Require Import String Ascii ZArith NArith Bool List.
From Verif Require Import Base JsonModel.
Import ListNotations.
Open Scope string_scope.
Open Scope list_scope.

(** src/core/mustache/model.rs:3-10 *)
Inductive segment : Type :=
| Literal (s : string)
| Expression (parts : list string).
Definition mustache := list segment.

(** src/core/mustache/model.rs:19-30 *)
Fixpoint mustache_is_const (m : mustache) : bool :=
  match m with
  | [] => true
  | Expression _ :: _ => false
  | Literal _ :: t => mustache_is_const t
  end.

(** src/core/mustache/model.rs:40-48 *)
Definition expression_segments (m : mustache) : list (list string) :=
  flat_map (fun s => match s with Expression p => [p] | Literal _ => [] end) m.

(** The closure of src/core/mustache/model.rs:63-66. *)
Definition show_segment (s : segment) : string :=
  match s with
  | Literal t => t
  | Expression parts => "{{." ++ String.concat "." parts ++ "}}"
  end.

(** src/core/mustache/model.rs:58-72 *)
Definition show (m : mustache) : string := String.concat "" (map show_segment m).

(** *** Parser: src/core/mustache/parse.rs with the nom 7 combinators it uses.
    A parser returns [None] for a recoverable error, or the remaining input and
    the output.  Text is a list of bytes; every delimiter is ASCII. *)

(** nom: space, tab, CR, LF *)
Definition is_space (c : ascii) : bool :=
  let n := N_of_ascii c in (N.eqb n 32 || N.eqb n 9 || N.eqb n 10 || N.eqb n 13)%bool.
(** nom: ASCII letters *)
Definition is_alpha (c : ascii) : bool :=
  let n := N_of_ascii c in
  ((N.leb 65 n && N.leb n 90) || (N.leb 97 n && N.leb n 122))%bool.
Definition is_digit (c : ascii) : bool :=
  let n := N_of_ascii c in (N.leb 48 n && N.leb n 57)%bool.
(** nom: [alt((alphanumeric1, tag("_")))], one character at a time *)
Definition is_word (c : ascii) : bool := (is_alpha c || is_digit c || Ascii.eqb c "_")%bool.

(** nom's [take_while]. *)
Fixpoint span (p : ascii -> bool) (s : string) : string * string :=
  match s with
  | EmptyString => (EmptyString, EmptyString)
  | String c t =>
      if p c then let '(a, b) := span p t in (String c a, b) else (EmptyString, s)
  end.

(** nom's [tag] (and [char] for a one-character text): the input after it. *)
Fixpoint tag (p s : string) : option string :=
  match p with
  | EmptyString => Some s
  | String c p' =>
      match s with
      | String d s' => if Ascii.eqb c d then tag p' s' else None
      | EmptyString => None
      end
  end.

(** src/core/mustache/parse.rs:21-35.  [many0] over [alphanumeric1] or ["_"],
    concatenated, is the longest run of such characters. *)
Definition parse_name (input : string) : option (string * string) :=
  let s1 := snd (span is_space input) in
  let '(a, s2) := span is_alpha s1 in
  match a with
  | EmptyString => None
  | _ =>
      let '(b, s3) := span is_word s2 in
      Some (snd (span is_space s3), a ++ b)%string
  end.

(** nom's [separated_list1(char('.'), parse_name)] after the first element; a
    separator not followed by a name is given back.  [fuel] bounds the number of
    names; [parse_names] supplies the length of the input, which is never
    reached (each name consumes at least one character). *)
Fixpoint more_names (fuel : nat) (input : string) : string * list string :=
  match fuel with
  | O => (input, [])
  | S n =>
      match tag "." input with
      | None => (input, [])
      | Some t =>
          match parse_name t with
          | None => (input, [])
          | Some (rest, name) => let '(r, ns) := more_names n rest in (r, name :: ns)
          end
      end
  end.

Definition parse_names (input : string) : option (string * list string) :=
  match parse_name input with
  | None => None
  | Some (rest, name) =>
      let '(r, ns) := more_names (String.length rest) rest in Some (r, name :: ns)
  end.

(** src/core/mustache/parse.rs:37-49 *)
Definition parse_expression (input : string) : option (string * segment) :=
  match tag "{{" input with
  | None => None
  | Some t =>
      let t := match tag "." t with Some t' => t' | None => t end in
      match parse_names t with
      | None => None
      | Some (rest, parts) =>
          match tag "}}" rest with
          | None => None
          | Some r => Some (r, Expression parts)
          end
      end
  end.

(** nom's [take_until("{{")]: the input before the first occurrence. *)
Fixpoint take_until (input : string) : option (string * string) :=
  match input with
  | EmptyString => None
  | String c t =>
      if match t with String d _ => (Ascii.eqb c "{" && Ascii.eqb d "{")%bool | EmptyString => false end
      then Some (input, EmptyString)
      else match take_until t with
           | Some (rest, txt) => Some (rest, String c txt)
           | None => None
           end
  end.

(** The [alt] of src/core/mustache/parse.rs:52-57. *)
Definition parse_one (input : string) : option (string * segment) :=
  match parse_expression input with
  | Some r => Some r
  | None =>
      match take_until input with
      | Some (rest, txt) => Some (rest, Literal txt)
      | None => None
      end
  end.

(** nom's [many0]: stops at the first failure, and fails ([None]) when an
    iteration consumes nothing.  [fuel] as for [more_names]. *)
Fixpoint many_segments (fuel : nat) (input : string) : option (string * list segment) :=
  match parse_one input with
  | None => Some (input, [])
  | Some (rest, seg) =>
      if Nat.eqb (String.length rest) (String.length input) then None
      else match fuel with
           | O => Some (input, [])
           | S n =>
               match many_segments n rest with
               | None => None
               | Some (r, segs) => Some (r, seg :: segs)
               end
           end
  end.

(** src/core/mustache/parse.rs:51-70 *)
Definition parse_segment (input : string) : list segment :=
  match many_segments (String.length input) input with
  | Some (remaining, segments) =>
      match remaining with
      | EmptyString => segments
      | _ => segments ++ [Literal remaining]
      end
  | None => [Literal input]
  end.

(** The filter of src/core/mustache/parse.rs:74-77. *)
Definition keep_segment (s : segment) : bool :=
  match s with
  | Literal t => (negb (String.eqb t "") && negb (String.eqb t """"))%bool
  | Expression _ => true
  end.

(** src/core/mustache/parse.rs:11-19, 72-79.  [parse_mustache] never fails, as
    [parse_segment] always returns [Ok]. *)
Definition parse (input : string) : mustache := filter keep_segment (parse_segment input).

(** *** Rendering *)

Section Render.
  (** [PathString::path_string] of the context. *)
  Variable path_string : list string -> option string.

  (** src/core/mustache/eval.rs:46-63, 126-128 *)
  Definition render (m : mustache) : string :=
    String.concat "" (map (fun s => match s with
                         | Literal t => t
                         | Expression parts =>
                             match path_string parts with Some v => v | None => "" end
                         end) m).

  (** src/core/mustache/eval.rs:26-43 *)
  Definition eval_partial (m : mustache) : string :=
    String.concat "" (map (fun s => match s with
                         | Literal t => t
                         | Expression parts =>
                             match path_string parts with
                             | Some v => v
                             | None => show [Expression parts]
                             end
                         end) m).
End Render.
