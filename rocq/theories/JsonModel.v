(** JSON values and the accessors of src/core/json. *)
From Coq Require Import String Ascii ZArith NArith Bool List.
From Verif Require Import Base.
Import ListNotations.
Open Scope string_scope.
Open Scope list_scope.

(** serde_json::Number.  Simplification: integers are kept exactly, every
    non-integral number only through the text Rust's [f64] [Display] gives for it. *)
Inductive number : Type :=
| NInt (z : Z)
| NFloat (repr : string).

(** async_graphql_value::ConstValue (external crate), as used through
    src/core/json/graphql.rs:50-198.  [Binary] is left out: no code path of the
    modelled files produces it.  Objects are [IndexMap]s: association lists in
    insertion order. *)
Inductive value : Type :=
| VNull
| VBool (b : bool)
| VNum (n : number)
| VStr (s : string)
| VEnum (s : string)
| VList (l : list value)
| VObj (m : list (string * value)).

(** src/core/json/graphql.rs:75-80 *)
Definition as_array (v : value) : option (list value) :=
  match v with VList l => Some l | _ => None end.

(** src/core/json/graphql.rs:166-171 *)
Definition as_object (v : value) : option (list (string * value)) :=
  match v with VObj m => Some m | _ => None end.

(** src/core/json/graphql.rs:96-101: only [String], not [Enum]. *)
Definition as_str (v : value) : option string :=
  match v with VStr s => Some s | _ => None end.

(** src/core/json/graphql.rs:124-129 *)
Definition as_bool (v : value) : option bool :=
  match v with VBool b => Some b | _ => None end.

(** src/core/json/graphql.rs:131-133 *)
Definition is_null (v : value) : bool :=
  match v with VNull => true | _ => false end.

(** Conversion of an integer to the nearest IEEE double (ties to even), the
    meaning of [n as f64] inside serde_json's [Number::as_f64]; the result is
    again an integer because the input is. *)
Definition f64_of_Z (z : Z) : Z :=
  let a := Z.abs z in
  if (a <=? 2 ^ 53)%Z then z
  else
    let e := (Z.log2 a - 52)%Z in
    let u := (2 ^ e)%Z in
    let q := (a / u)%Z in
    let r := (a mod u)%Z in
    let half := (u / 2)%Z in
    let q' := if (r <? half)%Z then q
              else if (half <? r)%Z then (q + 1)%Z
              else if Z.even q then q else (q + 1)%Z in
    (Z.sgn z * (q' * u))%Z.

(** [as_f64().map(|a| a.to_string())]: src/core/json/graphql.rs:117-122 and the
    use in src/core/json/mod.rs:47.  A double with integral value prints without
    fraction. *)
Definition f64_string (v : value) : option string :=
  match v with
  | VNum (NInt z) => Some (Z_to_string (f64_of_Z z))
  | VNum (NFloat r) => Some r
  | _ => None
  end.

(** src/core/json/graphql.rs:150-155 *)
Definition get_key (k : string) (v : value) : option value :=
  match v with VObj m => aget k m | _ => None end.

(** [str::parse::<usize>()] on a 64-bit target: an optional '+', at least one
    ASCII digit, no overflow. *)
Definition digit_value (c : ascii) : option N :=
  let n := N_of_ascii c in
  if (N.leb 48 n && N.leb n 57)%bool then Some (n - 48)%N else None.

Fixpoint parse_digits (s : string) (acc : N) : option N :=
  match s with
  | EmptyString => Some acc
  | String c t =>
      match digit_value c with
      | None => None
      | Some d =>
          let acc' := (10 * acc + d)%N in
          if N.ltb acc' (2 ^ 64) then parse_digits t acc' else None
      end
  end.

Definition parse_usize (s : string) : option N :=
  match s with
  | EmptyString => None
  | String c t =>
      if Ascii.eqb c "+"
      then match t with EmptyString => None | _ => parse_digits t 0 end
      else parse_digits s 0
  end.

(** [Vec::get] with a [usize]. *)
Definition nth_N {A} (l : list A) (n : N) : option A :=
  if N.ltb n (N.of_nat (length l)) then nth_error l (N.to_nat n) else None.

(** src/core/json/graphql.rs:135-148 *)
Fixpoint get_path (path : list string) (v : value) : option value :=
  match path with
  | [] => Some v
  | token :: rest =>
      match v with
      | VList l =>
          match parse_usize token with
          | None => None
          | Some i => match nth_N l i with Some v' => get_path rest v' | None => None end
          end
      | VObj m => match aget token m with Some v' => get_path rest v' | None => None end
      | _ => None
      end
  end.

(** src/core/json/mod.rs:16-36.  The [vector] accumulator is the last argument
    as in the code. *)
Fixpoint gather_path_matches (root : value) (path : list string)
         (vector : list (value * value)) {struct root} : list (value * value) :=
  match root with
  | VList l =>
      (fix go (l : list value) (vector : list (value * value)) :=
         match l with
         | [] => vector
         | v :: t => go t (gather_path_matches v path vector)
         end) l vector
  | VObj m =>
      match path with
      | [] => vector
      | key :: tail =>
          (fix find (m : list (string * value)) :=
             match m with
             | [] => vector
             | (k', v) :: t =>
                 if String.eqb key k' then
                   match tail with
                   | [] => vector ++ [(v, root)]
                   | _ => gather_path_matches v tail vector
                   end
                 else find t
             end) m
      end
  | _ => vector
  end.

(** The key text of src/core/json/mod.rs:44-47. *)
Definition key_str (v : value) : option string :=
  match as_str v with
  | Some s => Some s
  | None => f64_string v
  end.

(** src/core/json/mod.rs:38-58 *)
Definition group_by_key (src : list (value * value)) : list (string * list value) :=
  fold_left
    (fun map kv =>
       match key_str (fst kv) with
       | None => map
       | Some key =>
           match aget key map with
           | Some values => aset key (values ++ [snd kv]) map
           | None => aset key [snd kv] map
           end
       end) src [].

(** src/core/json/graphql.rs:157-160 *)
Definition group_by (v : value) (path : list string) : list (string * list value) :=
  group_by_key (gather_path_matches v path []).

(** src/core/json/json_like_list.rs:37-43: the elements visited, in order, by
    [for_each] (the callback only pushes, so it is modelled by the list). *)
Fixpoint for_each (v : value) : list value :=
  match v with
  | VList l => flat_map for_each l
  | _ => [v]
  end.

(** src/core/json/json_like_list.rs:19-35 with a stateful mapper ([FnMut]): the
    state is threaded left to right and the first error stops the traversal
    ([collect] on a lazy iterator). *)
Section MapRef.
  Context {S E : Type}.
  Variable mapper : S -> value -> S * result value E.

  Fixpoint map_ref (st : S) (v : value) : S * result value E :=
    match v with
    | VList l =>
        let fix go (st : S) (l : list value) : S * result (list value) E :=
          match l with
          | [] => (st, Ok [])
          | x :: t =>
              match map_ref st x with
              | (st', Err e) => (st', Err e)
              | (st', Ok y) =>
                  match go st' t with
                  | (st'', Ok ys) => (st'', Ok (y :: ys))
                  | (st'', Err e) => (st'', Err e)
                  end
              end
          end in
        match go st l with
        | (st', Ok l') => (st', Ok (VList l'))
        | (st', Err e) => (st', Err e)
        end
    | _ => mapper st v
    end.
End MapRef.

(** src/core/jit/exec_const.rs:148-192, [ConstValueExec::execute].
    [part] is [field_is_part_of_value(field, _)], [call] the result of
    [self.call(ctx.with_value(_), ir)] (an oracle: the resolver), [call_none] the
    call made when the context carries no value.  [missing] is the error of
    lines 181-184.  Returns the values the resolver was called with, in order
    ([None] when called without value), and the result. *)
Section Execute.
  Context {E : Type}.
  Variable part : value -> bool.
  Variable call : value -> result value E.
  Variable call_none : result value E.
  Variable missing : E.

  Definition pull (st : list (result value E)) (v : value)
    : list (result value E) * result value E :=
    if part v then
      match st with
      | [] => ([], Err missing)
      | r :: st' => (st', r)
      end
    else (st, Ok VNull).

  Definition execute_field (ctx_value : option value)
    : list (option value) * result value E :=
    match ctx_value with
    | Some (VList l) =>
        let tasks := filter part (for_each (VList l)) in
        let results := map call tasks in
        (map Some tasks, snd (map_ref pull results (VList l)))
    | Some v => ([Some v], call v)
    | None => ([None], call_none)
    end.
End Execute.
