(** Batching of upstream HTTP calls: src/core/http/data_loader.rs,
    src/core/http/data_loader_request.rs, src/core/http/transformations and
    src/core/config/group_by.rs. *)
From Coq Require Import String Ascii Bool Arith List.
From Verif Require Import Base JsonModel DlModel.
Import ListNotations.
Open Scope string_scope.
Open Scope list_scope.

(** reqwest::Request with what data_loader_request.rs:8-13 adds.  Simplifications:
    the URL is its part before '?' and the decoded query pairs (the crate url's
    encoding of a pair is taken to be undone by [query_pairs]); header names are lower
    case; the set of listed headers is the same for all requests of a loader
    (eval_http.rs:146-152) and is a parameter below. *)
Record req : Type :=
  { q_get : bool;                              (** the method is GET *)
    q_base : string;
    q_query : list (string * string);
    q_headers : list (string * string);
    q_body : option string;
    q_value : option string }.                 (** [batching_value] *)

(** src/core/config/group_by.rs:8-12 *)
Record group : Type := { g_path : list string; g_key : option string }.

(** group_by.rs:19-24 *)
Definition group_path (g : group) : list string :=
  match g_path g with [] => ["id"] | p => p end.

(** group_by.rs:26-36 *)
Definition group_key (g : group) : string :=
  match g_key g with
  | Some k => k
  | None => match g_path g with [] => "id" | p => last p "id" end
  end.

Section Loader.
  Context {Meta E : Type}.
  (** Response: status and headers ([Meta]) and the body. *)
  Record resp : Type := { r_meta : Meta; r_body : value }.

  Inductive failure : Type :=
  | Upstream (e : E)                           (** the call failed, or its body was no JSON *)
  | NoKey (name : string)                      (** 120-123 *)
  | NoValue                                    (** 133-136 *)
  | Bug.                                       (** 145-146 *)

  Variable listed : list string.               (** the headers named in the batch settings *)
  Variable upstream : req -> result resp E.    (** [runtime.http.execute] and [to_json] *)

  (** data_loader_request.rs:39-69: what is hashed, and equality is equality of the
      hashes.  Simplification: no two different contents have the same hash. *)
  Definition key : Type := string * list (string * string) * option string * list (string * string).
  Definition key_of (r : req) : key :=
    (q_base r, q_query r, q_body r,
     flat_map (fun n => match aget n (q_headers r) with Some v => [(n, v)] | None => [] end) listed).
  Definition key_dec : forall a b : key, {a = b} + {a <> b}.
  Proof. repeat decide equality. Defined.

  Definition with_query (r : req) (q : list (string * string)) : req :=
    {| q_get := q_get r; q_base := q_base r; q_query := q; q_headers := q_headers r;
       q_body := q_body r; q_value := q_value r |}.
  Definition with_body (r : req) (b : string) : req :=
    {| q_get := q_get r; q_base := q_base r; q_query := q_query r; q_headers := q_headers r;
       q_body := Some b; q_value := q_value r |}.

  (** query_batching.rs:23-43.  Appending no pairs changes nothing, so the test of line
      36 is not needed here. *)
  Definition query_batching (only : option string) (others : list req) (base : req) : req :=
    fold_left (fun b r =>
                 let pairs := match only with
                              | Some k => filter (fun p => String.eqb k (fst p)) (q_query r)
                              | None => q_query r
                              end in
                 with_query b (q_query b ++ pairs)) others base.

  (** body_batching.rs:29-68, without the sorting done in test builds (39-42). *)
  Definition join_bodies (bodies : list string) : string :=
    fold_left (fun acc item =>
                 String.append (if String.eqb acc "" then acc else String.append acc ",") item) bodies "".
  Definition body_batching (rs : list req) (base : req) : req :=
    let bodies := flat_map (fun r => match q_body r with Some b => [b] | None => [] end) rs in
    match bodies with
    | [] => base
    | _ => with_body base (String.append "[" (String.append (join_bodies bodies) "]"))
    end.

  (** data_loader.rs:20-25 *)
  Definition body_single (m : list (string * list value)) (id : string) : value :=
    match aget id m with Some (a :: _) => a | _ => VNull end.
  (** data_loader.rs:27-36 *)
  Definition body_list (m : list (string * list value)) (id : string) : value :=
    VList (match aget id m with Some l => l | None => [] end).

  (** Lines 118-120: collecting into a [HashMap] keeps the last pair of a name. *)
  Definition query_value (name : string) (q : list (string * string)) : option string :=
    fold_left (fun acc p => if String.eqb name (fst p) then Some (snd p) else acc) q None.

  Definition own_id (get : bool) (name : string) (r : req) : result string failure :=
    if get then match query_value name (q_query r) with Some id => Ok id | None => Err (NoKey name) end
    else match q_value r with Some id => Ok id | None => Err NoValue end.

  (** Lines 117-130 and 132-140. *)
  Fixpoint spread (get : bool) (name : string) (extract : string -> value) (res : resp) (rs : list req)
           (m : list (key * resp)) : result (list (key * resp)) failure :=
    match rs with
    | [] => Ok m
    | r :: t =>
        match own_id get name r with
        | Err e => Err e
        | Ok id => spread get name extract res t
                     (hput key_dec (key_of r) {| r_meta := r_meta res; r_body := extract id |} m)
        end
    end.

  (** The request sent for the whole batch, lines 74-88. *)
  Definition merged (g : group) (base : req) (others : list req) : req :=
    if q_get base then query_batching (Some (group_key g)) others base
    else body_batching (base :: others) (query_batching None others base).

  (** Lines 149-162: all calls are made, then looked at in order. *)
  Fixpoint collect (rs : list req) (m : list (key * resp)) : result (list (key * resp)) failure :=
    match rs with
    | [] => Ok m
    | r :: t =>
        match upstream r with
        | Err e => Err (Upstream e)
        | Ok v => collect t (hput key_dec (key_of r) v m)
        end
    end.

  (** Lines 61-164.  The keys come in the order of a [HashSet] ([dl_requests] is sorted
      only in test builds, 68-71): any order. *)
  Definition load (group_by_opt : option group) (is_list : bool) (keys : list req)
    : result (list (key * resp)) failure :=
    match group_by_opt with
    | Some g =>
        match keys with
        | [] => Err Bug
        | base :: others =>
            match upstream (merged g base others) with
            | Err e => Err (Upstream e)
            | Ok res =>
                let response_map := group_by (r_body res) (group_path g) in
                let extract := if is_list then body_list response_map else body_single response_map in
                spread (q_get base) (group_key g) extract res keys []
            end
        end
    | None => collect keys []
    end.
End Loader.
