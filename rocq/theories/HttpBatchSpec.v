(** Vocabulary for batched HTTP calls (C13). *)
From Coq Require Import String Bool List.
From Verif Require Import Base JsonModel JsonSpec DlModel HttpBatchModel.
Import ListNotations.
Open Scope string_scope.
Open Scope list_scope.

(** All values a query string gives for a name. *)
Definition values_of (name : string) (q : list (string * string)) : list string :=
  map snd (filter (fun p => String.eqb name (fst p)) q).

(** The path under which the records of an answer carry their id, and the name of the query
    parameter that asks for an id: as configured; without a path it is [id], without a key
    the last name of the path. *)
Definition path_of (g : group) (path : list string) : Prop :=
  (g_path g = [] /\ path = ["id"]) \/ (g_path g <> [] /\ path = g_path g).
Definition key_named (g : group) (name : string) : Prop :=
  g_key g = Some name \/ (g_key g = None /\ exists front, path_of g (front ++ [name])).

(** What a caller gets for the records [rs] found for it. *)
Definition shown (is_list : bool) (rs : list value) : value :=
  if is_list then VList rs else match rs with r :: _ => r | [] => VNull end.

Section Upstream.
  Context {Meta E : Type}.
  Notation resp := (resp (Meta := Meta)).

  (** An upstream service over a table of records (each with its id, stored in the
      record under [name]) that answers every GET request to [base] with the records
      whose id the query lists, in the order of the table, whatever else the request
      says. *)
  Record Selects (upstream : req -> result resp E) (base name : string) (meta : Meta)
                 (table : list (string * value)) : Prop :=
    { sel_records : forall id v, In (id, v) table ->
        exists m k, v = VObj m /\ aget name m = Some k /\ has_id k id /\ exact_id k;
      sel_answers : forall r, q_get r = true -> q_base r = base ->
        upstream r = Ok {| r_meta := meta;
                           r_body := VList (map snd (filter (fun e => existsb (String.eqb (fst e)) (values_of name (q_query r))) table)) |} }.
End Upstream.
