(** Vocabulary for configurations generated of several sources (C86). *)
From Coq Require Import String Ascii ZArith NArith Bool List.
From Verif Require Import Base Ordered JsonModel TypeModel ConfigModel MergeSpec FedModel GenSpec OpGenModel MgModel.
Import ListNotations.
Open Scope string_scope.
Open Scope list_scope.

(** The field [n] of the type [t] *)
Definition field_at (c : config) (t n : string) : option field :=
  match oget scmp t (c_types c) with Some g => oget scmp n (t_fields g) | None => None end.
(** The root to which the field of a sample belongs *)
Definition root_of (query : string) (mutation : option string) (s : sample) : string :=
  match sa_mutation s, mutation with
  | false, _ => query
  | true, Some n => n
  | true, None => "Mutation"
  end.
(** A source that says something of the field [n] of the type [t] itself *)
Definition gives (query : string) (mutation : option string) (src : source) (t n : string) : Prop :=
  match src with
  | SSample s _ => root_of query mutation s = t /\ sa_field s = n
  | SConfig (Ok c) => field_at c t n <> None
  | SConfig (Err _) => False
  end.
(** Sources whose containers are as Rust has them, and that do not use the names that are made here *)
Definition apart (prefix : string) (src : source) : Prop :=
  match src with
  | SSample s hs => True
  | SConfig (Ok c) => wf_config c /\ forall k n, field_at c (numbered prefix k) n = None
  | SConfig (Err _) => True
  end.
(** The names of roots are none of the names that are made here. *)
Definition roots_apart (query : string) (mutation : option string) (prefix : string) : Prop :=
  forall k, numbered prefix k <> query /\ mutation <> Some (numbered prefix k) /\ numbered prefix k <> "Query" /\ numbered prefix k <> "Mutation".
(** The headers that a source has to send *)
Definition headers_of (src : source) : list string :=
  match src with
  | SSample _ (Some hs) => hs
  | SSample _ None => []
  | SConfig (Ok c) => match up_allowed_headers (c_upstream c) with Some l => l | None => [] end
  | SConfig (Err _) => []
  end.
Definition links_of (src : source) : list string := match src with SConfig (Ok c) => c_links c | _ => [] end.

(** The name of the root, of mutations or of queries *)
Definition root_named (m : bool) (c : config) : option string := if m then r_mutation (c_schema c) else r_query (c_schema c).
(** The steps are taken one after another. *)
Inductive transformed : list (config -> valid config) -> config -> config -> Prop :=
| transformed_nil : forall c, transformed [] c c
| transformed_cons : forall t ts c c1 r, t c = Ok c1 -> transformed ts c1 r -> transformed (t :: ts) c r.
