(** Vocabulary for answers (C25, C42). *)
From Coq Require Import String Ascii ZArith NArith Bool List.
From Verif Require Import Base JsonModel AnswerModel.
Import ListNotations.
Open Scope list_scope.
Open Scope string_scope.

(** What a Cache-Control header tells the client. *)
Definition says_max_age (h : string) (n : Z) : Prop :=
  h = "max-age=" ++ Z_to_string n \/ h = "max-age=" ++ Z_to_string n ++ ", private".
Definition says_no_cache (h : string) : Prop := h = "no-cache" \/ h = "no-cache, private".
Definition says_private (h : string) : Prop := h = "private" \/ exists x, h = x ++ ", private".

(** The policies of the answers this request fetched successfully. *)
Definition fetched (l : list upstream) (p : policy) : Prop :=
  exists a, In a l /\ a_success a = true /\ a_reused a = false /\ a_policy a = Some p.

(** JSON texts without white space; [atom] and [key] are the texts of scalars and of
    member names. *)
Section JsonText.
  Variable atom : string -> value -> Prop.
  Variable key : string -> string -> Prop.

  Inductive text : string -> value -> Prop :=
  | text_atom s v : atom s v -> text s v
  | text_list s l : items s l -> text ("[" ++ s ++ "]") (VList l)
  | text_obj s m : members s m -> text ("{" ++ s ++ "}") (VObj m)
  with items : string -> list value -> Prop :=
  | items_nil : items "" []
  | items_one s v : text s v -> items s [v]
  | items_more s v t l : text s v -> items t l -> l <> [] -> items (s ++ "," ++ t) (v :: l)
  with members : string -> list (string * value) -> Prop :=
  | members_nil : members "" []
  | members_one k n s v : key k n -> text s v -> members (k ++ ":" ++ s) [(n, v)]
  | members_more k n s v t l : key k n -> text s v -> members t l -> l <> [] ->
      members (k ++ ":" ++ s ++ "," ++ t) ((n, v) :: l).
End JsonText.

(** The data of a response with a single field is unwrapped. *)
Definition unwrapped (data v : value) : Prop :=
  (exists k, data = VObj [(k, v)]) \/ (v = data /\ forall k w, data <> VObj [(k, w)]).

(** Not the empty batch. *)
Definition nonempty_batch (b : batch_response) : Prop := match b with Single _ => True | Batch l => l <> [] end.

(** The smallest of a list. *)
Definition smallest (z : Z) (l : list Z) : Prop := In z l /\ forall y, In y l -> (z <= y)%Z.

(** No update is interrupted: while a thread is about to write, no other one runs. *)
Definition uninterrupted (s : race) (schedule : list nat) : Prop :=
  forall before j after i t, schedule = (before ++ j :: after)%list ->
    nth_error (s_threads (race_run s before)) i = Some t -> t_pending t <> None -> j = i.
