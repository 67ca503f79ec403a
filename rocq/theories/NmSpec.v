(** Vocabulary for suggested names (C87). *)
From Coq Require Import String Ascii ZArith NArith Bool List.
From Verif Require Import Base Ordered JsonModel TypeModel ConfigModel NmModel.
Import ListNotations.
Open Scope string_scope.
Open Scope list_scope.

(** What is asked about a type: its fields with the names of their types *)
Definition asked (t : gtype) (q : question) : Prop := Forall2 (fun kf x => x = (fst kf, type_name (f_type (snd kf)))) (t_fields t) q.
(** [l] was an answer to a question about [t]. *)
Definition answered (ask : nat -> question -> outcome) (t : gtype) (l : list string) : Prop := exists n q, asked t q /\ ask n q = Suggestions l.
Definition is_root (c : config) (n : string) : Prop :=
  r_query (c_schema c) = Some n \/ r_mutation (c_schema c) = Some n \/ r_subscription (c_schema c) = Some n.
(** The n-th wait after a failure *)
Fixpoint wait (n : nat) : Z :=
  match n with
  | O => 3
  | S O => 18
  | S (S O) => 648
  | S n => 60 * wait n
  end.
