(** Vocabulary for what is told about the use (C101). *)
From Coq Require Import String Ascii NArith Bool List.
From Verif Require Import Base TkModel.
Import ListNotations.
Open Scope string_scope.

Definition is_letter (c : ascii) : Prop := ((65 <= N_of_ascii c <= 90) \/ (97 <= N_of_ascii c <= 122))%N.
Definition is_digit (c : ascii) : Prop := (48 <= N_of_ascii c <= 57)%N.
Definition in_domain (c : ascii) : Prop := is_letter c \/ is_digit c \/ c = "."%char \/ c = "-"%char.
Definition in_local (c : ascii) : Prop := in_domain c \/ c = "_"%char \/ c = "%"%char \/ c = "+"%char.
Fixpoint made_of (p : ascii -> Prop) (s : string) : Prop := match s with "" => True | String c t => p c /\ made_of p t end.
(** someone@some.where *)
Definition address (e : string) : Prop :=
  exists l d t, e = (l ++ "@" ++ d ++ "." ++ t)%string /\ l <> "" /\ made_of in_local l /\ d <> "" /\ made_of in_domain d /\ 2 <= String.length t /\ made_of is_letter t.
Definition part_of (e s : string) : Prop := exists a b, s = (a ++ e ++ b)%string.
(** One of the commands printed this. *)
Definition printed (m : machine) (s : string) : Prop := m_git m = Some s \/ m_ssh m = Some s \/ m_mobile m = Some s.
Definition runs_of (l : list effect) : list string := flat_map (fun e => match e with Runs p => [p] | Tells _ _ => [] end) l.
Definition told_to (c : string) (l : list effect) : list told :=
  flat_map (fun e => match e with Tells c' t => if String.eqb c' c then [t] else [] | Runs _ => [] end) l.
(** What an event tells, given the addresses *)
Definition tells (snake : string -> string) (addresses : list string) (x : machine * (string -> bool) * kind) (t : told) : Prop :=
  t_name t = snake (match snd x with Ping => "ping" | Command n => n end) /\ t_args t = m_args (fst (fst x)) /\ t_cwd t = m_cwd (fst (fst x)) /\
  t_user t = m_user (fst (fst x)) /\ t_minutes t = m_minutes (fst (fst x)) /\ t_email t = addresses.
