(** What the command line tells about its use (C101). *)
From Coq Require Import String Ascii NArith Bool List.
From Verif Require Import Base.
Import ListNotations.
Open Scope string_scope.
Open Scope list_scope.

Definition letter (c : ascii) : bool :=
  let n := N_of_ascii c in (((65 <=? n) && (n <=? 90)) || ((97 <=? n) && (n <=? 122)))%N.
Definition digit (c : ascii) : bool := let n := N_of_ascii c in ((48 <=? n) && (n <=? 57))%N.
(** The classes of the expression of tailcall-tracker/src/dispatch.rs:211 *)
Definition local_char (c : ascii) : bool := letter c || digit c || existsb (Ascii.eqb c) ["."; "_"; "%"; "+"; "-"]%char.
Definition domain_char (c : ascii) : bool := letter c || digit c || existsb (Ascii.eqb c) ["."; "-"]%char.
Fixpoint run (p : ascii -> bool) (s : string) : string * string :=
  match s with
  | String c t => if p c then let (a, b) := run p t in (String c a, b) else ("", s)
  | "" => ("", "")
  end.
Fixpoint all_chars (p : ascii -> bool) (s : string) : bool := match s with String c t => p c && all_chars p t | "" => true end.
(** [[a-zA-Z0-9.-]+\.[a-zA-Z]{2,}] fits a text of characters of domains *)
Fixpoint fits_domain (s : string) : bool :=
  match s with
  | String _ t => (match t with
                   | String d l => Ascii.eqb d "." && all_chars letter l && Nat.leb 2 (String.length l)
                   | "" => false
                   end) || fits_domain t
  | "" => false
  end.
(** The longest beginning that fits, as the expression is greedy *)
Fixpoint longest (pre d : string) : option (string * string) :=
  match (match d with String c t => longest (pre ++ String c "") t | "" => None end) with
  | Some r => Some r
  | None => if fits_domain pre then Some (pre, d) else None
  end.
(** The expression of dispatch.rs:211, at the beginning of a text *)
Definition address_at (s : string) : option (string * string) :=
  let (l, r) := run local_char s in
  match l, r with
  | String _ _, String a r' =>
      if Ascii.eqb a "@" then
        let (d, rest) := run domain_char r' in
        match longest "" d with
        | Some (d', back) => Some ((l ++ "@" ++ d')%string, (back ++ rest)%string)
        | None => None
        end
      else None
  | _, _ => None
  end.
(** dispatch.rs:208-217: [find_iter]; the fuel is the length of the text *)
Fixpoint find_addresses (fuel : nat) (s : string) : list string :=
  match fuel with
  | O => []
  | S n => match s with
           | "" => []
           | String c t => match address_at s with
                           | Some (e, rest) => e :: find_addresses n rest
                           | None => find_addresses n t
                           end
           end
  end.
Definition parse_email (s : string) : list string := find_addresses (String.length s) s.

(** What the machine tells when it is asked: the output of the three commands, if they succeed *)
Record machine := { m_git : option string; m_ssh : option string; m_mobile : option string; m_args : list string; m_cwd : option string; m_user : string; m_minutes : N }.
(** tailcall-tracker/src/event.rs:7-20, without what is the same for all events of a program *)
Record told := { t_name : string; t_args : list string; t_cwd : option string; t_user : string; t_minutes : N; t_email : list string }.
Inductive effect := Runs (program : string) | Tells (collector : string) (t : told).
(** dispatch.rs:107-154; trimming, which takes nothing from an address, is left out, and the order in a [HashSet] is taken as that of the texts *)
Definition email (m : machine) : list string :=
  flat_map (fun o => match o with Some t => parse_email t | None => [] end) [m_git m; m_ssh m; m_mobile m].
(** dispatch.rs:88-90: one collector after the other, up to the first that fails *)
Fixpoint collect (works : string -> bool) (t : told) (collectors : list string) : list effect * bool :=
  match collectors with
  | [] => ([], true)
  | c :: l => if works c then let (es, ok) := collect works t l in (Tells c t :: es, ok) else ([Tells c t], false)
  end.
Inductive kind := Ping | Command (name : string).
Section Track.
  (** [to_case(Case::Snake)] *)
  Variable snake : string -> string.
  (** event.rs:51-56 *)
  Definition name_of (k : kind) : string := match k with Ping => snake "ping" | Command n => snake n end.
  (** dispatch.rs:69-105: with what is kept of the addresses *)
  Definition dispatch (can_track : bool) (st : option (list string)) (m : machine) (works : string -> bool) (k : kind) : list effect * option (list string) * bool :=
    if can_track then
      let (es, addresses) := match st with
                             | Some l => ([], l)
                             | None => ([Runs "git"; Runs "sh"; Runs "defaults"], email m)
                             end in
      let t := {| t_name := name_of k; t_args := m_args m; t_cwd := m_cwd m; t_user := m_user m; t_minutes := m_minutes m; t_email := addresses |} in
      let (ts, ok) := collect works t ["ga"; "posthog"] in
      (es ++ ts, Some addresses, ok)
    else ([], st, true).
  (** Events, one after the other, as the lock of the addresses orders them (59-67, cli/tc/run.rs:20-30): the machine and the network as they are at the time *)
  Fixpoint track (can_track : bool) (st : option (list string)) (l : list (machine * (string -> bool) * kind)) : list effect :=
    match l with
    | [] => []
    | (m, works, k) :: t => let '(es, st', _) := dispatch can_track st m works k in es ++ track can_track st' t
    end.
  (** cli/tc/run.rs:14-33: what comes of tracking is dropped; then the command *)
  Definition run_cli {A} (can_track : bool) (m : machine) (works : string -> bool) (name : string) (command : A) : list effect * A :=
    let '(es, _, _) := dispatch can_track None m works (Command name) in (es, command).
End Track.
