(** What the command line warns of and logs: outdated files of a project, and the level of the log (C103). *)
From Coq Require Import String Ascii NArith Arith Bool List.
From Verif Require Import Base.
Import ListNotations.
Open Scope string_scope.
Open Scope list_scope.

(** A file: not there, there and not readable, or its text *)
Inductive file := Absent | Unreadable | Text (t : string).
Record warning := { w_files : string; w_verb : string }.
(** [slice::join] *)
Fixpoint joined_by (sep : string) (l : list string) : string :=
  match l with
  | [] => ""
  | [x] => x
  | x :: t => (x ++ sep ++ joined_by sep t)%string
  end.
(** pluralizer (external crate), for this word *)
Definition pluralize_is (n : nat) : string := if Nat.eqb n 1 then "is" else "are".
Section Rc.
  (** [Path::parent], and [Path::join] *)
  Variable parent : string -> option string.
  Variable join : string -> string -> string.
  (** The texts that come with this version (cli/tc/validate_rc.rs:8-9) *)
  Variable rc_graphql rc_schema : string.
  (** cli/tc/helpers.rs, validate_rc.rs:12-15 *)
  Definition rc_files : list (string * string) := [(".tailcallrc.graphql", rc_graphql); (".tailcallrc.schema.json", rc_schema)].
  Section Disk.
    Variable disk : string -> file.
    (** validate_rc.rs:25-38 *)
    Fixpoint outdated (dir : string) (l : list (string * string)) : list string :=
      match l with
      | [] => []
      | (name, base) :: t =>
          match disk (join dir name) with
          | Absent => outdated dir t
          | Unreadable => name :: outdated dir t
          | Text c => if String.eqb c base then outdated dir t else name :: outdated dir t
          end
      end.
    (** validate_rc.rs:17-48; the number is that of the bytes of the joined text, as line 41 hides the list *)
    Fixpoint validate (paths : list string) : list warning :=
      match paths with
      | [] => []
      | p :: t => match parent p with
                  | None => validate t
                  | Some dir => let names := outdated dir rc_files in
                                match names with
                                | [] => validate t
                                | _ => let text := joined_by ", " names in
                                       {| w_files := text; w_verb := pluralize_is (String.length text) |} :: validate t
                                end
                  end
      end.
  End Disk.
End Rc.

Inductive level := Error | Warn | Info | Debug | Trace.
Definition small (c : ascii) : ascii := let n := N_of_ascii c in if ((65 <=? n) && (n <=? 90))%N then ascii_of_N (n + 32) else c.
Fixpoint lower_case (s : string) : string := match s with "" => "" | String c t => String (small c) (lower_case t) end.
(** [usize::from_str], as far as the numbers below go: a plus sign, zeros, and digits without a zero in front *)
Definition unsigned (s : string) : string := match s with String "+" t => t | _ => s end.
Fixpoint no_zeros (s : string) : string := match s with String "0" t => no_zeros t | _ => s end.
(** [Level::from_str] (external crate tracing-core): numbers, and names in any case *)
Definition level_of (s : string) : option level :=
  match aget (no_zeros (unsigned s)) [("1", Error); ("2", Warn); ("3", Info); ("4", Debug); ("5", Trace)] with
  | Some l => Some l
  | None => aget (lower_case s) [("error", Error); ("warn", Warn); ("info", Info); ("debug", Debug); ("trace", Trace)]
  end.
(** core/tracing.rs:82-90 *)
Definition get_log_level (env : string -> option string) : option level :=
  match (match env "TAILCALL_LOG_LEVEL" with Some v => Some v | None => env "TC_LOG_LEVEL" end) with
  | Some v => level_of v
  | None => None
  end.
(** core/tracing.rs:92-104 *)
Definition cli_level (env : string -> option string) : level := match get_log_level env with Some l => l | None => Info end.
(** tailcall-aws-lambda/src/main.rs:21-23 *)
Definition lambda_level (env : string -> option string) : level := match get_log_level env with Some l => l | None => Trace end.
Definition rank (l : level) : nat := match l with Error => 1 | Warn => 2 | Info => 3 | Debug => 4 | Trace => 5 end.
(** [LevelFilter::from_level] and [filter_target] (core/tracing.rs:78-80,92-112): events up to the level, of targets that begin with the name *)
Definition logged (name : string) (l : level) (target : string) (e : level) : bool := Nat.leb (rank e) (rank l) && String.prefix name target.
