(** C103: warnings about outdated files, and the level of the log. *)
From Coq Require Import String Ascii NArith Arith Bool List Lia.
From Verif Require Import Base WrModel WrSpec WrProofs.
Import ListNotations.
Open Scope string_scope.

(** For each path in turn, one warning exactly when a file of the project beside it is there and differs, and it names exactly those files *)
Theorem C103_warnings : forall parent join rc_graphql rc_schema disk paths,
  warned parent (warns_of join rc_graphql rc_schema disk) paths (map w_files (validate parent join rc_graphql rc_schema disk paths)).
Proof. intros. apply validate_warned. Qed.
Print Assumptions C103_warnings.

(** A project whose files are absent or those of this version is not warned of *)
Theorem C103_quiet : forall parent join rc_graphql rc_schema disk paths,
  (forall p dir, In p paths -> parent p = Some dir ->
     (disk (join dir ".tailcallrc.graphql") = Absent \/ disk (join dir ".tailcallrc.graphql") = Text rc_graphql)
     /\ (disk (join dir ".tailcallrc.schema.json") = Absent \/ disk (join dir ".tailcallrc.schema.json") = Text rc_schema)) ->
  validate parent join rc_graphql rc_schema disk paths = [].
Proof.
  intros parent join g s disk paths H. pose proof (validate_warned parent join g s disk paths) as W.
  destruct (validate parent join g s disk paths) as [|w ws]; [reflexivity|]. exfalso.
  destruct (warned_in parent _ _ _ W (w_files w) (or_introl eq_refl)) as [p [dir [I [P L]]]].
  destruct (H p dir I P) as [A B]. unfold warns_of in L.
  assert (NA : forall f base, f = Absent \/ f = Text base -> ~ differs f base).
  { intros f base [->| ->] [D|[t [D N]]]; try discriminate D. injection D as <-. apply N. reflexivity. }
  inversion L; subst; first [exact (NA _ _ A ltac:(assumption))|exact (NA _ _ B ltac:(assumption))].
Qed.
Print Assumptions C103_quiet.

(** A warning about one file does not say "is": the number counted is that of letters *)
Theorem C103_number_refuted :
  (forall parent join rc_graphql rc_schema disk paths w,
     In w (validate parent join rc_graphql rc_schema disk paths) -> w_verb w = "are")
  /\ exists parent join disk,
       validate parent join "g" "s" disk ["a.graphql"] = [{| w_files := ".tailcallrc.graphql"; w_verb := "are" |}].
Proof.
  split; [intros; eapply validate_are; eassumption|].
  exists (fun _ => Some ""), (fun d n => n), (fun p => if String.eqb p ".tailcallrc.graphql" then Text "old" else Absent). reflexivity.
Qed.
Print Assumptions C103_number_refuted.

(** Two files of one directory: the same warning twice *)
Theorem C103_once_refuted : exists parent join disk,
  parent "a.graphql" = parent "b.graphql"
  /\ map w_files (validate parent join "g" "s" disk ["a.graphql"; "b.graphql"]) = [".tailcallrc.graphql"; ".tailcallrc.graphql"].
Proof.
  exists (fun _ => Some ""), (fun d n => n), (fun p => if String.eqb p ".tailcallrc.graphql" then Text "old" else Absent).
  split; reflexivity.
Qed.
Print Assumptions C103_once_refuted.

(** The level is that of the long variable, else that of the short one, else the default of the program *)
Theorem C103_level : forall env,
  (forall v l, env "TAILCALL_LOG_LEVEL" = Some v -> names_level v l -> cli_level env = l /\ lambda_level env = l)
  /\ (forall v l, env "TAILCALL_LOG_LEVEL" = None -> env "TC_LOG_LEVEL" = Some v -> names_level v l -> cli_level env = l /\ lambda_level env = l)
  /\ (env "TAILCALL_LOG_LEVEL" = None -> env "TC_LOG_LEVEL" = None -> cli_level env = Info /\ lambda_level env = Trace).
Proof.
  intros env. unfold cli_level, lambda_level, get_log_level. split; [|split].
  - intros v l E N. rewrite E. apply level_names in N. rewrite N. split; reflexivity.
  - intros v l E F N. rewrite E, F. apply level_names in N. rewrite N. split; reflexivity.
  - intros E F. rewrite E, F. split; reflexivity.
Qed.
Print Assumptions C103_level.

(** A long variable that names no level hides the short one *)
Theorem C103_level_refuted : forall env v,
  env "TAILCALL_LOG_LEVEL" = Some v -> (forall l, ~ names_level v l) -> cli_level env = Info /\ lambda_level env = Trace.
Proof.
  intros env v E N. unfold cli_level, lambda_level, get_log_level. rewrite E.
  destruct (level_of v) as [l|] eqn:L; [|split; reflexivity]. apply level_names in L. destruct (N l L).
Qed.
Print Assumptions C103_level_refuted.

(** An event is logged exactly when it is at least as serious as the level, and its target begins with the name *)
Theorem C103_logged : forall name l target e,
  logged name l target e = true <-> as_serious e l /\ exists rest, target = (name ++ rest)%string.
Proof.
  intros. unfold logged. rewrite andb_true_iff, Nat.leb_le, serious_rank, prefix_app. reflexivity.
Qed.
Print Assumptions C103_logged.

Example C103_example :
  let env := fun k => if String.eqb k "TAILCALL_LOG_LEVEL" then Some "off" else if String.eqb k "TC_LOG_LEVEL" then Some "Error" else None in
  let short := fun k => if String.eqb k "TC_LOG_LEVEL" then Some "DeBug" else None in
  let disk := fun p => if String.eqb p "x/.tailcallrc.graphql" then Text "old" else if String.eqb p "x/.tailcallrc.schema.json" then Unreadable else Absent in
  let parent := fun p => if String.eqb p "/" then None else if String.eqb p "x/a.graphql" then Some "x" else Some "y" in
  names_level "DeBug" Debug /\ names_level "+004" Debug /\ (forall l, ~ names_level "off" l)
  /\ cli_level env = Info /\ cli_level short = Debug
  /\ map w_files (validate parent (fun d n => (d ++ "/" ++ n)%string) "g" "s" disk ["/"; "y/b.graphql"; "x/a.graphql"])
     = [".tailcallrc.graphql, .tailcallrc.schema.json"]
  /\ logged "tailcall" Info "tailcall::core" Warn = true /\ logged "tailcall" Info "hyper" Error = false.
Proof.
  cbn zeta. split; [apply level_names; reflexivity|]. split; [apply level_names; reflexivity|]. split.
  - intros l N. apply level_names in N. discriminate N.
  - repeat split; reflexivity.
Qed.
