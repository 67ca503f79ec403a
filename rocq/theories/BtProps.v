(** C96: a configuration that the check accepts is served. *)
From Coq Require Import String Ascii NArith Bool List.
From Verif Require Import Base LkModel BtModel BtSpec BtProofs.
Import ListNotations.
Open Scope string_scope.

Section Props.
  Context {Cfg Bp Cert : Type}.
  Variable read_all : list string -> option Cfg.
  Variable blueprint_of : Cfg -> result Bp string.
  Variable endpoints_fit : Cfg -> Bp -> bool.
  Variable workers : Cfg -> option N.
  Variable cpus : N.
  Variable graph_ref : Bp -> option string.
  Variable telemetry_starts : Bp -> bool.
  Variable http2 : Bp -> option Cert.
  Variable hostname : Bp -> ip.
  Variable port : Bp -> N.
  Variable batches : Bp -> bool.
  Variable binds : ip * N -> bool.
  Variable tls : Cert -> bool.
  Notation check := (check_command read_all blueprint_of endpoints_fit).
  Notation start := (start_command read_all blueprint_of endpoints_fit workers cpus graph_ref telemetry_starts http2 hostname port batches binds tls).
  Notation url := (graphiql_url http2 hostname port).

  (** What is served was accepted by the check: it is served where the configuration says, over TLS exactly if it has a certificate, and batches are answered exactly if it says so. *)
  Theorem C96_served_is_checked : forall files a secure batch,
    start files = Serving a secure batch ->
    check files = Fine /\
    exists c b, read_all files = Some c /\ blueprint_of c = Ok b /\
    a = (hostname b, port b) /\ binds a = true /\ batch = batches b /\
    (secure = true <-> exists cert, http2 b = Some cert) /\
    (forall cert, http2 b = Some cert -> tls cert = true).
  Proof.
    intros files a secure batch. unfold start_command, check_command. destruct (read_all files) as [c|]; [|discriminate].
    unfold fork_start. destruct (N.eqb _ 0); [discriminate|]. unfold start_server. destruct (blueprint_of c) as [b|e] eqn:BP; [|discriminate].
    destruct (extensions_fit graph_ref b); [|discriminate]. destruct (endpoints_fit c b); [|discriminate]. destruct (telemetry_starts b); [|discriminate].
    destruct (http2 b) as [cert|] eqn:H; unfold start_http_2, start_http_1, addr; destruct (binds (hostname b, port b)) eqn:B; try discriminate;
      [destruct (tls cert) eqn:T; [|discriminate]|];
      intros [= <- <- <-]; (split; [reflexivity|]); exists c, b; rewrite H.
    - do 5 (split; [auto|]). split; [split; eauto|]. intros cert' [= <-]. exact T.
    - do 5 (split; [auto|]). split; [split; [discriminate|intros [? [=]]]|discriminate].
  Qed.

  (** A configuration that the check accepts is served, if it asks for threads and the machine lets it: no reference to a graph that was accepted stops it. *)
  Theorem C96_checked_is_served_partial : forall files c b,
    graphs_accepted blueprint_of graph_ref ->
    check files = Fine -> read_all files = Some c -> blueprint_of c = Ok b ->
    cpus <> 0%N -> workers c <> Some 0%N ->
    telemetry_starts b = true -> binds (hostname b, port b) = true -> (forall cert, http2 b = Some cert -> tls cert = true) ->
    exists secure, start files = Serving (hostname b, port b) secure (batches b).
  Proof.
    intros files c b G C R B K W T L S. unfold check_command in C. unfold start_command. rewrite R in *. rewrite B in C. unfold fork_start.
    assert (N0 : N.eqb (match workers c with Some n => n | None => cpus end) 0 = false) by (apply N.eqb_neq; destruct (workers c) as [n|]; [intros ->; now apply W|exact K]).
    rewrite N0. unfold start_server. rewrite B. destruct (endpoints_fit c b); [|discriminate].
    assert (E : extensions_fit graph_ref b = true).
    { unfold extensions_fit. destruct (graph_ref b) as [r|] eqn:GR; [|reflexivity]. destruct (G c b r B GR) as (o & e & V). destruct (apollo_splits r o e V) as (x & y & ->). reflexivity. }
    rewrite E, T. unfold start_http_2, start_http_1, addr. destruct (http2 b) as [cert|]; rewrite L; [rewrite (S cert eq_refl)|]; eauto.
  Qed.

  (** What the check refuses is refused for the same reason, unless it asks for no threads. *)
  Theorem C96_refused_is_refused : forall files,
    graphs_accepted blueprint_of graph_ref -> check files <> Fine ->
    start files = Refused (check files) \/
    (start files = NoThreads /\ exists c, read_all files = Some c /\ (workers c = Some 0%N \/ workers c = None /\ cpus = 0%N)).
  Proof.
    intros files G. unfold check_command, start_command. destruct (read_all files) as [c|]; [|auto]. unfold fork_start, start_server.
    destruct (N.eqb_spec (match workers c with Some n => n | None => cpus end) 0) as [Z|Z]; [intros _; right; split; [reflexivity|]; exists c; split; [reflexivity|]; destruct (workers c); [left; now f_equal|now right]|].
    destruct (blueprint_of c) as [b|e] eqn:B; [|auto]. unfold extensions_fit.
    assert (E : match graph_ref b with Some r => match split_at r with Some _ => true | None => false end | None => true end = true).
    { destruct (graph_ref b) as [r|] eqn:GR; [|reflexivity]. destruct (G c b r B GR) as (o & e & V). destruct (apollo_splits r o e V) as (x & y & ->). reflexivity. }
    rewrite E. destruct (endpoints_fit c b); [|auto]. intros F. now destruct F.
  Qed.

  (** The URL that is printed has the port that is served and leads to an address of this machine: the one that is served, or the local one if all are. *)
  Theorem C96_url : forall b,
    (unspecified (hostname b) -> url b = (match http2 b with Some _ => "https" | None => "http" end, V4 127 0 0 1, port b)) /\
    (~ unspecified (hostname b) -> url b = (match http2 b with Some _ => "https" | None => "http" end, hostname b, port b)).
  Proof.
    intros b. unfold graphiql_url. destruct (is_unspecified (hostname b)) eqn:U; split; intros H; try reflexivity.
    - destruct H. now apply unspecified_iff.
    - apply unspecified_iff in H. congruence.
  Qed.
End Props.

(** A configuration with no workers passes the check, but starting it panics (http_server.rs:52). *)
Definition a_start (w : option N) (binds : ip * N -> bool) : started :=
  start_command (Cert := nat) (fun _ => Some w) (fun _ => Ok tt) (fun _ _ => true) (fun w => w) 4 (fun _ => Some "app@main") (fun _ => true) (fun _ => None) (fun _ => V4 0 0 0 0) (fun _ => 8000%N) (fun _ => true) binds (fun _ => true) ["app.graphql"].
Definition a_check (w : option N) : checked := check_command (fun _ => Some w) (fun _ => Ok tt) (fun _ _ => true) ["app.graphql"].
Theorem C96_workers_refuted : a_check (Some 0%N) = Fine /\ a_start (Some 0%N) (fun _ => true) = NoThreads.
Proof. split; reflexivity. Qed.
Example C96_example :
  a_check None = Fine /\ a_start None (fun _ => true) = Serving (V4 0 0 0 0, 8000%N) false true /\ a_start (Some 2%N) (fun _ => false) = NotBound.
Proof. repeat split; reflexivity. Qed.
Example C96_graphs_example : graphs_accepted (Cfg := unit) (Bp := unit) (fun _ => Ok tt) (fun _ => Some "app@main").
Proof. intros [] [] r _ [= <-]. exists "". eexists. vm_compute. reflexivity. Qed.
Example C96_url_example : graphiql_url (Bp := unit) (fun _ => Some 0) (fun _ => V6 [0; 0; 0; 0; 0; 0; 0; 0]%N) (fun _ => 443%N) tt = ("https", V4 127 0 0 1, 443%N).
Proof. reflexivity. Qed.

Print Assumptions C96_served_is_checked.
Print Assumptions C96_checked_is_served_partial.
Print Assumptions C96_refused_is_refused.
Print Assumptions C96_url.
Print Assumptions C96_workers_refuted.
