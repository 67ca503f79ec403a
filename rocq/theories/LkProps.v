(** C88: links and telemetry that cannot be used are refused, and everything wrong is told. *)
From Coq Require Import String Ascii ZArith NArith Bool Lia List.
From Verif Require Import Base ComposeModel LkModel LkSpec LkProofs.
Import ListNotations.
Open Scope string_scope.
Open Scope list_scope.

(** ** Links *)
(** Links are accepted, as they are, just when all have a source, no two have the same id, and at most one is a script and one a key. *)
Theorem C88_links_are_accepted : forall links,
  (forall r, check_links links = Ok r -> r = links) /\
  ((exists r, check_links links = Ok r) <->
   (forall l, In l links -> l_src l <> "") /\
   (forall i j a b id, i <> j -> nth_error links i = Some a -> nth_error links j = Some b -> l_id a = Some id -> l_id b <> Some id) /\
   ~ two_of LScript links /\ ~ two_of LKey links).
Proof.
  intros links. pose proof (links_main links) as M. split; [intros r E; rewrite E in M; apply M|].
  assert (Q : (forall pos e, ~ link_fault links pos e) <-> (forall l, In l links -> l_src l <> "") /\
    (forall i j a b id, i <> j -> nth_error links i = Some a -> nth_error links j = Some b -> l_id a = Some id -> l_id b <> Some id)).
  { split.
    - intros N. assert (S : forall l, In l links -> l_src l <> "").
      { intros l I E. apply In_nth_error in I as [pos I]. exact (N pos _ (fault_empty links pos l I E)). }
      split; [exact S|]. intros i j a b id D Ea Eb Ia Ib. apply (N i (Duplicated id)). apply fault_shared with a; [exact Ea|apply S; now apply nth_error_In in Ea|].
      exists a, j, b. auto.
    - intros [S D] pos e F. destruct F as [l E X|l id E X (l0 & j & l' & E0 & I0 & J & E1 & I1)]; [apply nth_error_In in E; exact (S l E X)|].
      exact (D pos j l0 l' id (not_eq_sym J) E0 E1 I0 I1). }
  split.
  - intros [r E]. rewrite E in M. destruct M as (_ & N & T). split; [apply Q, N|]. split; [apply Q, N|exact T].
  - intros (S & D & T1 & T2). assert (N : forall pos e, ~ link_fault links pos e) by (apply Q; auto). destruct (check_links links) as [r|es]; [eauto|]. exfalso.
    destruct M as [[(pos & e & F) _]|[_ [[T _]|(_ & T & _)]]]; [exact (N _ _ F)|auto|auto].
Qed.
Print Assumptions C88_links_are_accepted.

(** Every link without a source, and every other link with an id that is used twice, is told with its position; where there are none, that there are
    two scripts, and otherwise that there are two keys. *)
Theorem C88_link_faults_are_told : forall links es, check_links links = Err es ->
  ((exists pos e, link_fault links pos e) /\
   forall c, In c es <-> exists pos e, link_fault links pos e /\ c = Build_cause ["schema"; "@link"; Z_to_string (Z.of_nat pos)] e) \/
  ((forall pos e, ~ link_fault links pos e) /\
   (two_of LScript links /\ es = [Build_cause ["schema"; "@link"] OnlyOneScriptLinkAllowed] \/
    ~ two_of LScript links /\ two_of LKey links /\ es = [Build_cause ["schema"; "@link"] OnlyOneKeyLinkAllowed])).
Proof. intros links es E. pose proof (links_main links) as M. rewrite E in M. exact M. Qed.
Print Assumptions C88_link_faults_are_told.

(** ** Telemetry *)
(** An exporter is accepted just when nothing is wrong with it; then it is used as it is given, with all headers, and with the request's headers. *)
Theorem C88_telemetry_is_accepted : forall parse_url header_name header_value e hs up,
  ((exists t, to_opentelemetry parse_url header_name header_value {| te_export := Some e; te_headers := hs |} up = Ok t) <->
   forall w x, ~ telemetry_fault parse_url header_name header_value e w x) /\
  forall t, to_opentelemetry parse_url header_name header_value {| te_export := Some e; te_headers := hs |} up = Ok t ->
    exists e', te_export t = Some e' /\ exports parse_url header_name e e' /\ te_headers t = hs.
Proof.
  intros pu hn hv e hs up. pose proof (telemetry_main pu hn hv e hs up) as M. destruct (to_opentelemetry _ _ _ _ _) as [t|es].
  - split; [split; [intros _; apply M|eauto]|]. intros t0 E. injection E as <-. apply M.
  - split; [|intros t E; discriminate]. split; [intros [t E]; discriminate|]. intros N. destruct M as [(w & x & F) _]. destruct (N w x F).
Qed.
Print Assumptions C88_telemetry_is_accepted.

(** All that is wrong is told, with its place. *)
Theorem C88_telemetry_faults_are_told : forall parse_url header_name header_value e hs up es,
  to_opentelemetry parse_url header_name header_value {| te_export := Some e; te_headers := hs |} up = Err es ->
  forall c, In c es <-> exists w x, telemetry_fault parse_url header_name header_value e w x /\ c = Build_cause ("@telemetry" :: w) x.
Proof. intros pu hn hv e hs up es E. pose proof (telemetry_main pu hn hv e hs up) as M. rewrite E in M. apply M. Qed.
Print Assumptions C88_telemetry_faults_are_told.

(** Without an exporter nothing changes. *)
Theorem C88_no_exporter : forall parse_url header_name header_value hs up,
  to_opentelemetry parse_url header_name header_value {| te_export := None; te_headers := hs |} up = Ok up.
Proof. reflexivity. Qed.
Print Assumptions C88_no_exporter.

(** ** Cases *)
Definition link88 (id : option string) (src : string) (t : link_type) : link := {| l_id := id; l_src := src; l_type := t |}.
Definition links88 : list link := [link88 (Some "a") "a.graphql" LConfig; link88 (Some "b") "b.js" LScript; link88 None "k.pem" LKey; link88 None "c1.pem" LCert; link88 None "c2.pem" LCert].
Example C88_links_example : check_links links88 = Ok links88.
Proof. reflexivity. Qed.
Example C88_link_faults_example : check_links [link88 (Some "a") "a" LConfig; link88 None "" LScript; link88 (Some "a") "b" LScript] =
  Err [Build_cause ["schema"; "@link"; "0"] (Duplicated "a"); Build_cause ["schema"; "@link"; "1"] LinkSrcCannotBeEmpty; Build_cause ["schema"; "@link"; "2"] (Duplicated "a")].
Proof. reflexivity. Qed.
Definition url88 (u : string) : option string := if String.eqb u "" then None else Some u.
Definition name88 (n : string) : option string := if String.eqb n "X-Key" then Some "x-key" else None.
Definition value88 (v : string) : bool := negb (String.eqb v "bad").
Example C88_telemetry_example : to_opentelemetry url88 name88 value88
    {| te_export := Some (Otlp "http://o" [("X-Key", "1"); ("X-Key", "2")]); te_headers := ["x"] |} {| te_export := None; te_headers := [] |} =
  Ok {| te_export := Some (Otlp "http://o" [("x-key", "1"); ("x-key", "2")]); te_headers := ["x"] |}.
Proof. reflexivity. Qed.
Example C88_telemetry_faults_example : to_opentelemetry url88 name88 value88
    {| te_export := Some (Otlp "" [("X-Key", "bad"); ("a b", "2")]); te_headers := [] |} {| te_export := None; te_headers := [] |} =
  Err [Build_cause ["@telemetry"; "otlp"; "url"] (UrlParse ""); Build_cause ["@telemetry"; "otlp"; "headers"] (InvalidHeaderValue "bad");
       Build_cause ["@telemetry"; "otlp"; "headers"] (InvalidHeaderName "a b")].
Proof. reflexivity. Qed.
Example C88_graph_ref_example : graph_ref "graph-Id@variant_1" /\ ~ graph_ref "gr@ph_id@variant" /\ ~ graph_ref "graph@" /\ ~ graph_ref "graph$id@variant1".
Proof. rewrite <- !graph_ref_ok. repeat split; discriminate. Qed.

(** ** What does not hold *)
(** Not all is told at once: of a link without a source, that its id is used twice is not told, and two scripts or keys only when nothing else is wrong. *)
Theorem C88_all_is_told_at_once_refuted : exists links es, check_links links = Err es /\ two_of LScript links /\ two_of LKey links /\
  ~ In OnlyOneKeyLinkAllowed (map message es).
Proof.
  exists [link88 None "a.js" LScript; link88 None "b.js" LScript; link88 None "a.pem" LKey; link88 None "b.pem" LKey]. eexists. split; [reflexivity|].
  split; [exists 0, 1; eexists _, _; repeat split; auto|]. split; [exists 2, 3; eexists _, _; repeat split; auto|]. cbn. intros [H|[]]. discriminate.
Qed.
Print Assumptions C88_all_is_told_at_once_refuted.

(** The headers of requests that are to be exported are lost when there is no exporter yet. *)
Theorem C88_request_headers_are_kept_refuted : exists parse_url header_name header_value t up r,
  to_opentelemetry parse_url header_name header_value t up = Ok r /\ te_headers t <> [] /\ te_headers r = [].
Proof. exists url88, name88, value88, {| te_export := None; te_headers := ["x"] |}, {| te_export := None; te_headers := [] |}. eexists. repeat split. discriminate. Qed.
Print Assumptions C88_request_headers_are_kept_refuted.
