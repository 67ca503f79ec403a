(** Vocabulary for links and telemetry (C88). *)
From Coq Require Import String Ascii ZArith NArith Bool List.
From Verif Require Import Base ComposeModel LkModel.
Import ListNotations.
Open Scope string_scope.
Open Scope list_scope.

(** ** Links *)
(** Another link has the same id. *)
Definition shared_id (links : list link) (pos : nat) (id : string) : Prop :=
  exists l other l', nth_error links pos = Some l /\ l_id l = Some id /\ other <> pos /\ nth_error links other = Some l' /\ l_id l' = Some id.
(** What is wrong with the link at [pos] *)
Inductive link_fault (links : list link) (pos : nat) : setting_error -> Prop :=
| fault_empty : forall l, nth_error links pos = Some l -> l_src l = "" -> link_fault links pos LinkSrcCannotBeEmpty
| fault_shared : forall l id, nth_error links pos = Some l -> l_src l <> "" -> shared_id links pos id -> link_fault links pos (Duplicated id).
(** Two links are of the kind [t]. *)
Definition two_of (t : link_type) (links : list link) : Prop :=
  exists i j a b, i <> j /\ nth_error links i = Some a /\ nth_error links j = Some b /\ l_type a = t /\ l_type b = t.

(** ** Telemetry *)
Definition graph_char (c : ascii) : Prop :=
  (nat_of_ascii "A" <= nat_of_ascii c <= nat_of_ascii "Z") \/ (nat_of_ascii "a" <= nat_of_ascii c <= nat_of_ascii "z") \/
  (nat_of_ascii "0" <= nat_of_ascii c <= nat_of_ascii "9") \/ c = "-"%char \/ c = "_"%char.
Definition graph_word (s : string) : Prop := s <> "" /\ Forall graph_char (list_ascii_of_string s).
(** [<graph>@<variant>] *)
Definition graph_ref (s : string) : Prop := exists g v, s = (g ++ "@" ++ v)%string /\ graph_word g /\ graph_word v.
(** What is wrong with an exporter, and where *)
Inductive telemetry_fault (parse_url header_name : string -> option string) (header_value : string -> bool) : exporter -> list string -> setting_error -> Prop :=
| fault_url : forall u hs, parse_url u = None -> telemetry_fault parse_url header_name header_value (Otlp u hs) ["otlp"; "url"] (UrlParse u)
| fault_name : forall u hs k v, In (k, v) hs -> header_name k = None ->
    telemetry_fault parse_url header_name header_value (Otlp u hs) ["otlp"; "headers"] (InvalidHeaderName k)
| fault_value : forall u hs k v, In (k, v) hs -> header_value v = false ->
    telemetry_fault parse_url header_name header_value (Otlp u hs) ["otlp"; "headers"] (InvalidHeaderValue v)
| fault_ref : forall r o, ~ graph_ref r -> telemetry_fault parse_url header_name header_value (Apollo r o) ["apollo.graph_ref"] (InvalidGraphRef r).
(** The exporter that is used: the address as it is written again, and all headers in order *)
Inductive exports (parse_url header_name : string -> option string) : exporter -> exporter -> Prop :=
| exports_stdout : forall p, exports parse_url header_name (Stdout p) (Stdout p)
| exports_prometheus : forall p f, exports parse_url header_name (Prometheus p f) (Prometheus p f)
| exports_apollo : forall r o, exports parse_url header_name (Apollo r o) (Apollo r o)
| exports_otlp : forall u hs u' hs', parse_url u = Some u' -> Forall2 (fun a b => header_name (fst a) = Some (fst b) /\ snd b = snd a) hs hs' ->
    exports parse_url header_name (Otlp u hs) (Otlp u' hs').
