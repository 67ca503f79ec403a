(** C95: gRPC servers that describe themselves. *)
From Coq Require Import String Ascii Bool List Lia.
From Verif Require Import Base MustacheModel MustacheSpec MustacheProofs LinksModel LinksSpec LinksProofs ScModel RfModel RfSpec RfProofs.
Import ListNotations.
Open Scope string_scope.
Open Scope list_scope.

(** What is read of a server is, for every service it lists but the one that describes, the file it is in and all that is imported from there, directly or not. *)
Theorem C95_all_of_the_services_partial : forall {B} quoted env server (decode : string -> option (pfile B)) fuel sets, no_templates quoted server decode -> names_as_asked quoted server decode ->
  fetch quoted env server decode fuel = Some (Some sets) -> exists l, lists quoted server l /\ Forall2 (files_of quoted server decode) (others l) sets.
Proof.
  intros B quoted env server decode fuel sets T M. unfold fetch. destruct (list_all_files quoted env server) as [l|] eqn:L; [|discriminate]. apply (listed quoted env server decode T) in L. intros F. exists l. split; [exact L|].
  apply all_files with env fuel; [exact T|exact M| |exact F]. destruct L as (r & R & L). apply Forall_forall. intros s I. exact (proj1 (proj2 T) _ _ _ R L I).
Qed.
Print Assumptions C95_all_of_the_services_partial.
(** If reading fails, then something that is needed is not given: the list, the file of a service, its package or a file that is imported. *)
Theorem C95_failures : forall {B} quoted env server (decode : string -> option (pfile B)) fuel, no_templates quoted server decode -> names_as_asked quoted server decode ->
  fetch quoted env server decode fuel = Some None ->
  (forall l, ~ lists quoted server l) \/ exists l s, lists quoted server l /\ In s (others l) /\
    ((forall f, ~ gives server decode (for_service quoted s) f) \/
     exists root, gives server decode (for_service quoted s) root /\ (f_package root = None \/ exists i, Reached (fun i p => gives server decode (for_file quoted i) p) root i /\ forall p, ~ gives server decode (for_file quoted i) p)).
Proof.
  intros B quoted env server decode fuel T M. unfold fetch. destruct (list_all_files quoted env server) as [l|] eqn:L.
  - apply (listed quoted env server decode T) in L. intros F. right. assert (A : Forall (fun s => braceless (for_service quoted s)) l) by (destruct L as (r & R & L); apply Forall_forall; intros s I; exact (proj1 (proj2 T) _ _ _ R L I)).
    destruct (all_fails quoted env server decode fuel l A F) as (s & I & O & E). exists l, s. split; [exact L|]. split; [apply filter_In; split; [exact I|]; destruct (String.eqb_spec s own); [contradiction|reflexivity]|].
    apply (service_fails quoted env server decode T M fuel s); [|exact E]. rewrite Forall_forall in A. now apply A.
  - intros _. left. intros l H. apply (listed quoted env server decode T) in H. congruence.
Qed.
Print Assumptions C95_failures.
(** With finitely many names of files the reading ends. *)
Theorem C95_reading_ends : forall {B} quoted env server (decode : string -> option (pfile B)) names, no_templates quoted server decode -> names_as_asked quoted server decode ->
  (forall q f i, gives server decode q f -> In i (f_imports f) -> In i names) -> exists fuel, fetch quoted env server decode fuel <> None.
Proof.
  intros B quoted env server decode names T M N. exists (S (List.length names)). unfold fetch. destruct (list_all_files quoted env server) as [l|] eqn:L; [|discriminate]. apply (listed quoted env server decode T) in L.
  apply all_ends; [exact T|exact M| |exact N]. destruct L as (r & R & L). apply Forall_forall. intros s I. exact (proj1 (proj2 T) _ _ _ R L I).
Qed.
Print Assumptions C95_reading_ends.
(** And then nothing of the environment is sent. *)
Theorem C95_environment_is_kept_partial : forall {B} quoted env env' server (decode : string -> option (pfile B)) fuel, no_templates quoted server decode ->
  fetch quoted env server decode fuel = fetch quoted env' server decode fuel.
Proof.
  intros B quoted env env' server decode fuel T. unfold fetch. assert (L : list_all_files quoted env server = list_all_files quoted env' server) by (unfold list_all_files; now rewrite !(exec quoted _ server "list_services" "" (proj1 T))).
  rewrite <- L. destruct (list_all_files quoted env server) as [l|] eqn:E; [|reflexivity]. apply (listed quoted env server decode T) in E as (r & R & E). assert (A : Forall (fun s => braceless (for_service quoted s)) l) by (apply Forall_forall; intros s I; exact (proj1 (proj2 T) _ _ _ R E I)).
  clear - A T. induction A as [|s l H A IH]; [reflexivity|]. cbn [fetch_all]. rewrite IH. destruct (String.eqb s _); [reflexivity|].
  assert (S : fetch_service quoted env server decode fuel s = fetch_service quoted env' server decode fuel s); [|now rewrite S]. unfold fetch_service.
  assert (G : get_by_service quoted env server decode s = get_by_service quoted env' server decode s) by (unfold get_by_service; now rewrite !(exec quoted _ server "file_containing_symbol" s H)).
  rewrite <- G. destruct (get_by_service quoted env server decode s) as [root|] eqn:E; [|reflexivity]. apply (service_iff quoted env server decode s root H) in E. destruct (f_package root); [|reflexivity].
  rewrite (resolve_same quoted env server decode T fuel _ root E), (resolve_same quoted env' server decode T fuel _ root E). apply dependencies_same with (P := fun i => braceless (for_file quoted i)).
  - intros i I. unfold plain_file. destruct (take_until (for_file quoted i)); [reflexivity|]. unfold get_file. now rewrite !(exec quoted _ server "file_by_filename" i I).
  - intros i p I P. apply (plain_iff quoted env server decode) in P as [_ P]. apply Forall_forall. intros j J. exact (proj2 (proj2 T) _ _ _ P J).
  - apply Forall_forall. intros j J. exact (proj2 (proj2 T) _ _ _ E J).
Qed.
Print Assumptions C95_environment_is_kept_partial.

(** A server with two services and files that import each other; a file is its name, here *)
Definition q1 (s : string) : string := ("""" ++ s ++ """")%string.
Definition pf (n : string) (imports : list string) : pfile unit := {| f_name := n; f_package := Some "p"; f_imports := imports; f_body := tt |}.
Definition two_files (t : string) : option (pfile unit) := if String.eqb t "a" then Some (pf "a" ["b"; "c"]) else if String.eqb t "b" then Some (pf "b" ["c"]) else if String.eqb t "c" then Some (pf "c" []) else None.
Definition a_server (t : string) : option reflection :=
  if String.eqb t (for_services q1) then Some {| r_services := Some ["A"; own; "B"]; r_files := None |}
  else if String.eqb t (for_service q1 "A") || String.eqb t (for_file q1 "a") then Some {| r_services := None; r_files := Some ["a"] |}
  else if String.eqb t (for_service q1 "B") || String.eqb t (for_file q1 "b") then Some {| r_services := None; r_files := Some ["b"] |}
  else if String.eqb t (for_file q1 "c") then Some {| r_services := None; r_files := Some ["c"] |}
  else None.
Example C95_example : fetch q1 (fun _ => None) a_server two_files 5 = Some (Some [[pf "b" ["c"]; pf "c" []; pf "a" ["b"; "c"]]; [pf "c" []; pf "b" ["c"]]]) /\
  no_templates q1 a_server two_files /\ names_as_asked q1 a_server two_files.
Proof.
  assert (G : forall q f, gives a_server two_files q f -> (f = pf "a" ["b"; "c"] /\ (q = for_service q1 "A" \/ q = for_file q1 "a")) \/ (f = pf "b" ["c"] /\ (q = for_service q1 "B" \/ q = for_file q1 "b")) \/ (f = pf "c" [] /\ q = for_file q1 "c")).
  { intros q f (r & t & m & S & F & D). unfold a_server in S. destruct (String.eqb q (for_services q1)); [injection S as <-; discriminate|].
    destruct (String.eqb_spec q (for_service q1 "A")); [injection S as <-; injection F as <- <-; injection D as <-; auto|]. destruct (String.eqb_spec q (for_file q1 "a")); [injection S as <-; injection F as <- <-; injection D as <-; auto|]. cbn [orb] in S.
    destruct (String.eqb_spec q (for_service q1 "B")); [injection S as <-; injection F as <- <-; injection D as <-; auto|]. destruct (String.eqb_spec q (for_file q1 "b")); [injection S as <-; injection F as <- <-; injection D as <-; auto|]. cbn [orb] in S.
    destruct (String.eqb_spec q (for_file q1 "c")); [injection S as <-; injection F as <- <-; injection D as <-; auto|discriminate]. }
  split; [vm_compute; reflexivity|]. split; [split; [|split]|].
  - now apply take_until_none.
  - intros r l s S L I. injection S as <-. injection L as <-. apply take_until_none. destruct I as [<-|[<-|[<-|[]]]]; reflexivity.
  - intros q f i H I. apply take_until_none. destruct (G q f H) as [[-> _]|[[-> _]|[-> _]]]; cbn in I; [destruct I as [<-|[<-|[]]]|destruct I as [<-|[]]|contradiction]; reflexivity.
  - intros i f H. assert (K : forall c, for_file q1 i = for_file q1 (String c "") -> i = String c "").
    { intros c E. unfold for_file, q1 in E. injection E as E. destruct i as [|x [|y i]]; cbn in E; [discriminate|now injection E as ->|]. injection E as _ _ E. destruct i as [|z i]; [discriminate|]. injection E as _ E. destruct i; discriminate. }
    destruct (G _ f H) as [[-> [E|E]]|[[-> [E|E]]|[-> E]]]; try discriminate; apply K in E; now subst.
Qed.

(** "Files that the server sends along are not needed once more": only the first is read. *)
Theorem C95_sent_together_refuted : exists server, gives server two_files (for_service q1 "B") (pf "b" ["c"]) /\ (exists r, server (for_service q1 "B") = Some r /\ r_files r = Some ["b"; "c"]) /\ fetch q1 (fun _ => None) server two_files 5 = Some None.
Proof.
  exists (fun t => if String.eqb t (for_services q1) then Some {| r_services := Some ["B"]; r_files := None |} else if String.eqb t (for_service q1 "B") then Some {| r_services := None; r_files := Some ["b"; "c"] |} else None).
  split; [|split; [|vm_compute; reflexivity]].
  - exists {| r_services := None; r_files := Some ["b"; "c"] |}, "b", ["c"]. repeat split.
  - eexists. split; vm_compute; reflexivity.
Qed.
Print Assumptions C95_sent_together_refuted.
(** "Nothing of the environment is sent": a server that imports a template is sent its value. Here the files that the server gives have its requests as names. *)
Theorem C95_environment_refuted : exists server decode, forall key, exists root, fetch (B := unit) q1 (fun k => if String.eqb k "KEY" then Some key else None) server decode 5 = Some (Some [[pf (for_file q1 key) []; root]]).
Proof.
  exists (fun t => if prefix "{""list" t then Some {| r_services := Some ["A"]; r_files := None |} else Some {| r_services := None; r_files := Some [t] |}),
    (fun t => Some (pf t (if prefix "{""file_containing" t then ["{{.env.KEY}}"] else []))). intros key. eexists. cbn. rewrite !StringFacts.str_app_assoc. reflexivity.
Qed.
Print Assumptions C95_environment_refuted.

(** "Reading ends": a server whose files always import another one is asked without end. *)
Fixpoint xs (n : nat) : string := match n with O => "" | S m => String "x" (xs m) end.
Fixpoint count_x (t : string) : nat := match t with EmptyString => O | String c r => if Ascii.eqb c "x" then S (count_x r) else count_x r end.
Definition endless_server (t : string) : option reflection := if String.eqb t (for_services q1) then Some {| r_services := Some ["A"]; r_files := None |} else Some {| r_services := None; r_files := Some [t] |}.
Definition endless_files (t : string) : option (pfile unit) := Some (pf (xs (count_x t)) [xs (S (count_x t))]).
Lemma xs_text : forall n, count_x (xs n ++ """}") = n /\ take_until (xs n ++ """}") = None.
Proof. induction n as [|n [C T]]; [split; reflexivity|]. split; [cbn; now rewrite C|]. cbn [xs]. change (String "x" (xs n) ++ """}")%string with (String "x" (xs n ++ """}")). cbn [take_until]. rewrite T. destruct (xs n ++ """}")%string; reflexivity. Qed.
Lemma endless_file : forall env n, get_file q1 env endless_server endless_files (xs n) = Some (pf (xs n) [xs (S n)]).
Proof.
  intros env n. destruct (xs_text n) as [C T]. unfold get_file. rewrite exec.
  - unfold endless_server. assert (E : String.eqb (body q1 "file_by_filename" (xs n)) (for_services q1) = false) by reflexivity. rewrite E. unfold request_proto. cbn [r_files]. unfold endless_files.
    assert (X : count_x (body q1 "file_by_filename" (xs n)) = count_x (xs n ++ """}")%string); [|now rewrite X, C].
    unfold body, q1. rewrite !StringFacts.str_app_assoc. reflexivity.
  - apply take_until_none. assert (X : forall a b, (q1 a ++ b)%string = ("""" ++ a ++ """" ++ b)%string) by (intros; unfold q1; now rewrite !StringFacts.str_app_assoc).
    unfold body. rewrite X, X. change ("""" ++ "}")%string with """}". remember (xs n ++ """}")%string as t. cbn. rewrite T. clear. now destruct t.
Qed.
Lemma xs_inj : forall n m, xs n = xs m -> n = m.
Proof. induction n as [|n IH]; intros [|m] E; try discriminate; [reflexivity|]. injection E as E. now rewrite (IH m E). Qed.
Lemma endless_queue : forall env fuel n known, (forall k, In k (akeys known) -> exists m, m <= n /\ k = xs m) -> resolve_queue fuel (get_file q1 env endless_server endless_files) [pf (xs n) [xs (S n)]] known = Unfinished.
Proof.
  intros env. induction fuel as [|f IH]; intros n known K; [reflexivity|]. cbn [resolve_queue pf f_imports resolve_all]. rewrite endless_file. cbn [fold_left take_import app].
  change (f_name (pf (xs (S n)) [xs (S (S n))])) with (xs (S n)). destruct (smem (xs (S n)) (akeys known)) eqn:M.
  - exfalso. apply BaseFacts.smem_In in M. destruct (K _ M) as (m & L & E). apply xs_inj in E. lia.
  - apply IH. intros k I. unfold akeys in I. rewrite map_app in I. apply in_app_or in I as [I|[<-|[]]]; [destruct (K k I) as (m & L & E); exists m; split; [lia|exact E]|]. exists (S n). now split.
Qed.
Theorem C95_reading_ends_refuted : exists server decode, forall env fuel, fetch (B := unit) q1 env server decode fuel = None.
Proof.
  exists endless_server, endless_files. intros env fuel. unfold fetch. change (list_all_files q1 env endless_server) with (Some ["A"]). cbn [fetch_all]. change (String.eqb "A" _) with false. cbv iota. unfold fetch_service.
  change (get_by_service q1 env endless_server endless_files "A") with (Some (pf (xs 0) [xs 1])). cbn [f_package pf]. unfold resolve_dependencies. change {| f_name := xs 0; f_package := Some "p"; f_imports := [xs 1]; f_body := tt |} with (pf (xs 0) [xs 1]).
  rewrite (endless_queue env fuel 0 []); [reflexivity|]. intros k [].
Qed.
Print Assumptions C95_reading_ends_refuted.
