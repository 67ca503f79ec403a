(** C94: the command that generates configurations. *)
From Coq Require Import String Ascii Bool List QArith.
From Verif Require Import Base LinksModel TgModel TgSpec TgProofs.
Import ListNotations.
Open Scope string_scope.
Open Scope list_scope.

Section Whole.
  Context {Json Meta Cfg Method : Type}.
  Variable url extension canonical : string -> option string.
  Variable cwd : option string.
  Variable clean : string -> string.
  Variable relative : option string -> string -> option string.
  Variable file : string -> option string.
  Variable render : string -> string.
  Variable parse_config : doc_source -> string -> option (gen_config (Json := Json) (Method := Method)).
  Variable read_proto : string -> option (list string) -> option Meta.
  Variable with_path : string -> Meta -> Meta.
  Variable parse_json : string -> option Json.
  Variable null : Json.
  Variable is_null : Json -> bool.
  Variable get : Method.
  Variable header_name header_value : string -> option string.
  Variable answer : list (event (Json := Json) (Cfg := Cfg) (Method := Method)) -> request (Json := Json) (Method := Method) -> option string.
  Variable generated : preset -> string -> option string -> list (sample (Json := Json) (Meta := Meta) (Method := Method)) -> option Cfg.
  Variable inferred : list (event (Json := Json) (Cfg := Cfg) (Method := Method)) -> string -> option string -> Cfg -> option Cfg.
  Variable to_sdl : Cfg -> string.
  Variable exists_file : string -> bool.
  Variable agreed : string -> option bool.
  Variable written : string -> bool.
  Notation run := (generate url extension canonical cwd clean relative file render parse_config read_proto with_path parse_json null is_null get header_name header_value answer generated inferred to_sdl exists_file agreed written).
  Notation config_at := (read_gen url extension canonical cwd clean file render parse_config).

  (** One file at most is written, the output, after everything else, and one that exists only if the user agreed. *)
  Theorem C94_only_the_output_is_written : is_null null = true -> forall cp ev r p t, run cp = (ev, r) -> In (Wrote p t) ev ->
    exists g before, config_at cp = Some g /\ p = g_output g /\ ev = before ++ [Wrote p t] /\ (forall e, In e before -> ~ writes e) /\
      (exists_file p = true -> In (Prompted p) before /\ agreed p = Some true) /\ (r <> None -> exists c, r = Some c /\ t = to_sdl c).
  Proof.
    intros N cp ev r p t R I. destruct (run_shape _ _ _ _ _ _ _ _ _ _ _ _ _ _ _ _ _ _ _ _ _ _ _ _ N cp ev r R) as [[-> _]|(g & qs & done & rest & infs & G & F & A & E & C)]; [contradiction|].
    pose proof (before_no_writes qs infs E) as B.
    destruct C as [[-> _]|(_ & c & ok & W & ->)]; [exfalso; apply (B _ I); now exists p, t|].
    destruct (write_shape _ _ _ _ _ _ _ _ _ _ W) as [[-> _]|[(-> & X & _)|(-> & [(X & ->)|(X & Y & ->)])]].
    - exfalso. apply (B _ I). now exists p, t.
    - apply in_app_or in I as [I|[I|[]]]; [|discriminate]. exfalso. apply (B _ I). now exists p, t.
    - apply in_app_or in I as [I|[[= <- <-]|[]]]; [exfalso; apply (B _ I); now exists p, t|]. exists g, (map Asked qs ++ infs). split; [exact G|]. split; [reflexivity|]. split; [reflexivity|]. split; [exact B|]. split; [congruence|].
      destruct (written _); [intros _; now exists c|congruence].
    - apply in_app_or in I as [I|[[= <- <-]|[]]].
      { apply in_app_or in I as [I|[I|[]]]; [|discriminate]. exfalso. apply (B _ I). now exists p, t. }
      exists g, ((map Asked qs ++ infs) ++ [Prompted (g_output g)]). split; [exact G|]. split; [reflexivity|]. split; [reflexivity|].
      split; [intros e H; apply in_app_or in H as [H|[<-|[]]]; [now apply B|now intros (a & b & Z)]|]. split; [intros _; split; [apply in_or_app; right; now left|exact Y]|].
      destruct (written _); [intros _; now exists c|congruence].
  Qed.
  (** The command succeeds if the configuration was written, or if the user did not want that. *)
  Theorem C94_success_is_written : is_null null = true -> forall cp ev c, run cp = (ev, Some c) ->
    exists g, config_at cp = Some g /\ ((In (Wrote (g_output g) (to_sdl c)) ev /\ written (g_output g) = true) \/ (exists_file (g_output g) = true /\ agreed (g_output g) = Some false)).
  Proof.
    intros N cp ev c R. destruct (run_shape _ _ _ _ _ _ _ _ _ _ _ _ _ _ _ _ _ _ _ _ _ _ _ _ N cp ev _ R) as [[_ X]|(g & qs & done & rest & infs & G & F & A & E & C)]; [discriminate|].
    exists g. split; [exact G|]. destruct C as [[_ X]|(_ & c' & ok & W & X)]; [discriminate|].
    destruct (write_shape _ _ _ _ _ _ _ _ _ _ W) as [[_ ->]|[(_ & Y & [[_ ->]|[Z ->]])|(O & Y)]]; try discriminate; [now right|].
    left. rewrite <- O. destruct ok; [|discriminate]. injection X as ->. split; [|reflexivity]. destruct Y as [(_ & ->)|(_ & _ & ->)]; apply in_or_app; right; now left.
  Qed.
  (** Every curl input is asked for once and as it says, in the order of the inputs; a command that fails stops within them. *)
  Theorem C94_one_request_per_input : is_null null = true -> forall cp ev r, run cp = (ev, r) ->
    (ev = [] /\ r = None) \/ exists g asked rest, config_at cp = Some g /\ filter is_curl (g_inputs g) = asked ++ rest /\ Forall2 (asks url is_null get header_name header_value) asked (requests ev) /\ (r <> None -> rest = []).
  Proof.
    intros N cp ev r R. destruct (run_shape _ _ _ _ _ _ _ _ _ _ _ _ _ _ _ _ _ _ _ _ _ _ _ _ N cp ev r R) as [X|(g & qs & done & rest & infs & G & F & A & E & C)]; [now left|]. right.
    exists g, done, rest. split; [exact G|]. split; [exact F|]. pose proof (before_requests qs infs E) as B.
    destruct C as [[-> ->]|(Z & c & ok & W & ->)]; [rewrite B; split; [exact A|congruence]|]. split; [|auto].
    assert (Q : requests ev = qs); [|now rewrite Q].
    remember (map Asked qs ++ infs) as X. clear HeqX. destruct (write_shape _ _ _ _ _ _ _ _ _ _ W) as [[-> _]|[(-> & _)|(_ & [(_ & ->)|(_ & _ & ->)])]]; rewrite ?requests_app, B; cbn; now rewrite ?app_nil_r.
  Qed.
  (** A threshold outside of 0 and 1 fails before anything is asked for. *)
  Theorem C94_thresholds : forall cp g p q, config_at cp = Some g -> g_preset g = Some p -> p_merge p = Some (Some q) -> ~ (0 <= q <= 1)%Q -> run cp = ([], None).
  Proof.
    intros cp g p q G P M R. unfold generate. rewrite G, P. unfold to_preset. cbn [merge_type]. rewrite M. unfold between. destruct (Qle_bool 0 q && Qle_bool q 1) eqn:B; [|reflexivity].
    apply andb_prop in B as [B1 B2]. apply Qle_bool_iff in B1. apply Qle_bool_iff in B2. now destruct R.
  Qed.
End Whole.
Print Assumptions C94_only_the_output_is_written.
Print Assumptions C94_success_is_written.
Print Assumptions C94_one_request_per_input.
Print Assumptions C94_thresholds.

(** The file of the command is JSON or YAML, and what it names is found from its folder. *)
Theorem C94_places_are_of_the_file : forall {Json Method} url extension real w clean file render parse_config cp d t (raw : gen_config (Json := Json) (Method := Method)) kind,
  extension cp = Some kind -> kind = "json" \/ kind = "yml" \/ kind = "yaml" \/ kind = "YAML" -> file cp = Some t ->
  parse_config (if String.eqb kind "json" then JsonDoc else Yml) (render t) = Some raw ->
  parent cp = Some d -> d <> "" -> ends_with_slash d = false -> prefix "/" d = false -> w <> "" -> ends_with_slash w = false ->
  exists g, read_gen url extension real (Some w) clean file render parse_config cp = Some g /\ located url real w clean d (g_output raw) (g_output g) /\
    Forall2 (source_located url real w clean d) (g_inputs raw) (g_inputs g) /\ g_preset g = g_preset raw /\ g_query g = g_query raw /\ g_mutation g = g_mutation raw /\ g_llm g = g_llm raw.
Proof.
  intros Json Method url extension real w clean file render parse_config cp d t raw kind X K F P D D1 D2 D3 W1 W2.
  assert (L : forall p, located url real w clean d p (into_resolved url real (Some w) clean d p)) by (intros p; now apply into_located).
  exists (resolve_gen url real (Some w) clean cp raw). unfold read_gen, detect. rewrite X, F. split.
  { destruct K as [-> | [-> | [-> | ->]]]; cbn in P; exact (f_equal (option_map (resolve_gen url real (Some w) clean cp)) P). }
  unfold resolve_gen. rewrite D. cbn. split; [apply L|]. split; [|now repeat split].
  induction (g_inputs raw) as [|s l IH]; [constructor|]. constructor; [|exact IH]. destruct s as [src h m b i f|src u [ps|] c|src]; cbn; constructor; try apply L. induction ps; constructor; [apply L|assumption].
Qed.
Print Assumptions C94_places_are_of_the_file.
(** A file of the command in the language of schemas is refused. *)
Theorem C94_not_graphql : forall {Json Method} url extension real w clean file render parse_config cp, extension cp = Some "graphql" \/ extension cp = Some "gql" \/ extension cp = Some "toml" \/ extension cp = None ->
  read_gen (Json := Json) (Method := Method) url extension real w clean file render parse_config cp = None.
Proof. intros. unfold read_gen, detect. destruct H as [-> | [-> | [-> | ->]]]; reflexivity. Qed.
Print Assumptions C94_not_graphql.
Example C94_places_example : located (fun _ => None) (fun p => if String.eqb p "api/a.proto" then Some "/real/a.proto" else None) "/home" (fun s => s) "api" "a.proto" "/real/a.proto" /\
  located (fun _ => None) (fun p => None) "/home" (fun s => s) "api" "out.graphql" "/home/api/out.graphql" /\ parent "api/gen.yml" = Some "api".
Proof. split; [now apply L_real|]. split; [now apply (L_new _ _ "/home" (fun s => s) "api" "out.graphql")|reflexivity]. Qed.

(** A link that is written into the output leads from its folder to the proto file, if the names of both are plain. *)
Theorem C94_links_lead_to_protos_partial : forall output_dir path, plain output_dir -> plain path -> exists link, diff_paths path output_dir = Some link /\ walk output_dir link = path.
Proof. intros d p D P. destruct (diff_some p d D) as (r & E). exists r. split; [exact E|]. exact (diff_back p d [] r P D E). Qed.
Print Assumptions C94_links_lead_to_protos_partial.
Example C94_link_example : diff_paths ["home"; "me"; "proto"; "a.proto"] ["home"; "me"; "out"; "gen"] = Some [".."; ".."; "proto"; "a.proto"].
Proof. reflexivity. Qed.
(** What is missing: with [".."] in the path of the output the link leads elsewhere. *)
Theorem C94_links_refuted : exists output_dir path link, diff_paths path output_dir = Some link /\ plain path /\ walk (walk [] output_dir) link <> path.
Proof.
  exists ["x"; "a"; ".."; "b"], ["x"; "c"; "p.proto"], [".."; ".."; ".."; "c"; "p.proto"]. split; [reflexivity|]. split; [intros [E|[E|[E|[]]]]; discriminate|]. vm_compute. discriminate.
Qed.
Print Assumptions C94_links_refuted.

(** A machine with a configuration of two requests and a file; JSON is texts. *)
Definition ext_of (p : string) : option string := if prefix "/out.json" p then Some "json" else if prefix "/out" p then Some "graphql" else if prefix "/gen" p then Some "json" else None.
Definition gen_at (out : string) (m : option (option Q)) : gen_config (Json := string) (Method := string) :=
  {| g_inputs := [Curl "https://x/a" (Some [("K", "1"); ("k", "2")]) None None None "a"; Config "/out-base.graphql"; Curl "https://x/b" None (Some "POST") (Some "{}") (Some true) "b"];
     g_output := out; g_preset := Some {| p_merge := m; p_infer := Some false; p_shake := None; p_unwrap := None |}; g_query := None; g_mutation := Some "Mutation"; g_llm := None |}.
Definition gen_run (out : string) (m : option (option Q)) (exists_file : bool) (agreed : option bool) :=
  generate (Meta := unit) (Cfg := nat) (fun s => if prefix "https:" s then Some s else None) ext_of (fun _ => None) None (fun s => s) (fun _ _ => None) (fun _ => Some "text") (fun t => t) (fun _ _ => Some (gen_at out m))
    (fun _ _ => None) (fun _ m => m) (fun t => Some t) "null" (String.eqb "null") "GET" (fun k => Some (DocModel.to_lowercase k)) (fun v => Some v) (fun _ _ => Some "json") (fun _ _ _ l => Some (length l)) (fun _ _ _ c => Some c)
    (fun _ => "sdl") (fun _ => exists_file) (fun _ => agreed) (fun _ => true) "/gen.json".
Definition two_requests : list (event (Json := string) (Cfg := nat) (Method := string)) :=
  [Asked {| q_method := "GET"; q_url := "https://x/a"; q_headers := [("k", "2")]; q_body := None |}; Asked {| q_method := "POST"; q_url := "https://x/b"; q_headers := []; q_body := Some "{}" |}].
Example C94_example : gen_run "/out.graphql" None true (Some true) = (two_requests ++ [Prompted "/out.graphql"; Wrote "/out.graphql" "sdl"], Some 3%nat) /\
  gen_run "/out.graphql" None false None = (two_requests ++ [Wrote "/out.graphql" "sdl"], Some 3%nat) /\ gen_run "/out.graphql" None true (Some false) = (two_requests ++ [Prompted "/out.graphql"], Some 3%nat) /\
  gen_run "/out.graphql" (Some (Some 2%Q)) false None = ([], None).
Proof. repeat split. Qed.
(** "Nothing is asked of servers if nothing can be written": the format of the output is looked at last. *)
Theorem C94_formats_refuted : exists out, gen_run out None false None = (two_requests, None).
Proof. exists "/out.json". reflexivity. Qed.
Print Assumptions C94_formats_refuted.
