(** C81: a gRPC method that is called with the Connect protocol is called at the same address with
    the same message. *)
From Coq Require Import String Ascii ZArith NArith Bool Arith List Lia.
From Verif Require Import Base Ordered JsonModel UrlModel HeadersModel RequestModel RequestSpec TypeModel ConfigModel
  MustacheModel MustacheSpec MustacheProofs IrModel ComposeModel CtxModel CtxSpec FieldModel CallModel CheckModel CnModel CnSpec CnProofs Cn2Proofs.
From Verif Require PgModel PgSpec PgProofs Pg4Proofs PgProps GsSpec RequestProps CheckProps StringFacts.
Import ListNotations.
Open Scope string_scope.
Open Scope list_scope.

(** ** What is changed *)
Theorem C81_conversion : forall read_grpc http_text c, config_rewritten read_grpc http_text c (connect read_grpc http_text c).
Proof. exact config_changed. Qed.
Print Assumptions C81_conversion.

(** ** The call *)
(** Whatever [@grpc] is accepted, the [@http] it is replaced by is accepted; both make the same call
    or none.  What is missing: an address of the server that ends in a slash, batching, and templates
    that lead to a query; see [C81_slash_refuted] and [C81_batch_refuted]. *)
Theorem C81_same_call_partial : forall header_name json_text c f g t,
  header_name "Connect-Protocol-Version" = Some "connect-protocol-version" -> json_text (VObj []) = "{}" ->
  gc_batch_key g = [] -> no_final_slash (gc_url g) ->
  compile_call header_name json_text g = Ok (apply_select (IIO (IoGrpc t)) (gc_select g)) ->
  exists h ht, over_http g h /\
    compile_http c header_name json_text h f = Ok (apply_select (IIO (IoHttp ht None (is_list (f_type f)) (gc_dedupe g))) (gc_select g)) /\
    forall parse_base form_text e, (forall s, rendered (e_string e) (g_url t) s -> lacks "?" s) ->
    match grpc_request parse_base t e with
    | Ok q => exists r, to_request parse_base form_text ht e = Ok r /\ same_call (e_headers e) q r
    | Err x => to_request parse_base form_text ht e = Err x
    end.
Proof.
  intros header_name json_text c f g t Hn Ht B S E. unfold compile_call in E. destruct (grpc_template_of header_name json_text g) as [t'|] eqn:T; [|discriminate].
  assert (t' = t) as -> by (cbn in E; unfold apply_select in E; destruct (gc_select g); injection E; auto).
  destruct (compiled header_name json_text Hn Ht c g t f B T S) as (ht & C & E1 & E2 & E3 & E4 & E5 & E6).
  exists (to_http g), ht. split; [apply to_http_over|]. split; [exact C|]. intros parse_base form_text e L. apply same_request; try assumption. apply L. apply render_rendered. reflexivity.
Qed.
Print Assumptions C81_same_call_partial.

Definition lower_name (s : string) : option string := if String.eqb s "" then None else Some (lower s).
Definition g81 : call :=
  {| gc_url := "http://{{.vars.host}}:50051"; gc_method := "shop.v1.Items.Get"; gc_headers := [("X-Team", "{{.args.team}}"); ("Content-Type", "text/plain")];
     gc_body := Some (VStr "{{.args.item}}"); gc_batch_key := []; gc_dedupe := true; gc_select := Some (VStr "{{.items}}") |}.
Definition e81 : evaluation :=
  {| e_ext := {| x_header := fun _ => None; x_var := fun k => if String.eqb k "host" then Some "h" else None; x_vars_json := "{}"; x_env := fun _ => None;
                 x_json_text := fun _ => "{""id"":1}"; x_graphql_text := fun _ => ""; x_parse := fun _ => None |};
     e_ctx := {| c_value := None; c_args := Some [("team", VStr "red"); ("item", VObj [("id", VNum (NInt 1))])]; c_over_value := None; c_over_args := None; c_is_query := true |};
     e_headers := [("authorization", "Ann")] |}.
Example C81_example_call : exists t ht,
  lower_name "Connect-Protocol-Version" = Some "connect-protocol-version" /\ CheckProps.yjson (VObj []) = "{}" /\ no_final_slash (gc_url g81) /\
  compile_call lower_name CheckProps.yjson g81 = Ok (apply_select (IIO (IoGrpc t)) (gc_select g81)) /\
  grpc_request RequestProps.base30 t e81 =
    Ok {| q_method := "POST"; q_url := "http://h:50051/shop.v1.Items/Get"; q_headers := [("x-team", "red"); ("content-type", "text/plain"); ("authorization", "Ann")]; q_body := Some "{""id"":1}" |} /\
  to_request RequestProps.base30 (fun s => Some s) ht e81 =
    Ok {| q_method := "POST"; q_url := "http://h:50051/shop.v1.Items/Get";
          q_headers := [("x-team", "red"); ("connect-protocol-version", "1"); ("content-type", "application/json"); ("authorization", "Ann")]; q_body := Some "{""id"":1}" |} /\
  compile_http (CheckProps.yc []) lower_name CheckProps.yjson (to_http g81) CheckProps.f69 = Ok (apply_select (IIO (IoHttp ht None false true)) (gc_select g81)).
Proof.
  eexists _, _. split; [reflexivity|]. split; [reflexivity|]. split.
  { intros t E. assert (L : forall s (c : ascii), s = (t ++ "/")%string -> last (list_ascii_of_string s) c = "/"%char).
    { intros s c ->. clear. induction t as [|a t IH]; [reflexivity|]. cbn [append list_ascii_of_string last]. destruct (list_ascii_of_string (t ++ "/")) eqn:X; [destruct t; discriminate|]. exact IH. }
    specialize (L _ " "%char E). discriminate. }
  split; [vm_compute; reflexivity|]. split; [vm_compute; reflexivity|]. split; [|vm_compute; reflexivity]. vm_compute. reflexivity.
Qed.

(** ** Generated configurations *)
(** The field that is generated for a method of a service, in a file with or without a package, sends
    its argument to the method. *)
Theorem C81_generated : forall camel grpc_text read_grpc http_text header_name json_text,
  header_name "Connect-Protocol-Version" = Some "connect-protocol-version" -> json_text (VObj []) = "{}" ->
  (forall s, every json_plain s -> json_text (VStr s) = ("""" ++ s ++ """")%string) ->
  (forall u b m, read_grpc [] (grpc_text u b m) = plain_call u b m) ->
  (forall w, PgSpec.word w -> name (camel w)) ->
  forall query url files x f q s d, PgSpec.well_formed files -> PgSpec.names_apart query files ->
  PgModel.from_proto camel grpc_text query url files = Ok x ->
  In f files -> PgSpec.in_package f q -> In s (PgModel.pl_services f) -> In d (PgModel.ps_methods s) ->
  let target := address url (GsSpec.service_name f s) (PgModel.pd_name d) in
  braceless target ->
  exists t fd h ht,
    oget scmp query (connect_types read_grpc http_text (PgModel.x_types x)) = Some t /\
    oget scmp (PgSpec.method_title (q ++ [PgModel.ps_name s; PgModel.pd_name d])) (t_fields t) = Some fd /\
    f_resolvers fd = [RHttp [] (http_text h)] /\
    (forall c, compile_http c header_name json_text h fd = Ok (IIO (IoHttp ht None false false))) /\
    forall parse_base form_text e u, parse_url parse_base target = Some u ->
    exists r, to_request parse_base form_text ht e = Ok r /\ q_method r = "POST" /\ q_url r = url_text u /\
      (~ In "content-type" (map fst (e_headers e)) -> h_all "content-type" (q_headers r) = ["application/json"]) /\
      (~ In "connect-protocol-version" (map fst (e_headers e)) -> h_all "connect-protocol-version" (q_headers r) = ["1"]) /\
      (if String.eqb (PgModel.pd_input d) "" || String.eqb (PgModel.pd_input d) PgSpec.empty_message then f_args fd = [] /\ q_body r = Some "{}"
       else exists k a, f_args fd = [(k, a)] /\ forall m, denotes (e_ctx e) ["args"; k] (VObj m) -> q_body r = Some (x_json_text (e_ext e) (VObj m))).
Proof. intros. eapply generated; eauto. Qed.
Print Assumptions C81_generated.

(** Texts for the settings that can be read back, and names that start with a letter. *)
Fixpoint ones (s r : string) : string := match s with "" => String "0" r | String _ t => String "1" (ones t r) end.
Definition packed (s r : string) : string := ones s (s ++ r)%string.
Fixpoint count (s : string) : nat * string := match s with String "1" t => let '(n, r) := count t in (S n, r) | String _ t => (0, t) | "" => (0, "") end.
Fixpoint cut (n : nat) (s : string) : string * string := match n, s with S n, String c t => let '(a, b) := cut n t in (String c a, b) | _, _ => ("", s) end.
Definition unpacked (s : string) : string * string := let '(n, r) := count s in cut n r.
Lemma packed_back s r : unpacked (packed s r) = (s, r).
Proof.
  unfold unpacked, packed. assert (C : forall x, count (ones s x) = (String.length s, x)) by (induction s as [|a s IH]; intros x; cbn; [reflexivity|now rewrite IH]). rewrite C. clear C.
  induction s as [|a s IH]; cbn; [now destruct r|]. now rewrite IH.
Qed.
Definition text81 (u : string) (b : option string) (m : string) : string := packed u (packed m (match b with Some s => String "1" s | None => "0" end)).
Definition read81 (k : list string) (s : string) : call :=
  let '(u, s) := unpacked s in let '(m, s) := unpacked s in plain_call u (match s with String "1" s => Some s | _ => None end) m.
Definition lettered (s : string) : string := String "x" s.
Example C81_example_reads : (forall u b m, read81 [] (text81 u b m) = plain_call u b m) /\ (forall w, PgSpec.word w -> name (lettered w)) /\
  exists x t fd, PgModel.from_proto lettered text81 "Query" "http://h" [PgProps.shop; PgProps.calls; PgProps.bare] = Ok x /\
    oget scmp "Query" (connect_types read81 ht_url (PgModel.x_types x)) = Some t /\
    map (fun kf => f_resolvers (snd kf)) (t_fields t) = [[RHttp [] "http://h/Items/Ping"]; [RHttp [] "http://h/shop.v1.calls.Items/Get"]; [RHttp [] "http://h/shop.v1.calls.Items/Ping"]] /\
    oget scmp (PgSpec.method_title ["shop"; "v1"; "calls"; "Items"; "Get"]) (t_fields t) = Some fd /\ map fst (f_args fd) = ["xItem"].
Proof.
  split. { intros u b m. unfold read81, text81. rewrite packed_back, packed_back. now destruct b. }
  split. { intros w [_ W]. constructor; [reflexivity|]. induction w as [|c w IH]; constructor.
    - specialize (W c (or_introl eq_refl)). unfold PgSpec.word_char in W. unfold is_word, is_alpha, is_digit. apply orb_true_iff. rewrite !orb_true_iff, !andb_true_iff, !N.leb_le.
      destruct W as [W|[W|[W|W]]]; [left; right; lia|left; left; lia| |left; left; lia]. right. apply Ascii.eqb_eq. rewrite <- (ascii_N_embedding c), W. reflexivity.
    - apply IH. intros d D. apply W. now right. }
  eexists _, _, _. split; [vm_compute; reflexivity|]. split; [vm_compute; reflexivity|]. split; [vm_compute; reflexivity|]. split; vm_compute; reflexivity.
Qed.

(** ** What is not kept *)
(** A slash at the end of the server's address: with gRPC it makes no difference, here it does. *)
Theorem C81_slash_refuted : exists g t ht q r, gc_batch_key g = [] /\
  compile_call lower_name CheckProps.yjson g = Ok (IIO (IoGrpc t)) /\ compile_http (CheckProps.yc []) lower_name CheckProps.yjson (to_http g) CheckProps.f69 = Ok (IIO (IoHttp ht None false false)) /\
  grpc_request RequestProps.base30 t e81 = Ok q /\ to_request RequestProps.base30 (fun s => Some s) ht e81 = Ok r /\
  q_url q = "http://h/shop.v1.Items/Get" /\ q_url r = "http://h//shop.v1.Items/Get".
Proof.
  exists (plain_call "http://h/" None "shop.v1.Items.Get"). eexists _, _, _, _. split; [reflexivity|]. split; [vm_compute; reflexivity|]. split; [vm_compute; reflexivity|].
  split; [vm_compute; reflexivity|]. split; [vm_compute; reflexivity|]. split; reflexivity.
Qed.
Print Assumptions C81_slash_refuted.

(** A batch is refused unless exactly one text of the message is a template; with gRPC, where the messages
    of a batch are joined, there is no such condition (the check of the key against the proto files is that
    of C80). *)
Theorem C81_batch_refuted : exists c g t, gc_batch_key g = ["items"; "id"] /\ (1 <= get_delay c)%Z /\ (1 <= get_max_size c)%Z /\
  compile_call lower_name CheckProps.yjson g = Ok (IIO (IoGrpc t)) /\ forall e, compile_http c lower_name CheckProps.yjson (to_http g) CheckProps.f69 <> Ok e.
Proof.
  exists CheckProps.on69, {| gc_url := "http://h"; gc_method := "shop.v1.Items.Get"; gc_headers := []; gc_body := Some (VObj [("id", VStr "{{.value.id}}"); ("kind", VStr "{{.value.kind}}")]);
    gc_batch_key := ["items"; "id"]; gc_dedupe := false; gc_select := None |}.
  eexists. split; [reflexivity|]. split; [vm_compute; discriminate|]. split; [vm_compute; discriminate|]. split; [vm_compute; reflexivity|]. intros e. vm_compute. discriminate.
Qed.
Print Assumptions C81_batch_refuted.
