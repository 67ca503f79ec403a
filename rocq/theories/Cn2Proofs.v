(** Proofs for C81: generated configurations. *)
From Coq Require Import String Ascii Bool Arith NArith List Lia.
From Verif Require Import Base Ordered OrderedFacts JsonModel UrlModel HeadersModel RequestModel RequestSpec TypeModel ConfigModel
  MustacheModel MustacheSpec MustacheProofs IrModel ComposeModel CtxModel CtxSpec CtxProofs FieldModel CallModel CallProofs CheckModel CnModel CnSpec CnProofs.
From Verif Require StringFacts RenameProofs PgModel PgSpec PgProofs Pg3Proofs PgProps GsModel GsSpec Gs2Proofs.
Import ListNotations.
Open Scope string_scope.
Open Scope list_scope.

Lemma oget_connect rg ht n l : oget scmp n (connect_types rg ht l) = option_map (connect_type rg ht) (oget scmp n l).
Proof. exact (RenameProofs.oget_map_values _ _ (connect_type rg ht) l n). Qed.
Lemma oget_connect_field rg ht n l : oget scmp n (map (fun kf => (fst kf, connect_field rg ht (snd kf))) l) = option_map (connect_field rg ht) (oget scmp n l).
Proof. exact (RenameProofs.oget_map_values _ _ (connect_field rg ht) l n). Qed.

Lemma word_plain c : is_word c = true -> json_plain c = true.
Proof. destruct c as [[] [] [] [] [] [] [] []]; vm_compute; auto. Qed.
Lemma name_plain k : name k -> all_chars json_plain k = true.
Proof.
  intros [c s A W]. cbn. rewrite (word_plain c) by now apply alpha_word. cbn. induction W as [|c' s' A' W' IH]; [reflexivity|]. cbn. now rewrite (word_plain c' A').
Qed.
Lemma all_app p a b : all_chars p (a ++ b)%string = (all_chars p a && all_chars p b)%bool.
Proof. induction a as [|x a IH]; cbn; [reflexivity|]. rewrite IH. now destruct (p x). Qed.
Lemma body_parsed k : name k -> parse ("""" ++ ("{{.args." ++ k ++ "}}") ++ """")%string = [Expression ["args"; k]].
Proof.
  intros N. assert (A : name "args") by (constructor; [reflexivity|repeat constructor]).
  assert (W : written [Literal """"; Expression ["args"; k]; Literal """"] ("""" ++ ("{{." ++ ("args" ++ "." ++ k) ++ "}}") ++ """")%string).
  { apply W_text_expr; [discriminate| | |].
    - intros a b E. assert (L : String.length ("""" ++ "{") = String.length (a ++ "{{" ++ b)%string) by now rewrite E. destruct a as [|x a]; [discriminate|]. destruct a as [|y a]; [discriminate|]. destruct a; discriminate.
    - apply WE_dot. exact (WP_more "args" "" "" [k] k A B_nil B_nil (eq_rect (k ++ "")%string (fun z => written_path [k] z) (WP_one k "" "" N B_nil B_nil) k (StringFacts.str_app_nil_r k))).
    - apply W_text; [discriminate|]. intros a b E. destruct a as [|x a]; [discriminate|]. destruct a; discriminate. }
  replace (("""" ++ ("{{.args." ++ k ++ "}}") ++ """")%string) with (("""" ++ ("{{." ++ ("args" ++ "." ++ k) ++ "}}") ++ """")%string) by (now rewrite ?StringFacts.str_app_assoc).
  unfold parse. now rewrite (parse_segment_complete _ _ W).
Qed.
Lemma const_parsed s : braceless s -> s <> "" -> s <> """" -> parse s = [Literal s].
Proof. intros B N Q. apply parse_written; [now apply W_text|]. intros [E|[]]. now injection E. Qed.
Lemma message_text e k m : denotes (e_ctx e) ["args"; k] (VObj m) -> e_render e [Expression ["args"; k]] = x_json_text (e_ext e) (VObj m).
Proof.
  intros D. unfold e_render. apply render_rendered. rewrite <- (StringFacts.str_app_nil_r (x_json_text (e_ext e) (VObj m))). apply R_present; [|constructor]. unfold e_string. apply path_string_complete.
  - apply (stands_value _ _ _ (VObj m)); [exact D|constructor].
  - intros n D'. apply (to_raw_value_denotes (e_ext e)) in D, D'. congruence.
Qed.
Lemma render_literal e s : e_render e [Literal s] = s.
Proof. unfold e_render. apply render_rendered. pose proof (R_text (e_string e) s [] "" (R_nil _)) as R. now rewrite StringFacts.str_app_nil_r in R. Qed.
Lemma service_text f q s : PgSpec.in_package f q -> String.concat "." (q ++ [PgModel.ps_name s]) = GsSpec.service_name f s.
Proof.
  intros [E W]. unfold GsSpec.service_name. rewrite E. destruct q as [|a q]; [reflexivity|].
  assert (N : String.concat "." (a :: q) <> "").
  { inversion W as [|? ? [Wa _] _]; subst. destruct a; [congruence|]. destruct q; discriminate. }
  apply String.eqb_neq in N. rewrite N. clear N E W. revert a. induction q as [|b q IH]; intros a; [reflexivity|].
  change ((a :: b :: q) ++ [PgModel.ps_name s]) with (a :: (b :: q) ++ [PgModel.ps_name s]). change (String.concat "." (a :: b :: q)) with (a ++ "." ++ String.concat "." (b :: q))%string.
  change (String.concat "." (a :: (b :: q) ++ [PgModel.ps_name s])) with (a ++ "." ++ String.concat "." ((b :: q) ++ [PgModel.ps_name s]))%string. rewrite IH. now rewrite !StringFacts.str_app_assoc.
Qed.
Lemma method_split (q : list string) s n : String.concat "." (q ++ [s; n]) = (String.concat "." (q ++ [s]) ++ "." ++ n)%string.
Proof.
  induction q as [|a q IH]; [reflexivity|]. destruct q as [|b q]; [cbn; now rewrite ?StringFacts.str_app_assoc|].
  change ((a :: b :: q) ++ [s; n]) with (a :: (b :: q) ++ [s; n]). change ((a :: b :: q) ++ [s]) with (a :: (b :: q) ++ [s]).
  change (String.concat "." (a :: (b :: q) ++ [s; n])) with (a ++ "." ++ String.concat "." ((b :: q) ++ [s; n]))%string.
  change (String.concat "." (a :: (b :: q) ++ [s])) with (a ++ "." ++ String.concat "." ((b :: q) ++ [s]))%string. rewrite IH. now rewrite !StringFacts.str_app_assoc.
Qed.
Lemma word_dotless w : PgSpec.word w -> dotless w.
Proof. intros [_ C] I. specialize (C _ I). revert C. unfold PgSpec.word_char. cbn. lia. Qed.

Section Generated.
  Variable camel : string -> string.
  Variable grpc_text : string -> option string -> string -> string.
  Variable read_grpc : list string -> string -> call.
  Variable http_text : http -> string.
  Variable header_name : string -> option string.
  Variable json_text : value -> string.
  Hypothesis connect_name : header_name "Connect-Protocol-Version" = Some "connect-protocol-version".
  Hypothesis empty_text : json_text (VObj []) = "{}".
  Hypothesis plain_texts : forall s, every json_plain s -> json_text (VStr s) = ("""" ++ s ++ """")%string.
  Hypothesis reads : forall u b m, read_grpc [] (grpc_text u b m) = plain_call u b m.
  Hypothesis names : forall w, PgSpec.word w -> name (camel w).

  Lemma generated query url files x f q s d : PgSpec.well_formed files -> PgSpec.names_apart query files ->
    PgModel.from_proto camel grpc_text query url files = Ok x ->
    In f files -> PgSpec.in_package f q -> In s (PgModel.pl_services f) -> In d (PgModel.ps_methods s) ->
    let target := address url (GsSpec.service_name f s) (PgModel.pd_name d) in
    braceless target ->
    exists t fd h ht,
      oget scmp query (connect_types read_grpc http_text (PgModel.x_types x)) = Some t /\
      oget scmp (PgSpec.method_title (q ++ [PgModel.ps_name s; PgModel.pd_name d])) (t_fields t) = Some fd /\
      f_resolvers fd = [RHttp [] (http_text h)] /\
      (forall c, compile_http c header_name json_text h fd = Ok (IIO (IoHttp ht None false false))) /\
      forall parse_base form_text e u, parse_url parse_base target = Some u ->
      exists r, to_request parse_base form_text ht e = Ok r /\ q_method r = "POST" /\ q_url r = url_text u /\
        (~ In "content-type" (map fst (e_headers e)) -> h_all "content-type" (q_headers r) = ["application/json"]) /\
        (~ In "connect-protocol-version" (map fst (e_headers e)) -> h_all "connect-protocol-version" (q_headers r) = ["1"]) /\
        (if String.eqb (PgModel.pd_input d) "" || String.eqb (PgModel.pd_input d) PgSpec.empty_message then f_args fd = [] /\ q_body r = Some "{}"
         else exists k a, f_args fd = [(k, a)] /\ forall m, denotes (e_ctx e) ["args"; k] (VObj m) -> q_body r = Some (x_json_text (e_ext e) (VObj m))).
  Proof.
    intros WF Ap E If Ip Is Id target Bt.
    set (p := q ++ [PgModel.ps_name s; PgModel.pd_name d]). assert (M : PgSpec.method_at files p d) by (exists f, q, s; repeat split; try assumption; apply Ip).
    destruct (PgProps.C79_methods _ _ _ _ _ _ WF Ap E p d M) as (_ & t & f0 & body & Gt & Gf & Er & Ei & Eo).
    set (g := plain_call url body (String.concat "." p)). set (h := to_http g).
    assert (Wp : Forall PgSpec.word p) by exact (PgSpec.wf_methods _ WF _ _ M).
    assert (Wn : dotless (PgModel.pd_name d)). { apply word_dotless. unfold p in Wp. apply Forall_app in Wp as [_ Wp]. inversion Wp as [|? ? _ W2]; subst. now inversion W2. }
    assert (Eu : ht_url h = target). { unfold h, target. rewrite <- (service_text f q s Ip). apply to_http_url; [|exact Wn]. cbn. apply method_split. }
    set (ht := template_of json_text h [("connect-protocol-version", [Literal "1"])]).
    exists (connect_type read_grpc http_text t), (connect_field read_grpc http_text f0), h, ht.
    split; [now rewrite oget_connect, Gt|]. split; [cbn [connect_type t_fields]; rewrite oget_connect_field; now rewrite Gf|].
    split; [cbn; rewrite Er; cbn; now rewrite reads|].
    assert (Lf : is_list (f_type f0) = false). { destruct (String.eqb (PgModel.pd_output d) PgSpec.empty_message); [now rewrite Eo|]. destruct Eo as (q' & _ & _ & ->). reflexivity. }
    split.
    { intros c. unfold compile_http. cbn [h to_http ht_batch_key ht_query ht_body ht_headers g plain_call gc_batch_key gc_headers app]. cbn [is_empty negb andb]. rewrite !andb_false_r. cbn [when all_checked rmap traced also].
      rewrite (headers_app header_name [] [] eq_refl connect_name : to_mustache_headers header_name [("Connect-Protocol-Version", "1")] = _). cbn. rewrite Lf. reflexivity. }
    intros parse_base form_text e u Pu.
    assert (Et : parse (ht_url h) = [Literal target]).
    { rewrite Eu. apply const_parsed; [exact Bt| |]; unfold target, address; clear; destruct url as [|c0 [|c1 url']]; cbn; intros Ex; discriminate Ex. }
    unfold to_request, create_url. cbn [t_root t_query ht template_of]. rewrite Et. rewrite (render_literal e target), Pu. cbn [h to_http ht_query map mustache_is_const andb rbind].
    unfold create_body. cbn [t_body t_form template_of h to_http ht_body ht_form option_map rbind]. eexists. split; [reflexivity|]. cbn [q_method q_url q_headers q_body t_method template_of to_http ht_method].
    split; [reflexivity|]. split; [reflexivity|]. split; [intros Nc; exact (header_type (e_headers e) [] Nc)|]. split; [intros Nc; exact (header_version (e_headers e) [] Nc)|].
    destruct (String.eqb (PgModel.pd_input d) "" || String.eqb (PgModel.pd_input d) PgSpec.empty_message).
    - destruct Ei as [Ea ->]. split; [exact Ea|]. cbn [g plain_call gc_body option_map]. rewrite empty_text. reflexivity.
    - destruct Ei as (q' & k & a & Rq & Wq & -> & Ea & _ & ->). exists (camel (last q' "")), a. split; [exact Ea|]. intros m D. cbn [g plain_call gc_body option_map].
      assert (Nq : q' <> []).
      { intros ->. destruct (PgSpec.wf_calls _ WF _ _ M) as [[C|[C|(q2 & m2 & R2 & M2 & _)]] _]; unfold PgSpec.refers in *; [rewrite Rq in C; discriminate|rewrite Rq in C; discriminate|].
        rewrite Rq in R2. injection R2 as R2. pose proof (PgSpec.wf_messages _ WF _ _ M2) as W2. destruct q2 as [|a2 q2].
        - destruct M2 as (f2 & q3 & r2 & _ & _ & De & E2). destruct r2; [inversion De|]. now destruct q3.
        - inversion W2 as [|? ? [Wa _] _]; subst. destruct a2; [congruence|]. destruct q2; discriminate. }
      assert (Wl : PgSpec.word (last q' "")). { rewrite Forall_forall in Wq. apply Wq. destruct (exists_last Nq) as (l & z & ->). rewrite last_last. apply in_or_app. right. now left. }
      rewrite plain_texts. 2: { unfold every. rewrite !all_app. rewrite (name_plain _ (names _ Wl)). reflexivity. }
      rewrite (body_parsed _ (names _ Wl)). now rewrite (message_text e _ m D).
  Qed.
End Generated.
