(** Hooks of an HTTP call: theorems of property C76. *)
From Coq Require Import String Ascii ZArith NArith Bool Arith List Permutation Lia.
From Verif Require Import Base BaseFacts Ordered JsonModel UrlModel RequestSpec RequestProofs HookModel HookSpec HookProofs.
Import ListNotations.
Open Scope string_scope.
Open Scope list_scope.

(** ** One call *)
(** Whatever the scripts do, the last request is answered by one call or by the script, and never by
    both; the call is for the request the script gave, or else for the last request. *)
Theorem C76_one_call ask responder execute parse_json norm_path fuel w tr r :
  execute_with_worker ask responder execute parse_json norm_path fuel w = Some (tr, r) ->
  exists n w' a, settles ask norm_path n w w' /\ answered ask execute parse_json w' (calls tr) a /\ length (calls tr) <= 1 /\
    (forall e, a = Err e -> r = Err e).
Proof.
  intros H. destruct (run_settles _ _ _ _ _ _ _ _ _ H) as (n & w' & cs & a & Se & A & C & R). exists n, w', a. rewrite C. split; [exact Se|]. split; [exact A|]. split.
  - destruct A; cbn; lia.
  - intros e ->. destruct R as [->|(e' & -> & E)]; [apply (iter_err responder (S n))|now rewrite E].
Qed.
Print Assumptions C76_one_call.

(** The script that rewrites bodies sees a response once for each redirect and once more. *)
Theorem C76_rewritten ask f execute parse_json norm_path fuel w tr r :
  execute_with_worker ask (Some f) execute parse_json norm_path fuel w = Some (tr, r) ->
  exists n w' a, settles ask norm_path n w w' /\ answered ask execute parse_json w' (calls tr) a /\
    forall p, a = Ok p -> rewritten f (S n) p r.
Proof.
  intros H. destruct (run_settles _ _ _ _ _ _ _ _ _ H) as (n & w' & cs & a & Se & A & C & R). exists n, w', a. rewrite C. split; [exact Se|]. split; [exact A|].
  intros p ->. destruct R as [->|(e' & _ & E)]; [|discriminate E]. apply (iter_through f (S n)).
Qed.
Print Assumptions C76_rewritten.

(** Without redirects it sees the response once. *)
Theorem C76_rewritten_once_partial ask f execute parse_json norm_path fuel w tr r :
  execute_with_worker ask (Some f) execute parse_json norm_path fuel w = Some (tr, r) ->
  (forall w', ~ redirect ask norm_path w w') ->
  exists a, answered ask execute parse_json w (calls tr) a /\
    match a with
    | Err e => r = Err e
    | Ok p => r = match f (p_body p) with Ok v => Ok {| p_status := p_status p; p_headers := p_headers p; p_body := v |} | Err e => Err e end
    end.
Proof.
  intros H N. destruct (run_settles _ _ _ _ _ _ _ _ _ H) as (n & w' & cs & a & Se & A & C & R). inversion Se as [w0 N0|n' w1 w2 w3 Rd _]; subst; [|exfalso; eapply N; eassumption].
  exists a. split; [exact A|]. destruct R as [->|(e' & -> & ->)]; [|reflexivity]. now destruct a.
Qed.
Print Assumptions C76_rewritten_once_partial.

(** Without such a script the answer is the result. *)
Theorem C76_not_rewritten ask execute parse_json norm_path fuel w tr r :
  execute_with_worker ask None execute parse_json norm_path fuel w = Some (tr, r) ->
  exists n w', settles ask norm_path n w w' /\ answered ask execute parse_json w' (calls tr) r /\ shown tr = [].
Proof.
  intros H. destruct (run_settles _ _ _ _ _ _ _ _ _ H) as (n & w' & cs & a & Se & A & C & R). exists n, w'. rewrite C. split; [exact Se|]. split.
  - destruct R as [->|(e' & -> & ->)]; [|exact A]. now rewrite (iter_none (Datatypes.S n)).
  - revert w tr r H Se A C R. clear. intros w tr r H _ _ _ _. revert w tr r H. induction fuel as [|fuel IH]; intros w tr r H; [discriminate|]. cbn in H.
    assert (F : forall t x, shown (fst (finish None t x)) = shown t) by (intros t [p|e]; cbn; [now rewrite app_nil_r|reflexivity]).
    assert (G : forall t x, Some (finish None t x) = Some (tr, r) -> shown tr = shown t) by (intros t x E; injection E as E; rewrite <- (F t x), E; reflexivity).
    destruct (ask w) as [[[q|s hs b]|]|e].
    + now rewrite (G _ _ H).
    + destruct (if Z.eqb s 301 || Z.eqb s 302 then aget "location" hs else None) as [l|]; [|now rewrite (G _ _ H)].
      destruct (execute_with_worker _ _ _ _ _ fuel _) as [[tr' r']|] eqn:E; [|discriminate]. rewrite (G _ _ H). cbn. eapply IH; eauto.
    + now rewrite (G _ _ H).
    + injection H as <- <-. reflexivity.
Qed.
Print Assumptions C76_not_rewritten.

(** It ends if the redirects do. *)
Theorem C76_ends_partial ask responder execute parse_json norm_path w n w' : settles ask norm_path n w w' ->
  forall fuel, n < fuel -> exists tr r, execute_with_worker ask responder execute parse_json norm_path fuel w = Some (tr, r).
Proof.
  intros S fuel L. destruct (execute_with_worker ask responder execute parse_json norm_path fuel w) as [[tr r]|] eqn:E; [eauto|]. exfalso. revert E. eapply settles_run; eauto.
Qed.
Print Assumptions C76_ends_partial.

(** What cannot be shown to the script, or cannot be sent as the script wants it, is not sent. *)
Theorem C76_unusable parse_base lossy valid_method header_name valid_status f responder execute parse_json norm_path w fuel :
  (exists k v, In (k, v) (w_headers w) /\ ~ printable v) \/ (forall j, unusable valid_method header_name valid_status (f j)) ->
  exists e, execute_with_worker (on_request parse_base lossy valid_method header_name valid_status (Some f)) responder execute parse_json norm_path (S fuel) w =
    Some ([EvRequest w], Err e).
Proof.
  intros H. assert (X : exists e, on_request parse_base lossy valid_method header_name valid_status (Some f) w = Err e); [|destruct X as (e & X); exists e; cbn [execute_with_worker]; now rewrite X].
  unfold on_request, request_to_js. destruct H as [(k & v & I & N)|H]; [rewrite (header_texts_bad _ k v I N); eauto|]. destruct (header_texts (w_headers w)) as [hs|]; [|eauto].
  set (j := {| j_uri := _ |}). destruct (H j) as [|r M|r k v I N|r St|r k v I N]; [eauto| | | |].
  - unfold request_from_js. rewrite M. eauto.
  - unfold request_from_js. destruct (valid_method _); [|eauto]. destruct (parse_uri _ _) as [[o q]|]; [|eauto]. rewrite (headers_from_bad _ _ k v I N). eauto.
  - unfold response_from_js. rewrite St. eauto.
  - unfold response_from_js. destruct (valid_status _); [|eauto]. rewrite (headers_from_bad _ _ k v I N). eauto.
Qed.
Print Assumptions C76_unusable.

(** ** A script that changes nothing *)
(** A script that returns the request it is given makes the call that is made without it. *)
Theorem C76_identity_partial parse_base lossy valid_method header_name valid_status responder execute parse_json norm_path w fuel :
  simple parse_base lossy valid_method header_name w ->
  exists w' tr r, execute_with_worker (on_request parse_base lossy valid_method header_name valid_status (Some JRequest)) responder execute parse_json norm_path (S fuel) w = Some (tr, r) /\
    calls tr = [w'] /\ same_call w w' /\ (execute w' = execute w ->
    exists tr', execute_with_worker (on_request parse_base lossy valid_method header_name valid_status None) responder execute parse_json norm_path (S fuel) w = Some (tr', r) /\ calls tr' = [w]).
Proof.
  intros S. destruct (identity_call parse_base lossy valid_method header_name valid_status w S) as (w' & A & C & _). exists w'. cbn [execute_with_worker]. rewrite A.
  destruct (finish responder [EvRequest w; EvCall w'] (execute w')) as [tr r] eqn:F. exists tr, r. split; [reflexivity|].
  pose proof (finish_calls responder [EvRequest w; EvCall w'] (execute w')) as X. rewrite F in X. split; [exact X|]. split; [exact C|]. intros E.
  cbn [on_request]. destruct (finish responder [EvRequest w; EvCall w] (execute w)) as [tr' r'] eqn:F'. exists tr'. split.
  - pose proof (finish_result responder [EvRequest w; EvCall w'] (execute w')) as R. pose proof (finish_result responder [EvRequest w; EvCall w] (execute w)) as R'. rewrite F in R. rewrite F' in R'. cbn in R, R'. rewrite E in R. now rewrite R', R.
  - pose proof (finish_calls responder [EvRequest w; EvCall w] (execute w)) as X'. rewrite F' in X'. exact X'.
Qed.
Print Assumptions C76_identity_partial.

(** ** Cases *)
Definition shop : origin := {| o_scheme := "https"; o_user := ""; o_host := Some "shop"; o_port := Some "81"; o_path := "/items" |}.
Definition shop_parse (s : string) : option origin := if String.eqb s "https://shop:81/items" then Some shop else None.
Definition shop_req (q : option string) (hs : list (string * string)) (v : option string) : wreq :=
  {| w_method := "GET"; w_origin := shop; w_query := q; w_headers := hs; w_body := None; w_value := v |}.
Definition shop_ask (f : option (js_request -> js_out)) : wreq -> result (option command) string :=
  on_request shop_parse (fun s => s) (fun _ => true) (fun s => Some s) (fun _ => true) f.
Definition shop_run (f : option (js_request -> js_out)) (g : option (value -> result value string)) (fuel : nat) (w : wreq) :=
  execute_with_worker (shop_ask f) g (fun w => Ok {| p_status := 200; p_headers := []; p_body := VStr (o_path (w_origin w)) |}) (fun s => if String.eqb s "" then None else Some (VStr s)) (fun p => p) fuel w.

Example C76_example_applies : simple shop_parse (fun s => s) (fun _ => true) (fun s => Some s) (shop_req (Some "size=10%20cm&q=a%3Fb") [("x-b", "2"); ("accept", "json")] None).
Proof.
  split; cbn; auto; try (eexists; reflexivity).
  - intros h E. injection E as <-. cbn. repeat split; discriminate.
  - split; [repeat (constructor; [cbn; intros X; repeat (destruct X as [X|X]; [discriminate X|]); exact X|]); constructor|].
    intros k v [E|[E|[]]]; injection E as <- <-; cbn; repeat split; discriminate.
  - split; [repeat (constructor; [cbn; intros X; repeat (destruct X as [X|X]; [discriminate X|]); exact X|]); constructor|].
    intros k v [E|[E|[]]]; injection E as <- <-; (split; [reflexivity|now apply visible_printable]).
Qed.
Example C76_example_result : shop_ask (Some JRequest) (shop_req (Some "size=10%20cm&q=a%3Fb") [("x-b", "2"); ("accept", "json")] None) =
  Ok (Some (CRequest (shop_req (Some "q=a?b&size=10%20cm") [("accept", "json"); ("x-b", "2")] None))).
Proof. reflexivity. Qed.

Example C76_example_unusable : ~ printable ("caf" ++ String (ascii_of_nat 233) "")%string /\
  (forall j : js_request, unusable (fun _ => true) (fun s => Some s) (fun _ => true) (JRequest {| j_uri := j_uri j; j_method := j_method j; j_headers := [("x", String (ascii_of_nat 127) "")]; j_body := j_body j |})).
Proof.
  split.
  - intros P. specialize (P (ascii_of_nat 233) ltac:(cbn; auto)). destruct P as [P|[_ P]]; [discriminate P|]. now apply P.
  - intros j. eapply unusable_header; [now left|]. right. intros P. specialize (P (ascii_of_nat 127) ltac:(now left)). destruct P as [P|[_ P]]; [discriminate P|]. now apply P.
Qed.

(** ** What does not hold *)
(** A script that returns the request unchanged changes the parameters: a value with an ampersand
    is cut, what follows becomes a parameter of its own. *)
Theorem C76_parameters_refuted : exists w w', shop_ask (Some JRequest) w = Ok (Some (CRequest w')) /\
  pairs_of w = [("q", "me&admin=1")] /\ pairs_of w' = [("q", "me"); ("admin", "1")].
Proof. exists (shop_req (Some "q=me%26admin%3D1") [] None). eexists. split; [reflexivity|]. split; reflexivity. Qed.
Print Assumptions C76_parameters_refuted.
(** So do number signs, which end the query, and plus signs, which become spaces. *)
Theorem C76_signs_refuted : exists w w', shop_ask (Some JRequest) w = Ok (Some (CRequest w')) /\
  pairs_of w = [("a", "1+1"); ("b", "x#y"); ("c", "z")] /\ pairs_of w' = [("a", "1 1"); ("b", "x")].
Proof. exists (shop_req (Some "a=1%2B1&b=x%23y&c=z") [] None). eexists. split; [reflexivity|]. split; reflexivity. Qed.
Print Assumptions C76_signs_refuted.
(** Of a repeated parameter or header only the last is left. *)
Theorem C76_repeated_refuted : exists w w', shop_ask (Some JRequest) w = Ok (Some (CRequest w')) /\
  pairs_of w = [("id", "1"); ("id", "2")] /\ pairs_of w' = [("id", "2")] /\
  w_headers w = [("cookie", "a=1"); ("cookie", "b=2")] /\ w_headers w' = [("cookie", "b=2")].
Proof. exists (shop_req (Some "id=1&id=2") [("cookie", "a=1"); ("cookie", "b=2")] None). eexists. split; [reflexivity|]. repeat split; reflexivity. Qed.
Print Assumptions C76_repeated_refuted.
(** The value by which a request is batched is lost. *)
Theorem C76_batching_refuted : exists w w', shop_ask (Some JRequest) w = Ok (Some (CRequest w')) /\ w_value w = Some "7" /\ w_value w' = None.
Proof. exists (shop_req None [] (Some "7")). eexists. split; [reflexivity|]. split; reflexivity. Qed.
Print Assumptions C76_batching_refuted.
(** User and password of a URL are not shown to the script, so it cannot return them. *)
Theorem C76_user_refuted parse_base lossy valid_method header_name valid_status : exists w w',
  o_user (w_origin w) = "me:secret@" /\ o_user (w_origin w') = "" /\
  forall f, on_request parse_base lossy valid_method header_name valid_status (Some f) w = on_request parse_base lossy valid_method header_name valid_status (Some f) w'.
Proof.
  exists {| w_method := "GET"; w_origin := {| o_scheme := "http"; o_user := "me:secret@"; o_host := Some "shop"; o_port := None; o_path := "/" |}; w_query := None; w_headers := []; w_body := None; w_value := None |}.
  exists {| w_method := "GET"; w_origin := {| o_scheme := "http"; o_user := ""; o_host := Some "shop"; o_port := None; o_path := "/" |}; w_query := None; w_headers := []; w_body := None; w_value := None |}.
  split; [reflexivity|]. split; [reflexivity|]. intros f. reflexivity.
Qed.
Print Assumptions C76_user_refuted.

(** A script that fails is passed by: the call is made, with the request it should have changed. *)
Theorem C76_failure_refuted : exists w tr r, (forall fuel, shop_run (Some (fun _ => JThrows)) None (S fuel) w = Some (tr, r)) /\ calls tr = [w] /\ exists p, r = Ok p.
Proof. exists (shop_req None [] None). do 2 eexists. split; [intros fuel; reflexivity|]. split; [reflexivity|]. eexists. reflexivity. Qed.
Print Assumptions C76_failure_refuted.

(** A redirect shows the body to the other script twice. *)
Definition moved (j : js_request) : js_out :=
  if String.eqb (i_path (j_uri j)) "/items" then JResponse {| js_status := 302; js_headers := [("location", "/new")]; js_body := None |} else JThrows.
Definition excited (v : value) : result value string := match v with VStr s => Ok (VStr (s ++ "!")) | _ => Err "no text" end.
Theorem C76_rewritten_once_refuted : exists w tr p, (forall fuel, shop_run (Some moved) (Some excited) (2 + fuel) w = Some (tr, Ok p)) /\
  length (calls tr) = 1 /\ shown tr = [VStr "/new"; VStr "/new!"] /\ p_body p = VStr "/new!!".
Proof. exists (shop_req None [] None). do 2 eexists. split; [intros fuel; reflexivity|]. split; [reflexivity|]. split; reflexivity. Qed.
Print Assumptions C76_rewritten_once_refuted.

(** A script that goes on redirecting is asked for ever. *)
Theorem C76_ends_refuted : exists f w, forall fuel, shop_run (Some f) None fuel w = None.
Proof.
  exists (fun _ => JResponse {| js_status := 301; js_headers := [("location", "/login")]; js_body := None |}), (shop_req None [] None).
  assert (H : forall fuel w, w_headers w = [] -> shop_run (Some (fun _ => JResponse {| js_status := 301; js_headers := [("location", "/login")]; js_body := None |})) None fuel w = None).
  { induction fuel as [|fuel IH]; intros w E; [reflexivity|]. unfold shop_run in *. cbn [execute_with_worker]. unfold shop_ask, on_request at 1, request_to_js at 1. rewrite E. cbn [header_texts].
    change (response_from_js (fun s => Some s) (fun _ => true) {| js_status := 301; js_headers := [("location", "/login")]; js_body := None |}) with (Some (CResponse 301 [("location", "/login")] "")).
    cbn [Z.eqb orb]. change (aget "location" [("location", "/login")]) with (Some "/login"). cbn -[execute_with_worker]. rewrite IH; [reflexivity|exact E]. }
  intros fuel. now apply H.
Qed.
Print Assumptions C76_ends_refuted.

(** A response without a body, like that to a deletion, is an error. *)
Theorem C76_empty_response_refuted : exists w tr e, forall fuel,
  shop_run (Some (fun _ => JResponse {| js_status := 204; js_headers := []; js_body := None |})) None (S fuel) w = Some (tr, Err e).
Proof. exists (shop_req None [] None). do 2 eexists. intros fuel. reflexivity. Qed.
Print Assumptions C76_empty_response_refuted.
