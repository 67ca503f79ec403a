(** C100: tailcall on other hosts answers the requests that arrive there, with the configurations they name. *)
From Coq Require Import String Ascii NArith Arith Bool List Lia.
From Verif Require Import Base BaseFacts StringFacts JsonModel HoModel HoSpec HoProofs.
Import ListNotations.
Open Scope string_scope.
Open Scope list_scope.

(** On Lambda, a request has the method, the headers and the body of the event, and the path that the gateway gives. *)
Theorem C100_lambda_request_partial : forall uri_ok r h vs p,
  In (ev_method r) http_methods -> ev_host r = Some h -> values_of "proxy" (ev_params r) vs -> joined vs p ->
  forall u, u = ((match ev_scheme r with Some s => s | None => "http" end) ++ "://" ++ h ++ "/" ++ p)%string -> uri_ok u = true ->
  lambda_request uri_ok r = Good {| hr_method := ev_method r; hr_uri := u; hr_headers := ev_headers r; hr_body := ev_body r |}.
Proof.
  intros uri_ok r h vs p M H V J u E O. unfold lambda_request, lambda_url. apply known_ok in M. rewrite M, H.
  rewrite <- (values_fun _ _ _ V _ (values_ok _ _)). rewrite <- (joined_fun _ _ J _ (joined_ok _)). rewrite <- E, O. reflexivity.
Qed.
Print Assumptions C100_lambda_request_partial.

(** Whatever is given on is what arrived; without a host there is an error. *)
Theorem C100_lambda_given_on : forall uri_ok r x, lambda_request uri_ok r = Good x ->
  In (ev_method r) http_methods /\ ev_host r <> None /\ hr_method x = ev_method r /\ hr_headers x = ev_headers r /\ hr_body x = ev_body r.
Proof.
  intros uri_ok r x E. unfold lambda_request, lambda_url in E. destruct (smem (ev_method r) known_methods) eqn:M; [|discriminate].
  apply known_ok in M. destruct (ev_host r) as [h|]; [|discriminate]. destruct (uri_ok _); [|discriminate]. injection E as <-. simpl.
  repeat split; auto. discriminate.
Qed.
Print Assumptions C100_lambda_given_on.

(** Refuted: the query of the event, its port and its own path play no role on Lambda. *)
Theorem C100_lambda_query_refuted :
  (forall uri_ok r r', ev_method r = ev_method r' -> ev_scheme r = ev_scheme r' -> ev_host r = ev_host r' -> ev_params r = ev_params r' ->
     ev_headers r = ev_headers r' -> ev_body r = ev_body r' -> lambda_request uri_ok r = lambda_request uri_ok r') /\
  exists r q x, ev_query r = Some q /\ lambda_request (fun _ => true) r = Good x /\ ~ has_query (hr_uri x) q.
Proof.
  split.
  - intros uri_ok r r' A B C D E F. unfold lambda_request, lambda_url. rewrite A, B, C, D, E, F. reflexivity.
  - exists {| ev_method := "GET"; ev_scheme := Some "https"; ev_host := Some "h"; ev_port := None; ev_path := "/prod/api/users"; ev_query := Some "limit=1";
              ev_params := [("proxy", "api/users")]; ev_headers := []; ev_body := "" |}, "limit=1".
    eexists. split; [reflexivity|]. split; [reflexivity|]. intros (a & E). simpl in E.
    do 19 (destruct a as [|? a]; [discriminate E|simpl in E; injection E as _ E]). destruct a; discriminate E.
Qed.
Print Assumptions C100_lambda_query_refuted.

(** Refuted: an event with a method of its own makes the function panic. *)
Theorem C100_lambda_methods_refuted : (forall uri_ok r, ~ In (ev_method r) http_methods -> lambda_request uri_ok r = Panic) /\ ~ In "PROPFIND" http_methods.
Proof.
  split; [|intros H; simpl in H; intuition discriminate]. intros uri_ok r N. unfold lambda_request.
  destruct (smem (ev_method r) known_methods) eqn:M; [|reflexivity]. apply known_ok in M. destruct (N M).
Qed.
Print Assumptions C100_lambda_methods_refuted.

(** In a worker, the request is the one that arrived, with all of its URL; other methods are refused, and nothing panics. *)
Theorem C100_worker_request : forall uri_ok r,
  (In (ev_method r) http_methods -> forall u, u = ((match ev_scheme r with Some s => s | None => "http" end) ++ "://" ++ (match ev_host r with Some h => h | None => "" end) ++
      (match ev_port r with Some p => ":" ++ p | None => "" end) ++ ev_path r ++ (match ev_query r with Some q => "?" ++ q | None => "" end))%string -> uri_ok u = true ->
     worker_request uri_ok r = Good {| hr_method := ev_method r; hr_uri := u; hr_headers := ev_headers r; hr_body := ev_body r |}) /\
  (forall x, worker_request uri_ok r = Good x -> In (ev_method r) http_methods /\ hr_method x = ev_method r /\ hr_headers x = ev_headers r /\ hr_body x = ev_body r /\
     forall q, ev_query r = Some q -> has_query (hr_uri x) q) /\
  (~ In (ev_method r) http_methods -> worker_request uri_ok r = Bad ("Unsupported HTTP method: " ++ ev_method r)) /\
  worker_request uri_ok r <> Panic.
Proof.
  intros uri_ok r. unfold worker_request. pose proof (known_ok (ev_method r)) as KO. destruct (smem (ev_method r) known_methods).
  - pose proof (proj1 KO eq_refl) as M. split; [|split; [|split]].
    + intros _ u E O. replace (url_text r) with u by (rewrite E; reflexivity). rewrite O. reflexivity.
    + intros x E. destruct (uri_ok (url_text r)); [|discriminate]. injection E as <-. simpl. repeat split; auto.
      intros q Q. unfold has_query, url_text. rewrite Q.
      eexists ((match ev_scheme r with Some s => s | None => "http" end) ++ "://" ++ (match ev_host r with Some h => h | None => "" end) ++
        (match ev_port r with Some p => ":" ++ p | None => "" end) ++ ev_path r)%string. rewrite !str_app_assoc. reflexivity.
    + intro N. destruct (N M).
    + destruct (uri_ok _); discriminate.
  - split; [|split; [|split]].
    + intro M. apply KO in M. discriminate.
    + discriminate.
    + reflexivity.
    + discriminate.
Qed.
Print Assumptions C100_worker_request.

(** Answers are given back as they are; in a worker, if the values of the headers are UTF-8. *)
Theorem C100_responses : forall utf8 r,
  lambda_response r = r /\
  ((forall k v, In (k, v) (rs_headers r) -> utf8 v = true) -> worker_response utf8 r = Good r) /\
  (forall k v, In (k, v) (rs_headers r) -> utf8 v = false -> exists e, worker_response utf8 r = Bad e) /\
  (forall x, worker_response utf8 r = Good x -> x = r).
Proof.
  intros utf8 [s h b]. unfold lambda_response, worker_response. rewrite append_headers_ok. simpl. split; [|split; [|split]].
  - f_equal. rewrite <- (map_id h) at 2. apply map_ext. intros [k v]. reflexivity.
  - intro A. replace (forallb _ h) with true; [reflexivity|]. symmetry. apply forallb_forall. intros [k v] I. exact (A k v I).
  - intros k v I F. destruct (forallb _ h) eqn:A; [|eauto]. rewrite forallb_forall in A. specialize (A _ I). simpl in A. congruence.
  - intros x E. destruct (forallb _ h); [|discriminate]. injection E as <-. reflexivity.
Qed.
Print Assumptions C100_responses.

(** In every history of a worker, a request is answered with a configuration of the name it gives, as it was read for that request or for an earlier one. *)
Theorem C100_contexts_partial : forall (World Ctx : Type) params (make : World -> string -> created Ctx), keys_once params ->
  forall l i w q c, nth_error l i = Some (w, q) -> nth_error (serve params make None l) i = Some (Made c) ->
  exists f j w' q', names params q f /\ j <= i /\ nth_error l j = Some (w', q') /\ names params q' f /\ make w' f = Made c.
Proof.
  intros World Ctx params make K l i w q c Q A.
  destruct (serve_kept params make l [] None) with (i := i) (q := q) (c := c) as (f & w' & q' & P & I & P' & M); [|rewrite Q; reflexivity|exact A|].
  - intros f c' E. discriminate E.
  - rewrite app_nil_l in I. apply In_nth_error in I. destruct I as (j & J). exists f, j, w', q'.
    assert (j < S i) as L.
    { assert (j < List.length (firstn (S i) l)) as B by (apply nth_error_Some; rewrite J; discriminate). rewrite firstn_length in B. lia. }
    split; [apply path_names; assumption|]. split; [lia|]. split; [|split; [apply path_names; assumption|exact M]].
    rewrite <- J. clear - L. revert i j L. induction l as [|x l IH]; intros i j L; [rewrite firstn_nil; reflexivity|].
    destruct j as [|j]; [reflexivity|]. destruct i as [|i]; [lia|]. simpl. apply IH. lia.
Qed.
Print Assumptions C100_contexts_partial.

(** So it is when requests wait for each other: what is kept is given only to requests of the name it was created for, in every order of the steps. *)
Theorem C100_contexts_interleaved : forall (World Ctx : Type) params (make : World -> string -> created Ctx), keys_once params ->
  forall l i q c, nth_error l i = Some (Asks q) -> nth_error (steps params make None l) i = Some (Some (Made c)) ->
  exists f j w' q', names params q f /\ j < i /\ nth_error l j = Some (Creates w' q') /\ names params q' f /\ make w' f = Made c.
Proof.
  intros World Ctx params make K l i q c Q A.
  destruct (steps_kept params make l [] None) with (i := i) (q := q) (c := c) as (f & w' & q' & P & I & P' & M); [|exact Q|exact A|].
  - intros f c' E. discriminate E.
  - rewrite app_nil_l in I. unfold creations in I. apply in_flat_map in I. destruct I as (s & I & S).
    destruct s as [q0|w0 q0]; [destruct S|]. destruct S as [S|[]]. injection S as -> ->.
    apply In_nth_error in I. destruct I as (j & J). exists f, j, w', q'.
    assert (j < i) as L.
    { assert (j < List.length (firstn i l)) as B by (apply nth_error_Some; rewrite J; discriminate). rewrite firstn_length in B. lia. }
    split; [apply path_names; assumption|]. split; [exact L|]. split; [|split; [apply path_names; assumption|exact M]].
    rewrite <- J. clear - L. revert i j L. induction l as [|x l IH]; intros i j L; [rewrite firstn_nil; reflexivity|].
    destruct i as [|i]; [lia|]. destruct j as [|j]; [reflexivity|]. simpl. apply IH. lia.
Qed.
Print Assumptions C100_contexts_interleaved.

(** A request for the same name right after gets the same configuration, and one that is the first for its name gets what is read for it. *)
Theorem C100_asked_again : forall (World Ctx : Type) params (make : World -> string -> created Ctx), keys_once params ->
  forall l w q w' q' f c, names params q f -> names params q' f ->
  (nth_error (serve params make None (l ++ [(w, q)])) (List.length l) = Some (Made c) ->
   nth_error (serve params make None (l ++ [(w, q); (w', q')])) (S (List.length l)) = Some (Made c)) /\
  ((forall v p, In (v, p) l -> ~ names params p f) -> nth_error (serve params make None (l ++ [(w, q)])) (List.length l) = Some (make w f)).
Proof.
  intros World Ctx params make K l w q w' q' f c N N'.
  apply (path_names params K) in N. apply (path_names params K) in N'.
  pose proof (serve_length params make l None) as Ln. rewrite !serve_app. rewrite !nth_error_app2 by lia. rewrite Ln, Nat.sub_diag.
  replace (S (List.length l) - List.length l) with 1 by lia. simpl. split.
  - intro A. injection A as A. rewrite (get_again params make _ w q c f A N). unfold get_app_ctx, look. rewrite N', String.eqb_refl. reflexivity.
  - intro H. f_equal. unfold get_app_ctx. destruct (look params (final params make None l) q) as [c'|] eqn:L.
    + exfalso. destruct (look_kept params make l _ _ _ (final_kept params make l [] None ltac:(intros ? ? E; discriminate E)) L) as (g & v & p & P & I & P' & _).
      rewrite N in P. injection P as <-. apply (H v p I). apply path_names; assumption.
    + simpl. unfold create. rewrite N. reflexivity.
Qed.
Print Assumptions C100_asked_again.

(** Failures are not kept: the other requests of a history are answered as if a request that failed had not been made. *)
Theorem C100_failures_are_forgotten : forall (World Ctx : Type) params (make : World -> string -> created Ctx) l w q k a,
  nth_error (serve params make None (l ++ (w, q) :: k)) (List.length l) = Some a -> (forall c, a <> Made c) ->
  exists old new, List.length old = List.length l /\ serve params make None (l ++ (w, q) :: k) = old ++ a :: new /\ serve params make None (l ++ k) = old ++ new.
Proof.
  intros World Ctx params make l w q k a A N. pose proof (serve_length params make l None) as Ln. rewrite !serve_app in *.
  rewrite nth_error_app2 in A by lia. rewrite Ln, Nat.sub_diag in A. simpl in A. injection A as A.
  exists (serve params make None l), (serve params make (final params make None l) k). split; [exact Ln|]. split; [|reflexivity].
  simpl. rewrite get_same; [|intros c E; apply (N c); congruence]. rewrite A. reflexivity.
Qed.
Print Assumptions C100_failures_are_forgotten.

(** Requests that name no configuration get none, whatever is kept. *)
Theorem C100_nothing_named : forall (World Ctx : Type) params (make : World -> string -> created Ctx),
  forall l i w q, nth_error l i = Some (w, q) -> names_nothing params q ->
  nth_error (serve params make None l) i = Some (Refusal "No Config URL specified").
Proof.
  intros World Ctx params make l i w q E N. apply path_nothing in N. generalize (@None (string * Ctx)) as st. revert i E.
  induction l as [|[v p] l IH]; intros i E st; [destruct i; discriminate|]. destruct i as [|i]; simpl in *.
  - injection E as -> ->. unfold get_app_ctx, look, create. rewrite N. reflexivity.
  - apply IH. exact E.
Qed.
Print Assumptions C100_nothing_named.

(** Refuted: changes of a configuration are not seen as long as the worker lives and no other configuration is asked for. *)
Theorem C100_stale_refuted : exists (params : string -> option (list (string * string))) (make : nat -> string -> created nat) q f,
  keys_once params /\ names params q f /\ make 2 f = Made 2 /\ serve params make None [(1, q); (2, q)] = [Made 1; Made 1].
Proof.
  exists (fun q => Some [("config", q)]), (fun w _ => Made w), (Some "c.graphql"), "c.graphql". split; [|split; [|split; reflexivity]].
  - intros q l [= <-]. simpl. constructor; [intros []|constructor].
  - exists "c.graphql", [("config", "c.graphql")]. split; [reflexivity|]. split; [reflexivity|]. split; [left; reflexivity|].
    intros g [[= <-]|[]]. reflexivity.
Qed.
Print Assumptions C100_stale_refuted.

(** The texts that workers keep of values without fields and enums are JSON for them, if numbers and strings are written alike. *)
Theorem C100_kept_texts_partial : forall number_text quoted v, plain v -> json_text number_text quoted (display number_text quoted v) v.
Proof. intros number_text quoted v P. apply (display_text number_text quoted (S (vsize v))); [lia|exact P]. Qed.
Print Assumptions C100_kept_texts_partial.

(** A field whose value is not kept has the value of its resolver, and a value that is kept and read is given without asking; what is kept for other fields stays. *)
Theorem C100_kept_values : forall number_text quoted from_json k max_age now io s,
  (kv_get k now s = None -> fst (eval_cached number_text quoted from_json k max_age now io s) = io) /\
  (forall v t io', io = Good v -> kv_get k now s = None -> from_json (display number_text quoted v) = Some v ->
     (now <= t < now + 1000 * max_age)%N ->
     fst (eval_cached number_text quoted from_json k max_age t io' (snd (eval_cached number_text quoted from_json k max_age now io s))) = Good v) /\
  (forall v t io', io = Good v -> kv_get k now s = None -> (now + 1000 * max_age <= t)%N ->
     fst (eval_cached number_text quoted from_json k max_age t io' (snd (eval_cached number_text quoted from_json k max_age now io s))) = io') /\
  (forall k' max_age' t io', k' <> k ->
     fst (eval_cached number_text quoted from_json k' max_age' t io' (snd (eval_cached number_text quoted from_json k max_age now io s)))
     = fst (eval_cached number_text quoted from_json k' max_age' t io' s)).
Proof.
  intros number_text quoted from_json k max_age now io s. unfold eval_cached at 1. split; [|split; [|split]].
  - intros ->. destruct io; reflexivity.
  - intros v t io' -> G R B. unfold eval_cached. rewrite G. simpl. unfold kv_get, kv_put. cbn [aget]. rewrite String.eqb_refl.
    replace (t <? now + 1000 * max_age)%N with true by (symmetry; apply N.ltb_lt; lia). rewrite R. reflexivity.
  - intros v t io' -> G B. unfold eval_cached. rewrite G. simpl. unfold kv_get, kv_put. cbn [aget]. rewrite String.eqb_refl.
    replace (t <? now + 1000 * max_age)%N with false by (symmetry; apply N.ltb_ge; lia). destruct io'; reflexivity.
  - intros k' max_age' t io' N.
    assert (E : kv_get k' t (snd (eval_cached number_text quoted from_json k max_age now io s)) = kv_get k' t s).
    { unfold eval_cached. destruct (kv_get k now s) as [x|]; [destruct (from_json x); reflexivity|].
      destruct io as [v|e|]; [|reflexivity|reflexivity]. cbn [snd]. unfold kv_get, kv_put. cbn [aget].
      destruct (String.eqb_spec k' k) as [H|_]; [destruct (N H)|]. reflexivity. }
    unfold eval_cached at 1 3. rewrite E. destruct (kv_get k' t s) as [x|]; [destruct (from_json x); reflexivity|].
    destruct io' as [v|e|]; reflexivity.
Qed.
Print Assumptions C100_kept_values.

(** Refuted: objects and lists of objects that are kept can never be read, so that their fields fail as long as they are kept. *)
Theorem C100_kept_objects_refuted : forall number_text quoted from_json,
  (forall t v, from_json t = Some v -> json_start t) ->
  forall k max_age now s v, objects_first v -> kv_get k now s = None ->
  forall t io', (now <= t < now + 1000 * max_age)%N ->
  exists e, fst (eval_cached number_text quoted from_json k max_age t io' (snd (eval_cached number_text quoted from_json k max_age now (Good v) s))) = Bad e.
Proof.
  intros number_text quoted from_json R k max_age now s v O G t io' B. unfold eval_cached. rewrite G. simpl. unfold kv_get, kv_put. cbn [aget].
  rewrite String.eqb_refl. replace (t <? now + 1000 * max_age)%N with true by (symmetry; apply N.ltb_lt; lia).
  destruct (from_json (display number_text quoted v)) as [v'|] eqn:F; [|simpl; eauto].
  exfalso. apply (display_start number_text quoted v O ""). rewrite str_app_nil_r. exact (R _ _ F).
Qed.
Print Assumptions C100_kept_objects_refuted.
Example C100_kept_objects_example : exists from_json, (forall t v, from_json t = Some v -> json_start t) /\ from_json "true" = Some (VBool true) /\
  objects_first (VList [VObj [("id", VBool true)]]) /\
  fst (eval_cached (fun _ => "1") (fun s => s) from_json "7" 60000 10 (Good VNull)
        (snd (eval_cached (fun _ => "1") (fun s => s) from_json "7" 60000 0 (Good (VList [VObj [("id", VBool true)]])) []))) = Bad "kv".
Proof.
  exists (fun t => if String.eqb t "true" then Some (VBool true) else None). split; [|split; [reflexivity|split; [|vm_compute; reflexivity]]].
  - intros t v E. destruct (String.eqb_spec t "true") as [->|]; [|discriminate]. constructor; discriminate.
  - constructor. constructor. unfold name_start. right. left. vm_compute. split; discriminate.
Qed.

(** Refuted: a value that [maxAge] lets live for a second, 1000 milliseconds, is given after more than a quarter of an hour. *)
Theorem C100_kept_too_long_refuted : exists from_json v io',
  from_json (display (fun _ => "1") (fun s => s) v) = Some v /\ io' <> Good v /\
  fst (eval_cached (fun _ => "1") (fun s => s) from_json "7" 1000 900000 io'
        (snd (eval_cached (fun _ => "1") (fun s => s) from_json "7" 1000 0 (Good v) []))) = Good v.
Proof.
  exists (fun t => if String.eqb t "true" then Some (VBool true) else None), (VBool true), (Good (VBool false)).
  split; [reflexivity|]. split; [discriminate|]. vm_compute. reflexivity.
Qed.
Print Assumptions C100_kept_too_long_refuted.

(** Usage is tracked unless the variable that decides says "false"; without variables, only by releases. *)
Theorem C100_tracking : forall is_dev env,
  (forall v, decides env v -> (can_track is_dev env = false <-> in_any_case "false" v)) /\
  (env "TAILCALL_TRACKER" = None -> env "TC_TRACKER" = None -> can_track is_dev env = negb is_dev).
Proof.
  intros is_dev env. split.
  - intros v D. assert (can_track is_dev env = negb (eq_ignore_case v "false")) as E.
    { unfold can_track. destruct D as [v A|v A B]; rewrite A; [|rewrite B]; reflexivity. }
    rewrite E, negb_false_iff. apply ignore_case_ok. simpl. repeat split; vm_compute; discriminate.
  - intros A B. unfold can_track. rewrite A, B. reflexivity.
Qed.
Print Assumptions C100_tracking.

(** Refuted: other words for no turn tracking on, also in builds that do not track by themselves, and so does an empty variable before one that says no. *)
Theorem C100_tracking_refuted : forall v, In v ["0"; "no"; "off"; ""] ->
  can_track true (fun k => if String.eqb k "TC_TRACKER" then Some v else None) = true /\
  can_track true (fun k => if String.eqb k "TC_TRACKER" then Some "false" else if String.eqb k "TAILCALL_TRACKER" then Some "" else None) = true.
Proof. intros v I. simpl in I. split; [|reflexivity]. destruct I as [<-|[<-|[<-|[<-|[]]]]]; reflexivity. Qed.
Print Assumptions C100_tracking_refuted.

(** The premises are met. *)
Example C100_example :
  let r := {| ev_method := "POST"; ev_scheme := Some "https"; ev_host := Some "h"; ev_port := Some "8"; ev_path := "/graphql"; ev_query := Some "config=c"; ev_params := [("x", "1"); ("proxy", "api"); ("proxy", "graphql")];
              ev_headers := [("a", "b"); ("a", "c")]; ev_body := "q" |} in
  values_of "proxy" (ev_params r) ["api"; "graphql"] /\ joined ["api"; "graphql"] "api/graphql" /\
  lambda_request (fun _ => true) r = Good {| hr_method := "POST"; hr_uri := "https://h/api/graphql"; hr_headers := [("a", "b"); ("a", "c")]; hr_body := "q" |} /\
  worker_request (fun _ => true) r = Good {| hr_method := "POST"; hr_uri := "https://h:8/graphql?config=c"; hr_headers := [("a", "b"); ("a", "c")]; hr_body := "q" |} /\
  in_any_case "false" "FaLse".
Proof.
  split; [|split; [|split; [reflexivity|split; [reflexivity|]]]].
  - apply values_other; [discriminate|]. constructor. constructor. constructor.
  - change "api/graphql" with ("api" ++ "/" ++ "graphql")%string. constructor. constructor.
  - apply ignore_case_ok; [simpl; repeat split; vm_compute; discriminate|reflexivity].
Qed.
Example C100_contexts_example :
  let params := fun q => if String.eqb q "" then None else Some [("config", q)] in
  let make := fun (w : nat) f => if String.eqb f "bad" then Failed else Made (w, f) in
  keys_once params /\
  serve params make None [(1, Some "a"); (2, Some "a"); (3, Some "bad"); (4, Some "a"); (5, Some "b"); (6, None); (7, Some "a")] =
    [Made (1, "a"); Made (1, "a"); Failed; Made (1, "a"); Made (5, "b"); Refusal "No Config URL specified"; Made (7, "a")] /\
  steps params make None [Asks (Some "a"); Asks (Some "b"); Creates 1 (Some "b"); Creates 2 (Some "a"); Asks (Some "b"); Asks (Some "a")] =
    [None; None; Some (Made (1, "b")); Some (Made (2, "a")); None; Some (Made (2, "a"))].
Proof.
  split; [|split; reflexivity]. intros q l E. destruct (String.eqb q ""); [discriminate|]. injection E as <-. simpl. constructor; [intros []|constructor].
Qed.
