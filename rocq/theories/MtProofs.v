(** Proofs about what telemetry tells (C98). *)
From Coq Require Import String Ascii NArith Bool List.
From Verif Require Import Base RespModel MtModel MtSpec.
Import ListNotations.
Open Scope string_scope.

Lemma header_aget : forall n l v, aget n l = Some v <-> header_is n l v.
Proof.
  intros n l v. induction l as [|[m w] l IH]; cbn [aget]; [split; [discriminate|inversion 1]|].
  destruct (String.eqb_spec n m) as [-> |N].
  - split; [intros [= ->]; constructor|]. inversion 1; subst; [reflexivity|contradiction].
  - rewrite IH. split; [intros H; apply header_later; [congruence|exact H]|]. inversion 1; subst; [contradiction|assumption].
Qed.
Lemma route_is : forall o m path,
  match route o m path with
  | RestApi => rest_path path
  | Graphql => m = "POST" /\ path = o_graphql o
  | Showcase => m = "POST" /\ path = "/showcase/graphql"
  | _ => True
  end.
Proof.
  intros o m path. unfold route. destruct (prefix "/api" path) eqn:A.
  { unfold rest_path. destruct path as [|a [|b [|c [|d s]]]]; try discriminate A; cbn [prefix] in A; repeat (match type of A with context [ascii_dec ?x ?y] => destruct (ascii_dec x y) as [<- |]; try discriminate A end). now exists s. }
  destruct (String.eqb_spec m "POST") as [-> |M]; cbn [andb].
  - destruct (String.eqb_spec path (o_graphql o)) as [-> |G]; [auto|]. destruct (o_showcase o); cbn [andb]; [destruct (String.eqb_spec path "/showcase/graphql") as [-> |S]; [auto|]|]; exact I.
  - destruct (String.eqb m "GET"); cbn [andb]; [|exact I]. destruct (String.eqb path (o_status o)); [exact I|]. destruct (o_metrics o) as [q|]; [destruct (String.eqb path q); exact I|exact I].
Qed.
Section Server.
  Variable debug : string -> string.
  Variable rest_of : request -> rest_case.
  Variable rest_answer graphql_answer metrics_answer : request -> result N string.
  Variable showcase_of : request -> result (option N) string.
  Variable showcase_answer : request -> result N string.
  Variable o : routes.
  Variable cors : bool.
  Notation handle := (handle_request debug rest_of rest_answer graphql_answer metrics_answer showcase_of showcase_answer o cors).
  Notation inner := (handle_request_inner rest_of rest_answer graphql_answer metrics_answer showcase_of showcase_answer o).
  (** The route that a request takes, as a function of the model *)
  Definition taken (r : request) : option string :=
    match snd (inner r (Some [])) with Some [(_, Text p)] => Some p | _ => None end.
  Lemma inner_counts : forall r c, inner r c = (fst (inner r None), match taken r with Some p => set_http_route c p | None => c end).
  Proof.
    intros r c. unfold taken, handle_request_inner, handle_rest_apis, graphql_request.
    destruct (route o _ _); try reflexivity; [destruct (rest_of r); reflexivity|].
    destruct (showcase_of r) as [[n|]|e]; reflexivity.
  Qed.
  Definition base (t : telemetry) (r : request) : attributes :=
    ("url.path", Text (q_path r)) :: ("http.request.method", Text (q_method r)) ::
      flat_map (fun name => match aget name (q_headers r) with
                            | Some v => [(("http.request.header." ++ name)%string, Text (debug v))]
                            | None => []
                            end) (t_headers t).
  Definition routed (x : option string) : attributes := match x with Some p => [("http.route", Text p)] | None => [] end.
  Definition status_told (x : result N string) : attributes := match x with Ok n => [("http.response.status_code", Number n)] | Err _ => [] end.
  Lemma handle_counts : forall t r, exists route,
    (snd (handle t r) = if t_export t then [base t r ++ routed route ++ status_told (fst (handle t r))] else [])%list /\
    (route = None \/ route = taken r).
  Proof.
    intros t r. unfold handle_request. set (pre := (_ && _)%bool).
    destruct pre.
    - exists None. split; [|now left]. unfold new_counter, update. destruct (t_export t); reflexivity.
    - exists (taken r). split; [|now right]. rewrite inner_counts. unfold new_counter. destruct (t_export t); cbn [negb fst snd].
      + destruct (taken r) as [p|]; cbn [set_http_route option_map update routed status_told fst snd]; destruct (fst (inner r None)); cbn [status_told List.app]; unfold base; rewrite <- ?app_assoc, ?app_nil_r; reflexivity.
      + destruct (taken r); reflexivity.
  Qed.
  Lemma base_tells : forall t r k v, In (k, v) (base t r) <->
    (k = "url.path" /\ v = Text (q_path r)) \/ (k = "http.request.method" /\ v = Text (q_method r)) \/
    exists n w, In n (t_headers t) /\ header_is n (q_headers r) w /\ k = "http.request.header." ++ n /\ v = Text (debug w).
  Proof.
    intros t r k v. unfold base. cbn [In]. split.
    - intros [[= <- <-]|[[= <- <-]|I]]; [auto|auto|]. right. right. apply in_flat_map in I as (n & I & H). destruct (aget n (q_headers r)) as [w|] eqn:A; [|destruct H].
      destruct H as [[= <- <-]|[]]. exists n, w. apply header_aget in A. auto.
    - intros [[-> ->]|[[-> ->]|(n & w & I & H & -> & ->)]]; [auto|auto|]. right. right. apply in_flat_map. exists n. split; [exact I|]. apply header_aget in H. rewrite H. now left.
  Qed.
  Lemma base_same : forall t r1 r2, same_but_secrets (t_headers t) r1 r2 -> base t r1 = base t r2.
  Proof.
    intros t r1 r2 (P & M & H). unfold base. rewrite P, M. do 2 f_equal. clear P M. induction (t_headers t) as [|n l IH]; [reflexivity|]. cbn [flat_map].
    rewrite IH by (intros m v I; apply H; now right). f_equal.
    assert (E : aget n (q_headers r1) = aget n (q_headers r2)).
    { destruct (aget n (q_headers r1)) as [v|] eqn:A.
      - apply header_aget in A. apply H in A; [|now left]. apply header_aget in A. now symmetry.
      - destruct (aget n (q_headers r2)) as [v|] eqn:B; [|reflexivity]. apply header_aget in B. apply H in B; [|now left]. apply header_aget in B. congruence. }
    now rewrite E.
  Qed.
End Server.
