(** C71: the field generated from a sample request makes that request again. *)
From Coq Require Import String Ascii ZArith NArith Bool Lia List.
From Verif Require Import Base Ordered JsonModel TypeModel ConfigModel MustacheModel UrlModel GenModel OpGenModel.
From Verif Require Import MustacheSpec GenSpec OpGenSpec GenProofs OpGenProofs.
Import ListNotations.
Open Scope list_scope.
Open Scope string_scope.

(** ** The path *)
(** The path of the sample falls into fixed texts and arguments: numbers that are not part of a
    longer word, and UUIDs.  The address has the fixed texts, percent-decoded, and an expression for
    each argument, all with different names; the argument is declared, cannot be null, and
    is an [Int] for a number and a [String] for a UUID. *)
Theorem C71_path : forall is_f64 is_utf8 camel u h args r,
  generate_http_directive is_f64 is_utf8 camel u = Some (h, args) -> su_path u = String "/" r ->
  exists pieces base texts,
    joined (map piece_text pieces) = su_path u /\ well_cut pieces /\ decoded (su_base u) base /\
    Forall2 piece_written pieces texts /\ gh_url h = base ++ joined texts /\
    forall k ty t, In (Hole k ty t) pieces -> (forall q, In q (map fst (su_query u)) -> camel q <> k) ->
      exists a, aget k args = Some a /\ arg_type a = TNamed ty true.
Proof.
  intros f8 u8 camel u h args r D E. destruct (path_types f8 u8 camel u h args r D E) as (l & b & t & A & B & C & W & U & G).
  exists l, b, t. split; [exact A|]. split; [exact B|]. split; [exact C|]. split; [exact W|]. split; [exact U|]. intros k ty x I N. exists (arg_of (TNamed ty true)). split; [eapply G; eauto|reflexivity].
Qed.
Print Assumptions C71_path.

(** ** The query *)
(** Each key of the query is sent once, in the order of the sample, with the value of the
    argument of that name in camel case.  The argument can be null, has the type guessed from
    the first value, and takes a list if the key was given again or the value has a comma. *)
Theorem C71_query : forall is_f64 is_utf8 camel u h args r,
  generate_http_directive is_f64 is_utf8 camel u = Some (h, args) -> su_path u = String "/" r ->
  gh_query h = map (fun k => (k, "{{.args." ++ camel k ++ "}}")) (first_seen (map fst (su_query u))) /\
  forall k v, first_value k (su_query u) v ->
    (forall q, In q (map fst (su_query u)) -> camel q = camel k -> q = k) -> (forall t, camel k <> "GEN__" ++ t) ->
    exists a w ty, aget (camel k) args = Some a /\ trimmed v w /\ guessed is_f64 w ty /\
      (repeated k (su_query u) \/ contains "," v -> arg_type a = TList (TNamed ty false) false) /\
      (~ (repeated k (su_query u) \/ contains "," v) -> arg_type a = TNamed ty false).
Proof.
  intros f8 u8 camel u h args r D E. destruct (query_types f8 u8 camel u h args r D E) as (A & B). split; [exact A|].
  intros k v F I N. destruct (B k v F I N) as (b & G & R). destruct (detect_ok f8 v) as (w & T & Gs).
  eexists _, w, _. split; [exact G|]. split; [exact T|]. split; [exact Gs|]. rewrite <- R. destruct b; split; intros H; cbn; congruence.
Qed.
Print Assumptions C71_query.

(** What is guessed is a matter of the text alone. *)
Theorem C71_guess_is_unique : forall is_f64 v t t', guessed is_f64 v t -> guessed is_f64 v t' -> t = t'.
Proof. exact guessed_unique. Qed.
Print Assumptions C71_guess_is_unique.

(** ** The sample's request comes back *)
(** For suitable values of the arguments, the address rendered from the directive is the decoded
    address of the sample, and the query rendered is the query of the sample. *)
Theorem C71_request_comes_back_partial : forall is_f64 is_utf8 camel u h args r base path,
  generate_http_directive is_f64 is_utf8 camel u = Some (h, args) -> su_path u = String "/" r ->
  decoded (su_base u) base -> decoded (su_path u) path ->
  ~ contains "{" (base ++ path) -> ~ contains """" (base ++ path) ->
  NoDup (map fst (su_query u)) ->
  (forall k, In k (map fst (su_query u)) -> name (camel k) /\ forall t, camel k <> "GEN__" ++ t) ->
  (forall k k', In k (map fst (su_query u)) -> In k' (map fst (su_query u)) -> camel k = camel k' -> k = k') ->
  exists vals, (forall k, In k (map fst vals) -> aget k args <> None) /\
    render (values vals) (parse (gh_url h)) = base ++ path /\
    map (fun kv => (fst kv, render (values vals) (parse (snd kv)))) (gh_query h) = su_query u.
Proof. exact comes_back. Qed.
Print Assumptions C71_request_comes_back_partial.

(** ** The field *)
(** The root type gets the field of the sample, with the directive; its other fields and the
    types that were there stay.  Samples of the right shape fit the type of the field and, for
    mutations, the argument for the body. *)
Theorem C71_field_is_added : forall is_f64 is_utf8 camel http_text prefix s st h st',
  generate_sample is_f64 is_utf8 camel http_text prefix s st = Some (h, st') ->
  (forall k, (gs_next st <= k)%Z -> oget scmp (numbered prefix k) (gs_types st) = None) ->
  (forall n, plain_scalar n -> oget scmp n (gs_types st) = None) ->
  forall root, root = (if sa_mutation s then "Mutation" else "Query") -> (forall k, numbered prefix k <> root) ->
  exists g f h0 args, generate_http_directive is_f64 is_utf8 camel (sa_url s) = Some (h0, args) /\
    oget scmp root (gs_types st') = Some g /\ oget scmp (sa_field s) (t_fields g) = Some f /\
    f_resolvers f = [RHttp [] (http_text h)] /\
    (regular (sa_answer s) -> describes (gs_types st') (f_type f) (sa_answer s)) /\
    gh_url h = gh_url h0 /\ gh_query h = gh_query h0 /\
    (forall k, k <> "GEN__Input1" \/ sa_mutation s = false -> aget k (f_args f) = aget k args) /\
    (if sa_mutation s
     then gh_method h = sa_method s /\ gh_body h = Some "{{.args.GEN__Input1}}" /\
       exists a, aget "GEN__Input1" (f_args f) = Some a /\
         (regular (sa_body s) -> (forall l, sa_body s <> VList l) -> describes (gs_types st') (arg_type a) (sa_body s))
     else gh_method h = "GET" /\ gh_body h = None) /\
    (forall n, n <> sa_field s -> oget scmp n (t_fields g) =
       match oget scmp root (gs_types st) with Some g0 => oget scmp n (t_fields g0) | None => None end) /\
    (gs_next st <= gs_next st')%Z /\
    (forall n, n <> root -> (forall k, (gs_next st <= k < gs_next st')%Z -> n <> numbered prefix k) ->
       oget scmp n (gs_types st') = oget scmp n (gs_types st)).
Proof. exact field_added. Qed.
Print Assumptions C71_field_is_added.

(** ** A case *)
Definition no_f64 (s : string) : bool := false.
Definition any_utf8 (s : string) : bool := true.
(** Camel case, for the keys used here. *)
Definition camel71 (k : string) : string :=
  if String.eqb k "user_id" then "userId" else if String.eqb k "filter[name]" then "filter[name]" else k.
Definition http71 (h : gen_http) : string := gh_method h ++ " " ++ gh_url h.
Definition dir71 (u : sample_url) := generate_http_directive no_f64 any_utf8 camel71 u.
Definition url71 : sample_url :=
  {| su_base := "http://api"; su_path := "/users/12/12a/123e4567-e89b-12d3-a456-426614174000/a%20b";
     su_query := [("user_id", "7"); ("tags", "a, b"); ("q", " true ")] |}.
Definition args71 : list (string * arg) :=
  [("GEN__1", arg_of (TNamed "Int" true)); ("GEN__2", arg_of (TNamed "String" true)); ("userId", arg_of (TNamed "Int" false));
   ("tags", arg_of (TList (TNamed "String" false) false)); ("q", arg_of (TNamed "Boolean" false))].
Example C71_directive_example : dir71 url71 =
  Some ({| gh_url := "http://api/users/{{.args.GEN__1}}/12a/{{.args.GEN__2}}/a b"; gh_method := "GET";
           gh_query := [("user_id", "{{.args.userId}}"); ("tags", "{{.args.tags}}"); ("q", "{{.args.q}}")]; gh_body := None |}, args71).
Proof. vm_compute. reflexivity. Qed.

(** All that [C71_request_comes_back_partial] asks for. *)
Example C71_comes_back_example : exists h args r base path,
  dir71 url71 = Some (h, args) /\ su_path url71 = String "/" r /\ decoded (su_base url71) base /\ decoded (su_path url71) path /\
  ~ contains "{" (base ++ path) /\ ~ contains """" (base ++ path) /\ NoDup (map fst (su_query url71)) /\
  (forall k, In k (map fst (su_query url71)) -> name (camel71 k) /\ forall t, camel71 k <> "GEN__" ++ t) /\
  (forall k k', In k (map fst (su_query url71)) -> In k' (map fst (su_query url71)) -> camel71 k = camel71 k' -> k = k') /\
  base ++ path = "http://api/users/12/12a/123e4567-e89b-12d3-a456-426614174000/a b".
Proof.
  eexists _, _, _, (percent_decode (su_base url71)), (percent_decode (su_path url71)). split; [exact C71_directive_example|]. split; [reflexivity|].
  split; [apply decode_decoded|]. split; [apply decode_decoded|].
  assert (L : forall c s, (fix has (s : string) := match s with "" => false | String d t => Ascii.eqb d c || has t end) s = false -> ~ contains c s).
  { intros c s H (a & b & ->). induction a as [|d a IH]; cbn in H; [rewrite Ascii.eqb_refl in H; discriminate|].
    apply orb_false_iff in H. destruct H as [_ H]. now apply IH. }
  split; [apply L; reflexivity|]. split; [apply L; reflexivity|]. split.
  { repeat (apply NoDup_cons; [cbn; intuition discriminate|]). apply NoDup_nil. }
  split.
  { intros k [<-|[<-|[<-|[]]]]; (split; [cbn; apply Name; [reflexivity|]; repeat (apply WC_cons; [reflexivity|]); apply WC_nil|intros t; cbn; discriminate]). }
  split; [|reflexivity].
  intros k k' [<-|[<-|[<-|[]]]] [<-|[<-|[<-|[]]]]; cbn; congruence.
Qed.

Definition sample71 : sample :=
  {| sa_url := url71; sa_method := "PUT"; sa_body := VObj [("name", VStr "x")];
     sa_answer := VList [VObj [("id", VNum (NInt 1))]]; sa_field := "putUser"; sa_mutation := true |}.
Definition st71 : gstate := {| gs_next := 1; gs_types := [("Mutation", with_fields [("other", field_of (TNamed "Int" false))])] |}.
Example C71_field_example : exists h st', generate_sample no_f64 any_utf8 camel71 http71 "GEN__" sample71 st71 = Some (h, st') /\
  (forall k, (gs_next st71 <= k)%Z -> oget scmp (numbered "GEN__" k) (gs_types st71) = None) /\
  (forall n, plain_scalar n -> oget scmp n (gs_types st71) = None) /\ (forall k, numbered "GEN__" k <> "Mutation") /\
  map fst (gs_types st') = ["GEN__1"; "GEN__2"; "Mutation"] /\ gh_method h = "PUT" /\ regular (sa_answer sample71).
Proof.
  eexists _, _. split; [vm_compute; reflexivity|]. split; [intros k _; reflexivity|]. split.
  { intros n [<-|[<-|[<-|[<-|[]]]]]; reflexivity. }
  split; [intros k; discriminate|]. split; [reflexivity|]. split; [reflexivity|].
  apply regular_objects with [("id", KInt)]. intros v [<-|[]]. right. eexists. split; [reflexivity|].
  intros k w [H|[]]. injection H as <- <-. eexists. split; [reflexivity|]. apply shaped_int. lia.
Qed.

(** ** What is not so *)
Definition at71 (p : string) (q : list (string * string)) : sample_url := {| su_base := "http://api"; su_path := p; su_query := q |}.
Definition url_of (o : option (gen_http * list (string * arg))) : option string := option_map (fun x => gh_url (fst x)) o.
Definition type_in (o : option (gen_http * list (string * arg))) (k : string) : option typ :=
  match o with Some (_, args) => option_map arg_type (aget k args) | None => None end.

(** The value a number has in the sample is not always one of [Int]: 32 bits are not enough for
    some, and others begin with zeros. *)
Theorem C71_numbers_are_ints_refuted : exists u k, type_in (dir71 u) k = Some (TNamed "Int" true) /\
  url_of (dir71 u) = Some "http://api/orders/{{.args.GEN__1}}" /\ su_path u = "/orders/20240101123456" /\ k = "GEN__1" /\
  ~ int32 "20240101123456".
Proof.
  exists (at71 "/orders/20240101123456" []), "GEN__1". split; [vm_compute; reflexivity|]. split; [vm_compute; reflexivity|]. split; [reflexivity|]. split; [reflexivity|].
  intros H. apply int_iff in H. vm_compute in H. discriminate.
Qed.
Print Assumptions C71_numbers_are_ints_refuted.

(** A UUID whose first group has only digits is taken apart: the group is an [Int]. *)
Theorem C71_uuids_stay_whole_refuted : exists u t, su_path u = "/items/" ++ t /\ uuid t /\
  url_of (dir71 u) = Some "http://api/items/{{.args.GEN__1}}-e89b-12d3-a456-426614174000".
Proof.
  exists (at71 "/items/12345678-e89b-12d3-a456-426614174000" []), "12345678-e89b-12d3-a456-426614174000". split; [reflexivity|]. split; [|vm_compute; reflexivity].
  exists "12345678", "e89b", "12d3", "a456", "426614174000". split; [reflexivity|]. split; [repeat split|].
  repeat split; repeat (apply all_cons; [unfold lower_hex, digit; cbn; lia|]); apply all_nil.
Qed.
Print Assumptions C71_uuids_stay_whole_refuted.

(** An encoded slash becomes a slash, that is, two segments instead of one. *)
Theorem C71_segments_stay_refuted : exists u, su_path u = "/files/a%2Fb" /\ url_of (dir71 u) = Some "http://api/files/a/b".
Proof. exists (at71 "/files/a%2Fb" []). split; vm_compute; reflexivity. Qed.
Print Assumptions C71_segments_stay_refuted.

(** Encoded braces of the sample become an expression of the configuration, so the request
    does not come back whatever the arguments are. *)
Theorem C71_braces_are_text_refuted : exists u h args, su_path u = "/a/%7B%7Benv.KEY%7D%7D" /\ dir71 u = Some (h, args) /\
  parse (gh_url h) = [Literal "http://api/a/"; Expression ["env"; "KEY"]] /\
  forall vals, render (values vals) (parse (gh_url h)) = "http://api/a/".
Proof.
  exists (at71 "/a/%7B%7Benv.KEY%7D%7D" []). eexists _, _. split; [reflexivity|]. split; [vm_compute; reflexivity|]. split; [vm_compute; reflexivity|].
  intros vals. cbn [gh_url fst]. change (parse "http://api/a/{{env.KEY}}") with [Literal "http://api/a/"; Expression ["env"; "KEY"]]. reflexivity.
Qed.
Print Assumptions C71_braces_are_text_refuted.

(** A path whose decoded bytes are not UTF-8 ends the program. *)
Theorem C71_directive_is_made_refuted : exists is_utf8 u, is_utf8 (String "255" "") = false /\ su_path u = "/%FF" /\
  generate_http_directive no_f64 is_utf8 camel71 u = None.
Proof.
  exists (fun s => negb ((fix has (s : string) := match s with "" => false | String d t => Ascii.eqb d "255" || has t end) s)), (at71 "/%FF" []).
  split; [reflexivity|]. split; [reflexivity|]. vm_compute. reflexivity.
Qed.
Print Assumptions C71_directive_is_made_refuted.

(** Two keys with the same camel case share one argument, of the type of the last. *)
Theorem C71_keys_keep_apart_refuted : exists u h args, su_query u = [("user_id", "7"); ("userId", "x")] /\ dir71 u = Some (h, args) /\
  gh_query h = [("user_id", "{{.args.userId}}"); ("userId", "{{.args.userId}}")] /\ map fst args = ["userId"] /\
  forall vals, map (fun kv => (fst kv, render (values vals) (parse (snd kv)))) (gh_query h) <> su_query u.
Proof.
  exists (at71 "/" [("user_id", "7"); ("userId", "x")]). eexists _, _. split; [reflexivity|]. split; [vm_compute; reflexivity|].
  split; [vm_compute; reflexivity|]. split; [reflexivity|]. intros vals. cbn [gh_query map fst snd su_query at71].
  change (parse "{{.args.userId}}") with [Expression ["args"; "userId"]]. intros H. injection H as A B. congruence.
Qed.
Print Assumptions C71_keys_keep_apart_refuted.

(** A key that is no name is sent with the text of the expression as its value. *)
Theorem C71_keys_are_sent_refuted : exists u h args, su_query u = [("filter[name]", "x")] /\ dir71 u = Some (h, args) /\
  forall vals, map (fun kv => (fst kv, render (values vals) (parse (snd kv)))) (gh_query h) = [("filter[name]", "{{.args.filter[name]}}")].
Proof.
  exists (at71 "/" [("filter[name]", "x")]). eexists _, _. split; [reflexivity|]. split; [vm_compute; reflexivity|].
  intros vals. cbn [gh_query map fst snd]. change (parse "{{.args.filter[name]}}") with [Literal "{{.args.filter[name]}}"]. reflexivity.
Qed.
Print Assumptions C71_keys_are_sent_refuted.

(** A sample that is sent with POST but is no mutation loses its method and its body. *)
Theorem C71_method_is_kept_refuted : exists s h st', sa_method s = "POST" /\ sa_body s = VObj [("q", VStr "x")] /\
  generate_sample no_f64 any_utf8 camel71 http71 "GEN__" s {| gs_next := 1; gs_types := [] |} = Some (h, st') /\
  gh_method h = "GET" /\ gh_body h = None.
Proof.
  exists {| sa_url := at71 "/search" []; sa_method := "POST"; sa_body := VObj [("q", VStr "x")]; sa_answer := VNum (NInt 1); sa_field := "search"; sa_mutation := false |}.
  eexists _, _. split; [reflexivity|]. split; [reflexivity|]. split; [vm_compute; reflexivity|]. split; reflexivity.
Qed.
Print Assumptions C71_method_is_kept_refuted.

(** A body that is a list does not fit the argument for the body. *)
Theorem C71_list_bodies_fit_refuted : exists s h st', sa_mutation s = true /\ sa_body s = VList [VStr "x"] /\ regular (sa_body s) /\
  generate_sample no_f64 any_utf8 camel71 http71 "GEN__" s {| gs_next := 1; gs_types := [] |} = Some (h, st') /\
  exists g f a, oget scmp "Mutation" (gs_types st') = Some g /\ oget scmp (sa_field s) (t_fields g) = Some f /\
    aget "GEN__Input1" (f_args f) = Some a /\ ~ describes (gs_types st') (arg_type a) (sa_body s).
Proof.
  exists {| sa_url := at71 "/add" []; sa_method := "POST"; sa_body := VList [VStr "x"]; sa_answer := VNum (NInt 1); sa_field := "add"; sa_mutation := true |}.
  eexists _, _. split; [reflexivity|]. split; [reflexivity|]. split; [|split; [vm_compute; reflexivity|]].
  - apply regular_scalars with KText; [cbn; auto|]. intros v [<-|[]]. apply shaped_text.
  - eexists _, _, _. split; [reflexivity|]. split; [reflexivity|]. split; [reflexivity|]. cbn. intros H. inversion H.
Qed.
Print Assumptions C71_list_bodies_fit_refuted.
