(** Proofs for C81. *)
From Coq Require Import String Ascii Bool Arith List Lia.
From Verif Require Import Base Ordered OrderedFacts JsonModel UrlModel HeadersModel RequestModel RequestSpec TypeModel ConfigModel
  MustacheModel MustacheSpec MustacheProofs IrModel ComposeModel CtxModel CtxSpec CtxProofs FieldModel CallModel CallProofs CheckModel CnModel CnSpec.
From Verif Require StringFacts PgModel PgSpec PgProofs Pg3Proofs GsModel GsSpec Gs2Proofs.
Import ListNotations.
Open Scope string_scope.
Open Scope list_scope.

(** ** Headers *)
Lemma h_all_app n a b : h_all n (a ++ b) = h_all n a ++ h_all n b.
Proof. unfold h_all. now rewrite filter_app, map_app. Qed.
Lemma h_all_remove n m h : h_all n (h_remove m h) = if String.eqb n m then [] else h_all n h.
Proof.
  unfold h_all, h_remove. induction h as [|[k v] h IH]; cbn; [now destruct (String.eqb n m)|]. destruct (String.eqb m k) eqn:E; cbn.
  - rewrite IH. destruct (String.eqb n m) eqn:F; [reflexivity|]. apply String.eqb_eq in E as ->. now rewrite F.
  - destruct (String.eqb n k) eqn:G; cbn; rewrite IH; [|reflexivity]. destruct (String.eqb n m) eqn:F; [|reflexivity]. apply String.eqb_eq in F as ->. congruence.
Qed.
Lemma h_all_insert n m v h : h_all n (h_insert m v h) = if String.eqb n m then [v] else h_all n h.
Proof. unfold h_insert. rewrite h_all_app, h_all_remove. unfold h_all at 2. cbn. destruct (String.eqb n m); cbn; [reflexivity|apply app_nil_r]. Qed.
Lemma h_all_none n h : ~ In n (map fst h) -> h_all n h = [].
Proof. unfold h_all. induction h as [|[k v] h IH]; cbn; intros N; [reflexivity|]. destruct (String.eqb n k) eqn:E; [apply String.eqb_eq in E as ->; tauto|]. apply IH. tauto. Qed.
Lemma h_all_extend n o h : h_all n (h_extend o h) = if smem n (akeys o) then h_all n o else h_all n h.
Proof.
  unfold h_extend. rewrite h_all_app.
  assert (K : h_all n (filter (fun p => negb (smem (fst p) (akeys o))) h) = if smem n (akeys o) then [] else h_all n h).
  { unfold h_all. induction h as [|[k v] h IH]; cbn; [now destruct (smem n (akeys o))|]. destruct (smem k (akeys o)) eqn:M; cbn.
    - rewrite IH. destruct (smem n (akeys o)) eqn:F; [reflexivity|]. destruct (String.eqb n k) eqn:G; [|reflexivity]. apply String.eqb_eq in G as ->. congruence.
    - destruct (String.eqb n k) eqn:G; cbn; rewrite IH; [|reflexivity]. apply String.eqb_eq in G as ->. now rewrite M. }
  rewrite K. destruct (smem n (akeys o)) eqn:M; [reflexivity|]. rewrite (h_all_none n o), app_nil_r; [reflexivity|]. now apply BaseFacts.smem_false in M.
Qed.
Definition put (new : headers) (kv : string * string) : headers := match header_value (snd kv) with Some v => h_insert (fst kv) v new | None => new end.
Lemma h_all_put n l : forall a b, h_all n a = h_all n b -> h_all n (fold_left put l a) = h_all n (fold_left put l b).
Proof.
  induction l as [|[k v] l IH]; cbn; intros a b E; [exact E|]. apply IH. unfold put. cbn. destruct (header_value v); [|exact E]. rewrite !h_all_insert. now destruct (String.eqb n k).
Qed.

Lemma header_equal client hs n : n <> "content-type" -> n <> "connect-protocol-version" ->
  h_all n (set_headers false false (create_headers (hs ++ [("connect-protocol-version", "1")])) client) =
  h_all n (h_extend client (h_extend (fold_left put hs [("content-type", "application/grpc")]) [])).
Proof.
  intros N1 N2. unfold set_headers. rewrite !h_all_extend. destruct (smem n (akeys client)); [reflexivity|]. rewrite h_all_insert. apply String.eqb_neq in N1, N2. rewrite N1. rewrite h_all_extend.
  change (create_headers (hs ++ [("connect-protocol-version", "1")])) with (fold_left put (hs ++ [("connect-protocol-version", "1")]) []). rewrite fold_left_app. cbn [fold_left]. 
  set (P := put (fold_left put hs []) ("connect-protocol-version", "1")). assert (EP : P = h_insert "connect-protocol-version" "1" (fold_left put hs [])) by reflexivity. rewrite EP, h_all_insert, N2.
  assert (E : h_all n (fold_left put hs []) = h_all n (fold_left put hs [("content-type", "application/grpc")])) by (apply h_all_put; unfold h_all; cbn; now rewrite N1).
  rewrite E. set (X := fold_left put hs [("content-type", "application/grpc")]) in *.
  assert (Z : forall m h, h_all m (@nil (string * string)) = [] /\ (smem m (akeys h) = false -> h_all m h = [])).
  { intros m h. split; [reflexivity|]. intros M. apply h_all_none. now apply BaseFacts.smem_false in M. }
  set (Y := h_insert "connect-protocol-version" "1" (fold_left put hs [])).
  destruct (smem n (akeys X)) eqn:MX; destruct (smem n (akeys Y)) eqn:MY; try reflexivity.
  - symmetry. rewrite <- E. assert (H : h_all n Y = []) by now apply (Z n Y). unfold Y in H. now rewrite h_all_insert, N2 in H.
  - now apply (Z n X).
Qed.
Lemma header_type client hs : ~ In "content-type" (map fst client) ->
  h_all "content-type" (set_headers false false (create_headers (hs ++ [("connect-protocol-version", "1")])) client) = ["application/json"].
Proof. intros N. unfold set_headers. rewrite h_all_extend. apply BaseFacts.smem_false in N. unfold akeys. rewrite N. now rewrite h_all_insert. Qed.
Lemma header_version client hs : ~ In "connect-protocol-version" (map fst client) ->
  h_all "connect-protocol-version" (set_headers false false (create_headers (hs ++ [("connect-protocol-version", "1")])) client) = ["1"].
Proof.
  intros N. unfold set_headers. rewrite h_all_extend. apply BaseFacts.smem_false in N. unfold akeys at 1. rewrite N. rewrite h_all_insert. cbn [String.eqb Ascii.eqb Bool.eqb]. rewrite h_all_extend.
  change (create_headers (hs ++ [("connect-protocol-version", "1")])) with (fold_left put (hs ++ [("connect-protocol-version", "1")]) []). rewrite fold_left_app. cbn [fold_left]. 
  change (put (fold_left put hs []) ("connect-protocol-version", "1")) with (h_insert "connect-protocol-version" "1" (fold_left put hs [])).
  destruct (smem "connect-protocol-version" (akeys (h_insert "connect-protocol-version" "1" (fold_left put hs [])))) eqn:M.
  - rewrite h_all_insert. now rewrite String.eqb_refl.
  - exfalso. apply BaseFacts.smem_false in M. apply M. unfold h_insert, akeys. rewrite map_app. apply in_or_app. right. now left.
Qed.
Lemma headers_app header_name l hs : to_mustache_headers header_name l = Ok hs -> header_name "Connect-Protocol-Version" = Some "connect-protocol-version" ->
  to_mustache_headers header_name (l ++ [("Connect-Protocol-Version", "1")]) = Ok (hs ++ [("connect-protocol-version", [Literal "1"])]).
Proof.
  unfold to_mustache_headers. intros E H. apply all_checked_two in E. apply all_checked_two. apply Forall2_app; [exact E|]. constructor; [|constructor]. cbn. now rewrite H.
Qed.

(** ** Addresses *)
Lemma trim_slash s : no_final_slash s -> GsModel.trim_slashes s = s.
Proof.
  induction s as [|c s IH]; intros N; [reflexivity|]. cbn. rewrite IH; [|intros t E; apply (N (String c t)); now rewrite E]. destruct s as [|d s]; [|reflexivity].
  destruct (Ascii.eqb_spec c "/") as [->|]; [|reflexivity]. now destruct (N "").
Qed.
Lemma split_nonempty sep s : split_on sep s <> [].
Proof. destruct s as [|a s]; cbn; [discriminate|]. destruct (Ascii.eqb a sep); [discriminate|]. destruct (split_on sep s); discriminate. Qed.
Lemma split_alone name : dotless name -> split_on "." name = [name].
Proof.
  unfold dotless. induction name as [|a s IH]; intros D; [reflexivity|]. cbn in D. cbn. destruct (Ascii.eqb_spec a ".") as [->|N]; [tauto|]. rewrite IH; [reflexivity|tauto].
Qed.
Lemma split_last service name : dotless name -> split_on "." (service ++ "." ++ name) = split_on "." service ++ [name].
Proof.
  intros D. induction service as [|a s IH]; [cbn; now rewrite split_alone|]. change (split_on "." (String a s ++ "." ++ name)) with (if Ascii.eqb a "." then "" :: split_on "." (s ++ "." ++ name) else match split_on "." (s ++ "." ++ name) with [] => [String a ""] | x :: l => String a x :: l end).
  rewrite IH. cbn [split_on]. destruct (Ascii.eqb a "."); [reflexivity|]. destruct (split_on "." s) eqn:E; [|reflexivity]. now destruct (split_nonempty "." s).
Qed.
Lemma to_http_url g service name : gc_method g = (service ++ "." ++ name)%string -> dotless name -> ht_url (to_http g) = address (gc_url g) service name.
Proof.
  intros E D. unfold to_http, address. cbn [ht_url]. rewrite E, split_last by exact D. rewrite removelast_last, last_last. now rewrite (Gs2Proofs.split_join "." service).
Qed.
Lemma to_http_over g : over_http g (to_http g).
Proof. constructor; try reflexivity. intros. now apply to_http_url. Qed.
Lemma split_dotless s : Forall dotless (split_on "." s).
Proof.
  unfold dotless. induction s as [|a s IH]; cbn; [constructor; [cbn; tauto|constructor]|]. destruct (Ascii.eqb_spec a ".") as [->|N]; [constructor; [cbn; tauto|exact IH]|].
  destruct (split_on "." s) as [|x l]; [constructor; [cbn; intuition congruence|constructor]|]. inversion IH as [|? ? A B]; subst. constructor; [cbn; intuition congruence|exact B].
Qed.
Lemma method_dotless s package service name : PgModel.grpc_method s = Some (package, service, name) -> dotless name.
Proof.
  unfold PgModel.grpc_method. destruct (rev (split_on "." s)) as [|n [|sv [|a l]]] eqn:R; try discriminate. intros E. injection E as <- <- <-.
  pose proof (split_dotless s) as F. rewrite Forall_forall in F. apply F. apply in_rev. rewrite R. now left.
Qed.

(** ** Requests *)
Lemma cut_lacks c s : lacks c s -> cut_at c s = (s, None).
Proof. induction s as [|a s IH]; cbn; [reflexivity|]. intros [N L]. destruct (Ascii.eqb_spec a c); [tauto|]. now rewrite IH. Qed.
Lemma cut_before c s a o d : cut_at c s = (a, o) -> lacks d s -> lacks d a.
Proof.
  revert a o. induction s as [|x s IH]; cbn; intros a o E L; [injection E as <- _; exact I|]. destruct (Ascii.eqb x c); [injection E as <- _; exact I|].
  destruct (cut_at c s) as [b o'] eqn:C. injection E as <- _. cbn. split; [tauto|]. now apply (IH b o').
Qed.
Lemma parse_no_query parse_base s u : lacks "?" s -> parse_url parse_base s = Some u -> u_query u = None.
Proof.
  unfold parse_url. intros L. destruct (cut_at "#" s) as [b o] eqn:C. rewrite (cut_lacks "?" b) by (now apply (cut_before "#" s b o)). destruct (parse_base b); [|discriminate]. intros E. now injection E as <-.
Qed.

Section Calls.
  Variable header_name : string -> option string.
  Variable json_text : value -> string.
  Hypothesis connect_name : header_name "Connect-Protocol-Version" = Some "connect-protocol-version".
  Hypothesis empty_text : json_text (VObj []) = "{}".

  Lemma compiled c g t f : gc_batch_key g = [] -> grpc_template_of header_name json_text g = Ok t ->
    no_final_slash (gc_url g) ->
    exists ht, compile_http c header_name json_text (to_http g) f = Ok (apply_select (IIO (IoHttp ht None (is_list (f_type f)) (gc_dedupe g))) (gc_select g)) /\
      t_root ht = g_url t /\ t_query ht = [] /\ t_method ht = "POST" /\ t_headers ht = g_headers t ++ [("connect-protocol-version", [Literal "1"])] /\
      t_body ht = Some (match g_body t with Some m => m | None => parse "{}" end) /\ t_form ht = false.
  Proof.
    intros B T S. unfold grpc_template_of in T. destruct (PgModel.grpc_method (gc_method g)) as [[[pk sv] nm]|] eqn:G; [|discriminate].
    destruct (to_mustache_headers header_name (gc_headers g)) as [hs|] eqn:H; [|discriminate]. injection T as <-. cbn [g_url g_headers g_body].
    pose proof (method_dotless _ _ _ _ G) as Dn. pose proof (Gs2Proofs.grpc_method_text _ _ _ _ G) as Et.
    assert (Eu : ht_url (to_http g) = GsModel.to_url (gc_url g) pk sv nm).
    { rewrite (to_http_url g (pk ++ "." ++ sv)%string nm); [|rewrite Et; now rewrite !StringFacts.str_app_assoc|exact Dn]. unfold address, GsModel.to_url. rewrite trim_slash by exact S. now rewrite !StringFacts.str_app_assoc. }
    exists (template_of json_text (to_http g) (hs ++ [("connect-protocol-version", [Literal "1"])])). split.
    - unfold compile_http. cbn [ht_batch_key ht_query ht_body ht_headers to_http]. rewrite B. cbn [is_empty negb andb]. rewrite !andb_false_r. cbn [when all_checked rmap traced also]. rewrite (headers_app header_name _ hs) by (exact H || exact connect_name).
      unfold group_of. cbn [ht_batch_key to_http]. rewrite B. reflexivity.
    - unfold template_of. cbn [t_root t_query t_method t_headers t_body t_form]. rewrite Eu. repeat (split; [reflexivity|]). split; [|reflexivity]. cbn [ht_body to_http option_map]. f_equal. destruct (gc_body g); cbn; [reflexivity|]. now rewrite empty_text.
  Qed.
End Calls.

Lemma same_request parse_base form_text t ht e :
  t_root ht = g_url t -> t_query ht = [] -> t_method ht = "POST" -> t_headers ht = g_headers t ++ [("connect-protocol-version", [Literal "1"])] ->
  t_body ht = Some (match g_body t with Some m => m | None => parse "{}" end) -> t_form ht = false ->
  lacks "?" (e_render e (g_url t)) ->
  match grpc_request parse_base t e with
  | Ok q => exists r, to_request parse_base form_text ht e = Ok r /\ same_call (e_headers e) q r
  | Err x => to_request parse_base form_text ht e = Err x
  end.
Proof.
  intros Er Eq Em Eh Eb Ef L. unfold grpc_request, grpc_url, to_request, create_url. rewrite Er, Eq. destruct (parse_url parse_base (e_render e (g_url t))) as [u|] eqn:P; [|reflexivity]. cbn [rbind].
  pose proof (parse_no_query _ _ _ L P) as Q.
  set (k := if (true && mustache_is_const (g_url t))%bool then Ok u else _). assert (K : k = Ok u).
  { unfold k. cbn [andb flat_map]. destruct (mustache_is_const (g_url t)); [reflexivity|]. unfold base_params, query_pairs. rewrite Q. cbn. destruct u as [b q]. cbn in Q. now subst q. }
  rewrite K. cbn [rbind]. unfold create_body. rewrite Eb, Ef. cbn [rbind]. eexists. split; [reflexivity|].
  assert (Hh : rendered_headers ht e = map (fun kv => (fst kv, e_render e (snd kv))) (g_headers t) ++ [("connect-protocol-version", "1")]) by (unfold rendered_headers; rewrite Eh, map_app; reflexivity).
  constructor; cbn [q_method q_url q_body q_headers]; rewrite ?Hh, ?Em; try reflexivity.
  - unfold grpc_body. destruct (g_body t); [reflexivity|]. reflexivity.
  - intros n N1 N2. change (String.eqb "POST" "GET") with false. now rewrite header_equal.
  - intros N. change (String.eqb "POST" "GET") with false. now apply header_type.
  - intros N. change (String.eqb "POST" "GET") with false. now apply header_version.
Qed.

(** ** Configurations *)
Section Config.
  Variable read_grpc : list string -> string -> call.
  Variable http_text : http -> string.
  Lemma convert_rewritten r : rewritten read_grpc http_text r (convert read_grpc http_text r).
  Proof. destruct r; cbn; try (apply Re_other; discriminate). exact (Re_grpc read_grpc http_text batch_key rest (to_http (read_grpc batch_key rest)) (to_http_over _)). Qed.
  Lemma map_two {A B} (R : A -> B -> Prop) (f : A -> B) l : (forall a, R a (f a)) -> Forall2 R l (map f l).
  Proof. intros H. induction l; cbn; constructor; auto. Qed.
  Lemma field_changed f : field_rewritten read_grpc http_text f (connect_field read_grpc http_text f).
  Proof. split; [|reflexivity]. cbn. apply map_two. exact convert_rewritten. Qed.
  Lemma type_changed t : type_rewritten read_grpc http_text t (connect_type read_grpc http_text t).
  Proof. split; [|reflexivity]. cbn. apply map_two. intros [k f]. cbn. split; [reflexivity|apply field_changed]. Qed.
  Lemma config_changed c : config_rewritten read_grpc http_text c (connect read_grpc http_text c).
  Proof. split; [|reflexivity]. cbn. apply map_two. intros [k t]. cbn. split; [reflexivity|apply type_changed]. Qed.
End Config.
