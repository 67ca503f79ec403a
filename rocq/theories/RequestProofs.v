From Coq Require Import String Ascii NArith ZArith Bool Lia List.
From Verif Require Import Base BaseFacts JsonModel JsonProofs CtxModel CtxSpec CtxProofs MustacheModel MustacheSpec MustacheProofs HeadersModel UrlModel UrlProofs RequestModel GqlModel RequestSpec.
Import ListNotations.
Open Scope list_scope.
Open Scope string_scope.

(** * Query strings *)
Lemma not_dropped c : c <> tab_char -> c <> lf_char -> c <> cr_char -> query_dropped c = false.
Proof. intros A B C. destruct c as [[] [] [] [] [] [] [] []]; try reflexivity; exfalso; (apply A + apply B + apply C); reflexivity. Qed.

Lemma decode_encode s : safe_text s -> decode_form (encode_query s) = s.
Proof.
  intros (_ & P & Q & T & L & R). induction s as [|c s IH]; [reflexivity|].
  cbn in P, Q, T, L, R. destruct P as [P Ps], Q as [Q Qs], T as [T Ts], L as [L Ls], R as [R Rs].
  cbn [encode_query]. rewrite not_dropped by assumption. destruct (query_escaped c).
  - cbv zeta. rewrite decode_escaped. f_equal. now apply IH.
  - cbn [decode_form]. destruct (Ascii.eqb_spec c "+"); [contradiction|]. destruct (Ascii.eqb_spec c "%"); [contradiction|].
    f_equal. now apply IH.
Qed.

Lemma encode_lacks x s : In x ["&"; "="]%char -> lacks x s -> lacks x (encode_query s).
Proof.
  intros X. induction s as [|c s IH]; intros H; [exact I|]. cbn in H. destruct H as [H1 H2]. cbn [encode_query].
  destruct (query_dropped c); [auto|]. destruct (query_escaped c); cbv zeta; cbn [lacks].
  - destruct (hex_digits_char c x) as [A B]; [cbn in *; tauto|].
    repeat split; auto. destruct X as [<-|[<-|[]]]; discriminate.
  - auto.
Qed.

Lemma encode_nonempty s : s <> "" -> safe_text s -> encode_query s <> "".
Proof.
  destruct s as [|c s]; [congruence|]. intros _ (_ & _ & _ & T & L & R). cbn in T, L, R. cbn [encode_query].
  rewrite not_dropped by tauto. destruct (query_escaped c); discriminate.
Qed.

Lemma split_none c s : lacks c s -> split_on c s = [s].
Proof.
  induction s as [|d s IH]; [reflexivity|]. cbn. intros [H1 H2]. destruct (Ascii.eqb_spec d c); [contradiction|]. now rewrite IH.
Qed.
Lemma cut_none c s : lacks c s -> cut_at c s = (s, None).
Proof.
  induction s as [|d s IH]; [reflexivity|]. cbn. intros [H1 H2]. destruct (Ascii.eqb_spec d c); [contradiction|]. now rewrite IH.
Qed.
Lemma cut_some c s v : lacks c s -> cut_at c (s ++ String c v) = (s, Some v).
Proof.
  induction s as [|d s IH]; cbn.
  - intros _. now rewrite Ascii.eqb_refl.
  - intros [H1 H2]. destruct (Ascii.eqb_spec d c); [contradiction|]. now rewrite IH.
Qed.
Lemma lacks_app c a b : lacks c (a ++ b) <-> lacks c a /\ lacks c b.
Proof. induction a as [|d a IH]; cbn; [tauto|]. rewrite IH. tauto. Qed.

Lemma pair_read k v : safe_key k -> safe_text v -> form_pairs (encode_query (k ++ "=" ++ v)) = [(k, v)].
Proof.
  intros (N & E & K) V. rewrite encode_app. cbn [String.append].
  change (encode_query (String "=" v)) with (String "=" (encode_query v)).
  unfold form_pairs. rewrite split_none.
  - cbn [flat_map]. unfold form_pair. rewrite cut_some by (apply encode_lacks; cbn; auto).
    rewrite !decode_encode by assumption.
    destruct (String.eqb_spec (encode_query k ++ String "=" (encode_query v)) "") as [X|_]; [|reflexivity].
    destruct (encode_query k); discriminate.
  - apply lacks_app. split; [apply encode_lacks; cbn; auto; apply K|].
    cbn. split; [discriminate|]. apply encode_lacks; cbn; auto. apply V.
Qed.
Lemma key_read k : safe_key k -> form_pairs (encode_query k) = [(k, "")].
Proof.
  intros (N & E & K). unfold form_pairs. rewrite split_none by (apply encode_lacks; cbn; auto; apply K).
  cbn [flat_map]. unfold form_pair. rewrite cut_none by (apply encode_lacks; cbn; auto).
  rewrite decode_encode by assumption.
  destruct (String.eqb_spec (encode_query k) "") as [X|_]; [|reflexivity]. exfalso. exact (encode_nonempty k N K X).
Qed.

Lemma form_pairs_join l : l <> [] ->
  form_pairs (encode_query (join "&" l)) = flat_map (fun i => form_pairs (encode_query i)) l.
Proof.
  unfold join. induction l as [|a l IH]; [congruence|]. intros _. destruct l as [|b l].
  - cbn. now rewrite app_nil_r.
  - change (String.concat "&" (a :: b :: l)) with (a ++ "&" ++ String.concat "&" (b :: l)).
    rewrite form_pairs_app, IH by discriminate. reflexivity.
Qed.

Lemma form_pairs_fold l : forall acc,
  form_pairs (encode_query (fold_left add_param l acc)) =
  (form_pairs (encode_query acc) ++ flat_map (fun i => form_pairs (encode_query i)) l)%list.
Proof.
  induction l as [|a l IH]; intros acc; cbn [fold_left flat_map]; [now rewrite app_nil_r|].
  rewrite IH, app_assoc. f_equal. unfold add_param.
  destruct (String.eqb_spec acc "") as [->|_]; [reflexivity|].
  destruct (String.eqb_spec a "") as [->|_]; [cbn; now rewrite app_nil_r|]. apply form_pairs_app.
Qed.

Lemma value_nest (P : value -> Prop) :
  P VNull -> (forall b, P (VBool b)) -> (forall n, P (VNum n)) -> (forall s, P (VStr s)) -> (forall s, P (VEnum s)) ->
  (forall l, Forall P l -> P (VList l)) -> (forall m, P (VObj m)) -> forall v, P v.
Proof.
  intros A B C D E F G. fix IH 1. intros [|b|n|s|s|l|m].
  - exact A.
  - apply B.
  - apply C.
  - apply D.
  - apply E.
  - apply F. induction l as [|x l IHl]; constructor; [apply IH|exact IHl].
  - apply G.
Qed.

Lemma scalar_plain rx v : scalar_text rx v = plain_text rx v.
Proof. destruct v as [|[]| | | | |]; reflexivity. Qed.

Lemma scalar_read rx key v : safe_key key ->
  (forall t, plain_text rx v = Some t -> safe_text t) ->
  form_pairs (encode_query (encode_scalar rx key v)) = [(key, or_empty (plain_text rx v))].
Proof.
  intros K T. unfold encode_scalar. rewrite scalar_plain. destruct (plain_text rx v); [apply pair_read; auto|now apply key_read].
Qed.

Lemma repeated_read rx key v : safe_key key ->
  (forall t, In t (element_texts rx v) -> safe_text t) ->
  form_pairs (encode_query (encode_repeated rx key v)) = map (pair key) (element_texts rx v).
Proof.
  intros K. induction v as [| | | | |l IH|m] using value_nest; intros T.
  - apply (scalar_read rx key VNull); [assumption|discriminate].
  - apply (scalar_read rx key (VBool b)); [assumption|]. intros t E. apply T. left. cbn [element_texts]. now rewrite E.
  - apply (scalar_read rx key (VNum n)); [assumption|]. intros t [= <-]. apply T. now left.
  - apply (scalar_read rx key (VStr s)); [assumption|]. intros t [= <-]. apply T. now left.
  - apply (scalar_read rx key (VEnum s)); [assumption|]. intros t [= <-]. apply T. now left.
  - destruct l as [|a l].
    + apply (scalar_read rx key (VList [])); [assumption|discriminate].
    + change (encode_repeated rx key (VList (a :: l))) with (join "&" (map (encode_repeated rx key) (a :: l))).
      rewrite form_pairs_join by discriminate.
      change (element_texts rx (VList (a :: l))) with (flat_map (element_texts rx) (a :: l)) in *.
      revert T. induction IH as [|x l' Hx Hl IHl]; intros T; [reflexivity|].
      cbn [map flat_map]. rewrite map_app, Hx, IHl.
      * reflexivity.
      * intros t I. apply T. cbn. apply in_app_iff. now right.
      * intros t I. apply T. cbn. apply in_app_iff. now left.
  - apply (scalar_read rx key (VObj m)); [assumption|discriminate].
Qed.

Lemma lacks_join c l : c <> ","%char -> Forall (lacks c) l -> lacks c (join "," l).
Proof.
  intros N F. unfold join. induction F as [|a l A F IH]; [exact I|]. destruct l as [|b l]; [exact A|].
  change (String.concat "," (a :: b :: l)) with (a ++ "," ++ String.concat "," (b :: l)).
  apply lacks_app. split; [exact A|]. cbn [String.append lacks]. split; [congruence|exact IH].
Qed.
Lemma safe_join l : Forall safe_text l -> safe_text (join "," l).
Proof.
  intros F. unfold safe_text. repeat split; (apply lacks_join; [discriminate|]); (eapply Forall_impl; [|exact F]); intros s S1; apply S1.
Qed.

Lemma scalar_texts_eq rx l :
  flat_map (fun x => match scalar_text rx x with Some t => [t] | None => [] end) l = scalar_texts rx l.
Proof. unfold scalar_texts. induction l as [|a l IH]; cbn [flat_map]; [reflexivity|]. now rewrite scalar_plain, IH. Qed.

Lemma list_commas_read rx key l : safe_key key -> Forall safe_text (scalar_texts rx l) ->
  form_pairs (encode_query (encode_commas rx key (VList l))) = [(key, join "," (scalar_texts rx l))].
Proof.
  intros K T. destruct l as [|a l]; [apply (scalar_read rx key (VList [])); [assumption|discriminate]|].
  unfold encode_commas. rewrite scalar_texts_eq.
  destruct (scalar_texts rx (a :: l)) as [|t ts] eqn:E.
  - cbn. now apply key_read.
  - apply pair_read; [assumption|]. now apply safe_join.
Qed.

(** What a parameter is given. *)
Definition untag (s : value_string) : value + string :=
  match s with RawValue v => inl (cow_value v) | RawString t => inr t end.

Lemma given_first e m o : given e m o <-> o = option_map untag (first_value e m).
Proof.
  split.
  - intros G. induction G as [|t rest|p rest v D|p rest s T|p rest o N1 N2 G IH]; cbn [first_value].
    + reflexivity.
    + reflexivity.
    + apply (to_raw_value_denotes (e_ext e)) in D.
      destruct (to_raw_value (e_ext e) (e_ctx e) p) as [[w|w]|]; cbn in D; try discriminate. injection D as <-. reflexivity.
    + apply (to_raw_value_text (e_ext e) (e_ctx e)) in T.
      destruct (to_raw_value (e_ext e) (e_ctx e) p) as [[w|w]|]; cbn in T; try discriminate. injection T as <-. reflexivity.
    + destruct (to_raw_value (e_ext e) (e_ctx e) p) as [[w|w]|] eqn:E; [| |exact IH]; exfalso.
      * apply (N1 (cow_value w)). apply (to_raw_value_denotes (e_ext e)). now rewrite E.
      * apply (N2 w). apply (to_raw_value_text (e_ext e) (e_ctx e)). now rewrite E.
  - intros ->. induction m as [|[t|p] rest IH]; cbn [first_value]; [constructor|constructor|].
    destruct (to_raw_value (e_ext e) (e_ctx e) p) as [[w|w]|] eqn:E; cbn.
    + apply given_value. apply (to_raw_value_denotes (e_ext e)). now rewrite E.
    + apply given_text. apply (to_raw_value_text (e_ext e) (e_ctx e)). now rewrite E.
    + apply given_next; [| |exact IH].
      * intros v D. apply (to_raw_value_denotes (e_ext e)) in D. rewrite E in D. discriminate.
      * intros s T. apply (to_raw_value_text (e_ext e) (e_ctx e)) in T. rewrite E in T. discriminate.
Qed.
Lemma given_one e m : exists o, given e m o /\ forall o', given e m o' -> o' = o.
Proof.
  exists (option_map untag (first_value e m)). split; [now apply given_first|]. intros o' G. now apply given_first.
Qed.

(** One configured parameter. *)
Lemma param_read t e q o : safe_key (qy_key q) -> given e (qy_value q) o -> safe_given (e_ext e) (t_encoder t) o ->
  flat_map (fun i => form_pairs (encode_query i)) (extra_param t e q) = pairs_of (e_ext e) (t_encoder t) q o.
Proof.
  intros K G T. apply given_first in G. subst o. unfold extra_param, pairs_of, safe_given in *.
  destruct (first_value e (qy_value q)) as [[v|s]|]; cbn [option_map untag] in *.
  - cbn [flat_map encode]. rewrite app_nil_r. destruct (t_encoder t).
    + assert (X : forall w, (forall a l, w <> VList (a :: l)) -> Forall safe_text (element_texts (e_ext e) w) ->
               form_pairs (encode_query (encode_scalar (e_ext e) (qy_key q) w)) = [(qy_key q, or_empty (plain_text (e_ext e) w))]).
      { intros w N F. apply scalar_read; [assumption|]. intros x E.
        destruct w as [|b|n|s|s|[|a l]|m]; cbn [element_texts] in F; try discriminate E; apply Forall_inv in F; now rewrite E in F. }
      destruct (cow_value v) as [|b|n|s|s|[|a l]|m] eqn:V; try (apply X; [discriminate|exact T]).
      now apply list_commas_read.
    + apply repeated_read; [assumption|]. now apply Forall_forall.
  - cbn. rewrite app_nil_r. now apply pair_read.
  - destruct (qy_skip_empty q); [reflexivity|]. cbn. rewrite app_nil_r. now apply key_read.
Qed.

Section Urls.
  Variable parse_base : string -> option string.

  Lemma base_read u :
    (forall k v, In (k, v) (query_pairs u) -> v <> "" -> safe_key k /\ safe_text v) ->
    flat_map (fun i => form_pairs (encode_query i)) (base_params u) =
    filter (fun kv => negb (String.eqb (snd kv) "")) (query_pairs u).
  Proof.
    unfold base_params. induction (query_pairs u) as [|[k v] l IH]; intros H; [reflexivity|]. cbn [flat_map filter fst snd].
    destruct (String.eqb_spec v "") as [->|N]; cbn [negb app].
    - apply IH. intros k' v' I. apply H. now right.
    - cbn [flat_map]. rewrite pair_read by (apply (H k v); [now left|assumption]). cbn. f_equal.
      apply IH. intros k' v' I. apply H. now right.
  Qed.

  Lemma flat_map_flat_map {A B C} (f : A -> list B) (g : B -> list C) l :
    flat_map g (flat_map f l) = flat_map (fun x => flat_map g (f x)) l.
  Proof. induction l as [|a l IH]; cbn; [reflexivity|]. now rewrite flat_map_app, IH. Qed.

  Lemma url_read t e u0 u gs :
    parse_url parse_base (e_render e (t_root t)) = Some u0 ->
    create_url parse_base t e = Ok u ->
    (t_query t <> [] \/ mustache_is_const (t_root t) = false) ->
    (forall k v, In (k, v) (query_pairs u0) -> v <> "" -> safe_key k /\ safe_text v) ->
    Forall2 (fun q o => safe_key (qy_key q) /\ given e (qy_value q) o /\ safe_given (e_ext e) (t_encoder t) o) (t_query t) gs ->
    u_base u = u_base u0 /\
    query_pairs u = (filter (fun kv => negb (String.eqb (snd kv) "")) (query_pairs u0)
                     ++ concat (map (fun qo => pairs_of (e_ext e) (t_encoder t) (fst qo) (snd qo)) (combine (t_query t) gs)))%list.
  Proof.
    intros P C N B Q. unfold create_url in C. rewrite P in C.
    destruct (match t_query t with [] => true | _ => false end && mustache_is_const (t_root t))%bool eqn:X.
    { exfalso. apply andb_true_iff in X as [X1 X2]. destruct N as [N|N]; [destruct (t_query t); congruence|congruence]. }
    injection C as <-. split; [reflexivity|].
    assert (E : form_pairs (encode_query (fold_left add_param (base_params u0 ++ flat_map (extra_param t e) (t_query t))%list "")) =
      (filter (fun kv => negb (String.eqb (snd kv) "")) (query_pairs u0) ++
       concat (map (fun qo => pairs_of (e_ext e) (t_encoder t) (fst qo) (snd qo)) (combine (t_query t) gs)))%list).
    { rewrite form_pairs_fold, flat_map_app, base_read by assumption. cbn [app form_pairs encode_query split_on flat_map form_pair String.eqb].
      change (form_pairs "") with (@nil (string * string)). cbn [app]. f_equal. rewrite flat_map_flat_map.
      clear -Q. induction Q as [|q o l gs (K & G & T) Q IH]; [reflexivity|]. cbn [flat_map combine map concat fst snd].
      rewrite (param_read t e q o K G T). f_equal. exact IH. }
    unfold set_query, query_pairs at 1.
    destruct (String.eqb_spec (fold_left add_param (base_params u0 ++ flat_map (extra_param t e) (t_query t))%list "") "") as [Z|Z].
    - rewrite Z in E. cbn. cbn in E. now rewrite <- E.
    - cbn [u_query option_map]. exact E.
  Qed.

  (** The query holds no character that must not occur there. *)
  Lemma hex_fit n : (n < 16)%N -> query_char (hex_digit n) = true.
  Proof.
    intros H. assert (X : In n [0;1;2;3;4;5;6;7;8;9;10;11;12;13;14;15]%N).
    { destruct n as [|p]; [now left|]. right. do 4 (destruct p as [p|p|]; try (cbn; tauto)); exfalso; lia. }
    cbn in X. repeat (destruct X as [<-|X]; [reflexivity|]). destruct X.
  Qed.
  Lemma encode_chars s : all_chars query_char (encode_query s) = true.
  Proof.
    induction s as [|c s IH]; [reflexivity|]. cbn [encode_query]. destruct (query_dropped c); [exact IH|].
    destruct (query_escaped c) eqn:E.
    - cbv zeta. cbn [all_chars]. rewrite !hex_fit, IH; [reflexivity| |].
      + apply N.mod_lt. discriminate.
      + apply N.div_lt_upper_bound; [discriminate|]. destruct c as [[] [] [] [] [] [] [] []]; reflexivity.
    - cbn [all_chars]. rewrite IH. rewrite andb_true_r. clear -E. destruct c as [[] [] [] [] [] [] [] []]; cbn in *; congruence.
  Qed.
  Lemma url_chars t e u q : create_url parse_base t e = Ok u -> u_query u = Some q -> all_chars query_char q = true.
  Proof.
    unfold create_url, parse_url. destruct (cut_at "#" (e_render e (t_root t))) as [x1 x2]. destruct (cut_at "?" x1) as [b qs].
    destruct (parse_base b); [|discriminate].
    destruct (_ && _)%bool; intros [= <-]; cbn.
    - destruct qs; intros [= <-]. apply encode_chars.
    - destruct (String.eqb _ ""); intros [= <-]. apply encode_chars.
  Qed.
End Urls.

(** * Keys *)
Lemma header_tokens r1 : forall r2 c1 c2 l1 l2,
  (flat_map (fun kv => [TName (fst kv); TText (snd kv)]) r1
   ++ flat_map (fun kv => [TName (fst kv); TBytes (snd kv)]) c1 ++ map TText l1 =
   flat_map (fun kv => [TName (fst kv); TText (snd kv)]) r2
   ++ flat_map (fun kv : string * string => [TName (fst kv); TBytes (snd kv)]) c2 ++ map TText l2)%list ->
  r1 = r2 /\ c1 = c2 /\ l1 = l2.
Proof.
  induction r1 as [|[n v] r1 IH]; intros [|[m w] r2] c1 c2 l1 l2 H; cbn in H.
  - split; [reflexivity|]. revert c2 H. induction c1 as [|[n v] c1 IH]; intros [|[m w] c2] H; cbn in H.
    + split; [reflexivity|]. revert l2 H. induction l1 as [|a l1 IH]; intros [|b l2] H; cbn in H; try discriminate; [reflexivity|].
      injection H as -> H. f_equal. auto.
    + destruct l1; discriminate.
    + destruct l2; discriminate.
    + injection H as -> -> H. destruct (IH c2 H) as [-> ->]. auto.
  - exfalso. destruct c1 as [|[a b] c1]; cbn in H; [destruct l1; discriminate|discriminate].
  - exfalso. destruct c2 as [|[a b] c2]; cbn in H; [destruct l2; discriminate|discriminate].
  - injection H as -> -> H. destruct (IH r2 c1 c2 l1 l2 H) as (-> & -> & ->). auto.
Qed.

Section Keys.
  Variable parse_base : string -> option string.
  Variable form_text : string -> option string.

  Lemma http_key_inj t1 e1 t2 e2 k :
    http_key_tokens parse_base t1 e1 = Ok k -> http_key_tokens parse_base t2 e2 = Ok k ->
    t_form t1 = t_form t2 ->
    to_request parse_base form_text t1 e1 = to_request parse_base form_text t2 e2.
  Proof.
    unfold http_key_tokens, to_request. intros K1 K2 F.
    destruct (create_url parse_base t1 e1) as [u1|]; [|discriminate].
    destruct (create_url parse_base t2 e2) as [u2|]; [|discriminate]. cbn [rbind] in *.
    assert (Hm : forall (b1 : option mustache) e u, exists l,
      (match b1 with Some m => [TText (e_render e m)] | None => [] end ++ [TText (url_text u)])%list = map TText l /\
      l = (match b1 with Some m => [e_render e m] | None => [] end ++ [url_text u])%list).
    { intros [m|] e u; eexists; split; try reflexivity; reflexivity. }
    destruct (Hm (t_body t1) e1 u1) as (l1 & E1 & L1), (Hm (t_body t2) e2 u2) as (l2 & E2 & L2).
    rewrite E1 in K1. rewrite E2 in K2. rewrite <- K2 in K1. injection K1 as M H.
    apply header_tokens in H as (HR & HC & HL). rewrite M, HR, HC, F.
    assert (X : url_text u1 = url_text u2 /\ create_body form_text t1 e1 = create_body form_text t2 e2).
    { unfold create_body. rewrite F. rewrite L1, L2 in HL. clear -HL.
      destruct (t_body t1) as [m1|], (t_body t2) as [m2|]; cbn in HL; try discriminate; injection HL; intros.
      - split; [assumption|]. now rewrite H0.
      - split; [assumption|reflexivity]. }
    destruct X as [-> ->]. reflexivity.
  Qed.

  Lemma grpc_key_inj t1 e1 t2 e2 k r1 r2 :
    grpc_key_tokens parse_base t1 e1 = Ok k -> grpc_key_tokens parse_base t2 e2 = Ok k ->
    grpc_request parse_base t1 e1 = Ok r1 -> grpc_request parse_base t2 e2 = Ok r2 ->
    q_url r1 = q_url r2 /\ q_body r1 = q_body r2.
  Proof.
    unfold grpc_key_tokens, grpc_request.
    destruct (grpc_url parse_base t1 e1); [|discriminate]. destruct (grpc_url parse_base t2 e2); [|discriminate].
    cbn [rbind]. intros [= <-] [= H1 H2] [= <-] [= <-]. cbn. now rewrite H1, H2.
  Qed.

  Lemma gql_key_inj t1 e1 f1 t2 e2 f2 :
    gql_key_tokens t1 e1 f1 = gql_key_tokens t2 e2 f2 -> gql_body t1 e1 f1 = gql_body t2 e2 f2.
  Proof. unfold gql_key_tokens. generalize (gql_body t1 e1 f1), (gql_body t2 e2 f2). intros a b [= ->]. reflexivity. Qed.
End Keys.

(** * JSON texts *)
Lemma json_app a b c d : json_chars a b -> json_chars c d -> json_chars (a ++ c) (b ++ d).
Proof.
  intros H K. induction H; cbn [String.append]; [assumption|..].
  - now apply json_char.
  - now apply json_escape.
  - now apply (json_unicode a b x y).
Qed.

Lemma json_of_plain s : every json_plain s -> json_chars s s.
Proof.
  unfold every. induction s as [|c s IH]; cbn; [constructor|]. intros H. apply andb_true_iff in H as [H1 H2]. constructor; auto.
Qed.

Lemma json_of_escape_char c : ordinary c = true -> json_chars (escape_char c) (String c "").
Proof.
  destruct c as [[] [] [] [] [] [] [] []]; intros H; cbn in H; try discriminate H;
    (apply json_char; [reflexivity|constructor]) || (apply json_escape; [cbn; auto 9|constructor]).
Qed.
Lemma json_of_escape s : every ordinary s -> json_chars (escape_default s) s.
Proof.
  unfold every. induction s as [|c s IH]; cbn [all_chars escape_default]; [constructor|]. intros H. apply andb_true_iff in H as [H1 H2].
  change (String c s) with (String c "" ++ s). apply json_app; [now apply json_of_escape_char|auto].
Qed.

Lemma every_app p a b : every p (a ++ b) <-> every p a /\ every p b.
Proof.
  unfold every. induction a as [|c a IH]; cbn; [tauto|]. rewrite !andb_true_iff, IH. tauto.
Qed.
Lemma every_join p sep l : every p sep -> (forall x, In x l -> every p x) -> every p (join sep l).
Proof.
  intros S1 H. unfold join. induction l as [|a l IH]; [reflexivity|]. destruct l as [|b l]; [apply H; now left|].
  change (String.concat sep (a :: b :: l)) with (a ++ sep ++ String.concat sep (b :: l)).
  apply every_app. split; [apply H; now left|]. apply every_app. split; [exact S1|]. apply IH. intros x I. apply H. now right.
Qed.
Lemma json_join sep l m : every json_plain sep -> Forall2 json_chars l m -> json_chars (join sep l) (join sep m).
Proof.
  intros S1 F. unfold join. induction F as [|a b l m A F IH]; [constructor|]. destruct F as [|a' b' l m A' F]; [exact A|].
  change (String.concat sep (a :: a' :: l)) with (a ++ sep ++ String.concat sep (a' :: l)).
  change (String.concat sep (b :: b' :: m)) with (b ++ sep ++ String.concat sep (b' :: m)).
  apply json_app; [exact A|]. apply json_app; [now apply json_of_plain|exact IH].
Qed.

(** A printed selection. *)
Inductive ordinary_sfield : sfield -> Prop :=
| ordinary_sfield_intro f :
    every ordinary (s_directives f) ->
    (forall n v, In (n, v) (s_args f) -> every ordinary n /\ every ordinary v) ->
    (forall g, In g (s_selection f) -> ordinary_sfield g) ->
    ordinary_sfield f.

Lemma gfield_nest (P : gfield -> Prop) :
  (forall f, (forall g, In g (f_selection f) -> P g) -> P f) -> forall f, P f.
Proof.
  intros H. fix IH 1. intros [n o t c a d l]. apply H. cbn.
  induction l as [|x l IHl]; intros g I; [destruct I|]. destruct I as [<-|I]; [apply IH|exact (IHl g I)].
Qed.
Lemma sfield_nest (P : sfield -> Prop) :
  (forall f, (forall g, In g (s_selection f) -> P g) -> P f) -> forall f, P f.
Proof.
  intros H. fix IH 1. intros [n a d l]. apply H. cbn.
  induction l as [|x l IHl]; intros g I; [destruct I|]. destruct I as [<-|I]; [apply IH|exact (IHl g I)].
Qed.

Lemma ordinary_from_jit f : ordinary_field f -> ordinary_sfield (from_jit_field f).
Proof.
  induction f as [f IH] using gfield_nest. intros O. inversion O as [f' D A S1 Ef]; subst f'. destruct f as [n o t c a d l]. cbn in *.
  constructor; cbn.
  - exact D.
  - intros x v I. apply in_flat_map in I as ([y w] & J & K). cbn in K. destruct w as [w|]; [|destruct K].
    destruct K as [[= -> ->]|[]]. eauto.
  - intros g I. apply in_flat_map in I as (h & J & K). destruct (applies t h); [|destruct K]. destruct K as [<-|[]]. auto.
Qed.

Lemma json_args l : (forall n v, In (n, v) l -> every ordinary n /\ every ordinary v) ->
  json_chars (format_args escape_default l) (format_args (fun s => s) l).
Proof.
  intros H. destruct l as [|a l]; [constructor|]. unfold format_args.
  apply json_app; [now apply json_of_plain|]. apply json_app; [|now apply json_of_plain].
  apply json_of_escape. apply every_join; [reflexivity|]. intros x I. apply in_map_iff in I as ([n v] & <- & J).
  destruct (H n v J). apply every_app. split; [assumption|]. apply every_app. split; [reflexivity|assumption].
Qed.

Lemma json_braces l m : Forall2 json_chars l m ->
  match braces l, braces m with Some a, Some b => json_chars a b | None, None => True | _, _ => False end.
Proof.
  intros F. destruct F as [|a b l m A F]; cbn [braces]; [exact I|].
  apply json_app; [now apply json_of_plain|]. apply json_app; [|now apply json_of_plain].
  apply json_join; [reflexivity|]. now constructor.
Qed.


Lemma json_fields l rel :
  plain_related rel ->
  (forall g, In g l -> forall n r, every json_plain n -> plain_related r ->
     json_chars (format_field escape_default g n r) (format_field (fun s => s) g n r)) ->
  Forall2 json_chars
    (flat_map (fun g => match related_get rel (s_name g) with Some (n, r) => [format_field escape_default g n r] | None => [] end) l)
    (flat_map (fun g => match related_get rel (s_name g) with Some (n, r) => [format_field (fun s => s) g n r] | None => [] end) l).
Proof.
  intros P H. induction l as [|g l IH]; [constructor|]. cbn [flat_map].
  apply Forall2_app; [|apply IH; intros g' I; apply H; now right].
  destruct (related_get rel (s_name g)) as [[n r]|] eqn:E; [|constructor]. constructor; [|constructor].
  destruct rel as [m]. cbn in E. apply aget_In in E. inversion P as [m' Q]; subst. destruct (Q _ _ _ E). apply H; auto. now left.
Qed.

Lemma json_field f : ordinary_sfield f -> forall n rel, every json_plain n -> plain_related rel ->
  json_chars (format_field escape_default f n rel) (format_field (fun s => s) f n rel).
Proof.
  induction f as [f IH] using sfield_nest. intros O n rel N P. inversion O as [f' D A S1 Ef]; subst f'.
  destruct f as [fn fa fd fs]. cbn [s_name s_args s_directives s_selection] in *. cbn [format_field s_name s_args s_directives s_selection].
  apply json_app; [now apply json_of_plain|]. apply json_app; [now apply json_args|]. apply json_app.
  - destruct (String.eqb fd ""); [constructor|]. apply json_app; [now apply json_of_plain|now apply json_of_escape].
  - pose proof (json_braces _ _ (json_fields fs rel P (fun g I n r Hn Hr => IH g I (S1 g I) n r Hn Hr))) as B.
    destruct (braces _), (braces _); try contradiction; [|constructor]. apply json_app; [now apply json_of_plain|exact B].
Qed.

Lemma json_selection f rel : ordinary_field f -> plain_related rel ->
  json_chars (match format_selection_set escape_default (s_selection (from_jit_field f)) rel with Some s => s | None => "" end)
             (match format_selection_set (fun s => s) (s_selection (from_jit_field f)) rel with Some s => s | None => "" end).
Proof.
  intros O P. apply ordinary_from_jit in O. inversion O as [f' D A S1 Ef]. unfold format_selection_set.
  pose proof (json_braces _ _ (json_fields (s_selection (from_jit_field f)) rel P
    (fun g I n r Hn Hr => json_field g (S1 g I) n r Hn Hr))) as B.
  destruct (braces _), (braces _); try contradiction; [exact B|constructor].
Qed.

Lemma json_operation_args l : (forall n v, In (n, v) l -> every json_plain n /\ every ordinary v) ->
  json_chars (operation_args escape_default l) (operation_args (fun s => s) l).
Proof.
  intros H. unfold operation_args.
  assert (F : Forall2 json_chars
    (flat_map (fun a => if String.eqb (snd a) "" then [] else [fst a ++ ": " ++ escape_default (snd a)]) l)
    (flat_map (fun a => if String.eqb (snd a) "" then [] else [fst a ++ ": " ++ snd a]) l)).
  { induction l as [|[n v] l IH]; [constructor|]. cbn [flat_map fst snd]. apply Forall2_app; [|apply IH; intros; apply H; now right].
    destruct (H n v (or_introl eq_refl)). destruct (String.eqb v ""); constructor; [|constructor].
    apply json_app; [now apply json_of_plain|]. apply json_app; [now apply json_of_plain|now apply json_of_escape]. }
  destruct F as [|a b l1 l2 A F]; [constructor|].
  apply json_app; [now apply json_of_plain|]. apply json_app; [|now apply json_of_plain].
  apply json_join; [reflexivity|]. now constructor.
Qed.

Lemma gql_carries t e f :
  every json_plain (gt_kind t) -> every json_plain (gt_name t) ->
  (forall n v, In (n, v) (rendered_args t e) -> every json_plain n /\ every ordinary v) ->
  ordinary_field f -> plain_related (gt_related t) ->
  forall sel, match gt_selection t with
              | Some s => json_chars s sel
              | None => sel = match format_selection_set (fun s => s) (s_selection (from_jit_field f)) (gt_related t) with Some s => s | None => "" end
              end ->
  carries (gql_body t e f) (operation_text (fun s => s) (gt_kind t) (gt_name t) (rendered_args t e) (f_directives f) sel).
Proof.
  intros K N A O P sel Q. exists (gql_operation escape_default t e f). split; [reflexivity|].
  unfold gql_operation, operation_text.
  apply json_app; [now apply json_of_plain|]. apply json_app; [now apply json_of_plain|]. apply json_app; [now apply json_of_plain|].
  apply json_app; [now apply json_operation_args|]. apply json_app.
  { inversion O as [f' D _ _ Ef]; subst f'. destruct (String.eqb (f_directives f) ""); [constructor|].
    apply json_app; [now apply json_of_plain|now apply json_of_escape]. }
  apply json_app; [now apply json_of_plain|]. apply json_app; [|now apply json_of_plain].
  unfold gql_selection. destruct (gt_selection t) as [s|]; [exact Q|]. subst sel. now apply json_selection.
Qed.

Lemma operation_asked kind name args directives sel :
  operation_text (fun s => s) kind name args directives sel = asked kind name args directives sel.
Proof.
  unfold operation_text, asked. do 3 f_equal. f_equal.
  - unfold operation_args.
    assert (E : flat_map (fun a : string * string => if String.eqb (snd a) "" then [] else [fst a ++ ": " ++ snd a]) args =
                map (fun a => fst a ++ ": " ++ snd a) (filter (fun a => negb (String.eqb (snd a) "")) args)).
    { induction args as [|a args IH]; [reflexivity|]. cbn [flat_map filter]. rewrite IH. destruct (String.eqb (snd a) ""); reflexivity. }
    rewrite E. destruct (filter (fun a => negb (String.eqb (snd a) "")) args); reflexivity.
  - destruct directives; reflexivity.
Qed.

Lemma gql_posts parse_base t e f q args :
  gql_request parse_base t e f = Ok q ->
  every json_plain (gt_kind t) -> every json_plain (gt_name t) ->
  Forall2 (fun a b => fst a = fst b /\ rendered (path_graphql (e_ext e) (e_ctx e)) (snd a) (snd b))
    (match gt_args t with Some l => l | None => [] end) args ->
  (forall n v, In (n, v) args -> every json_plain n /\ every ordinary v) ->
  ordinary_field f -> plain_related (gt_related t) ->
  forall sel, match gt_selection t with
              | Some s => json_chars s sel
              | None => sel = match format_selection_set (fun s => s) (s_selection (from_jit_field f)) (gt_related t) with Some s => s | None => "" end
              end ->
  q_method q = "POST" /\ exists body, q_body q = Some body /\ carries body (asked (gt_kind t) (gt_name t) args (f_directives f) sel).
Proof.
  intros E K N F A O P sel Q. unfold gql_request in E. destruct (parse_url parse_base (gt_url t)) as [u|]; [|discriminate]. injection E as <-.
  split; [reflexivity|]. eexists. split; [reflexivity|]. rewrite <- operation_asked.
  assert (X : rendered_args t e = args).
  { unfold rendered_args. destruct (gt_args t) as [l|]; [|inversion F; reflexivity]. clear -F.
    induction F as [|[n m] [n' v] l l' [H1 H2] F IH]; [reflexivity|]. cbn [map fst snd] in *. subst n'. rewrite IH. f_equal. f_equal.
    unfold render_graphql. now apply render_rendered. }
  rewrite <- X. apply gql_carries; auto. now rewrite X.
Qed.

(** After a backslash only a few characters may follow. *)
Fixpoint scan (escaped : bool) (s : string) : bool :=
  match s with
  | EmptyString => negb escaped
  | String c t =>
      if escaped then (existsb (fun x => Ascii.eqb c (fst x)) json_escapes || Ascii.eqb c "u") && scan false t
      else if Ascii.eqb c "\" then scan true t else json_plain c && scan false t
  end.
Lemma hex_plain a x : hex_value a = Some x -> json_plain a = true /\ Ascii.eqb a "\" = false.
Proof. destruct a as [[] [] [] [] [] [] [] []]; intros H; try discriminate H; split; reflexivity. Qed.
Lemma json_scan s t : json_chars s t -> scan false s = true.
Proof.
  induction 1 as [|c s t P H IH|c d s t I H IH|a b x y s t A B X H IH].
  - reflexivity.
  - cbn. destruct (Ascii.eqb_spec c "\") as [->|_]; [discriminate|]. now rewrite P.
  - change (scan false (String "\" (String c s))) with ((existsb (fun x => Ascii.eqb c (fst x)) json_escapes || Ascii.eqb c "u") && scan false s)%bool.
    rewrite IH, andb_true_r. apply orb_true_iff. left. apply existsb_exists. exists (c, d). split; [exact I|]. apply Ascii.eqb_refl.
  - destruct (hex_plain _ _ A) as [A1 A2], (hex_plain _ _ B) as [B1 B2].
    cbn. rewrite A2, A1, B2, B1. exact IH.
Qed.

(** * Selections *)
Lemma format_args_client l :
  format_args (fun s => s) (flat_map (fun a => match snd a with Some v => [(fst a, v)] | None => [] end) l) =
  match flat_map (fun a => match snd a with Some v => [fst a ++ ": " ++ v] | None => [] end) l with
  | [] => ""
  | l => "(" ++ join "," l ++ ")"
  end.
Proof.
  unfold format_args.
  assert (E : map (fun a : string * string => fst a ++ ": " ++ snd a)
     (flat_map (fun a => match snd a with Some v => [(fst a, v)] | None => [] end) l) =
     flat_map (fun a => match snd a with Some v => [fst a ++ ": " ++ v] | None => [] end) l).
  { induction l as [|[n [v|]] l IH]; cbn [flat_map map app fst snd]; [reflexivity| |exact IH]. now rewrite IH. }
  rewrite <- E. destruct (flat_map (fun a => match snd a with Some v => [(fst a, v)] | None => [] end) l); reflexivity.
Qed.

Lemma applies_meant T g : applies T g = meant_for T g.
Proof. unfold applies, meant_for. destruct (f_condition g); reflexivity. Qed.
Lemma braces_text l : braces l = selection_text l.
Proof. destruct l; reflexivity. Qed.
Lemma format_client f : forall rel, covered rel f ->
  format_field (fun s => s) (from_jit_field f) (f_name f) rel = client_text f.
Proof.
  induction f as [f IH] using gfield_nest. intros rel C. inversion C as [rel' f' O S1 Er Ef]; subst rel' f'.
  destruct f as [n o t c a d l]. cbn [f_name f_output f_type f_condition f_args f_directives f_selection] in *.
  cbn [from_jit_field format_field client_text f_name f_output f_type f_condition f_args f_directives f_selection
       s_name s_args s_directives s_selection].
  rewrite format_args_client. f_equal. f_equal. f_equal.
  assert (E : flat_map (fun g => match related_get rel (s_name g) with Some (n, r) => [format_field (fun s => s) g n r] | None => [] end)
     (flat_map (fun g => if applies t g then [from_jit_field g] else []) l) =
     flat_map (fun g => if meant_for t g then [client_text g] else []) l).
  { clear C a d. induction l as [|g l IHl]; [reflexivity|]. cbn [flat_map]. rewrite flat_map_app, IHl.
    - f_equal. rewrite applies_meant. destruct (meant_for t g) eqn:Ap; [|reflexivity]. destruct (S1 g) as (r & R & Cg); [now left|assumption|].
      cbn [flat_map app]. inversion Cg as [rel' f' Og _ Er Ef]; subst.
      replace (s_name (from_jit_field g)) with (f_name g) by (rewrite <- Og; destruct g; reflexivity).
      rewrite R. cbn [app]. f_equal. apply IH; [now left|assumption].
    - intros h I. apply IH. now right.
    - intros h I. apply S1. now right. }
  rewrite E. destruct (flat_map (fun g => if meant_for t g then [client_text g] else []) l); reflexivity.
Qed.

Lemma selection_client f rel : covered rel f ->
  format_selection_set (fun s => s) (s_selection (from_jit_field f)) rel =
  selection_text (map client_text (filter (meant_for (f_type f)) (f_selection f))).
Proof.
  intros C. rewrite <- braces_text. inversion C as [rel' f' O S1 Er Ef]; subst rel' f'. unfold format_selection_set. f_equal.
  destruct f as [n o t c a d l]. cbn in *. clear C. induction l as [|g l IHl]; [reflexivity|]. cbn [flat_map filter].
  rewrite applies_meant. destruct (meant_for t g) eqn:Ap; cbn [app flat_map map].
  - destruct (S1 g) as (r & R & Cg); [now left|assumption|]. inversion Cg as [rel' f' Og _ Er Ef]; subst.
    replace (s_name (from_jit_field g)) with (f_name g) by (rewrite <- Og; destruct g; reflexivity).
    rewrite R. cbn [app]. f_equal; [now apply format_client|]. apply IHl. intros h I. apply S1. now right.
  - apply IHl. intros h I. apply S1. now right.
Qed.

Lemma quoted_inj a : forall b, a ++ """ }" = b ++ """ }" -> a = b.
Proof.
  assert (L : forall x y, String.length (x ++ y) = String.length x + String.length y).
  { intros x y. induction x as [|c x IH]; cbn; [reflexivity|]. now rewrite IH. }
  intros b E. pose proof (f_equal String.length E) as N. rewrite !L in N.
  revert b E N. induction a as [|c a IH]; intros [|d b] E N; cbn in N; try lia; [reflexivity|].
  injection E as -> E. f_equal. apply IH; [exact E|cbn; lia].
Qed.

(** * Requests as configured *)
Lemma e_render_rendered e m : rendered (e_string e) m (e_render e m).
Proof. now apply render_rendered. Qed.
Lemma rendered_e_render e m s : rendered (e_string e) m s -> s = e_render e m.
Proof. intros R. apply render_rendered in R. now subst s. Qed.

Lemma http_sent parse_base form_text t e r : to_request parse_base form_text t e = Ok r ->
  q_method r = t_method t /\
  (exists u, create_url parse_base t e = Ok u /\ q_url r = url_text u) /\
  match t_body t with
  | None => q_body r = None
  | Some m => exists s, rendered (e_string e) m s /\
                (if t_form t then exists f, form_text s = Some f /\ q_body r = Some f else q_body r = Some s)
  end.
Proof.
  unfold to_request, create_body. destruct (create_url parse_base t e) as [u|]; [|discriminate]. cbn [rbind].
  destruct (t_body t) as [m|].
  - destruct (t_form t).
    + destruct (form_text (e_render e m)) as [f|] eqn:F; [|discriminate]. cbn. intros [= <-]. cbn.
      split; [reflexivity|]. split; [eauto|]. exists (e_render e m). split; [apply e_render_rendered|]. eauto.
    + cbn. intros [= <-]. cbn. split; [reflexivity|]. split; [eauto|]. exists (e_render e m). split; [apply e_render_rendered|reflexivity].
  - cbn. intros [= <-]. cbn. split; [reflexivity|]. split; [eauto|reflexivity].
Qed.

Lemma url_none parse_base t e : (exists x, create_url parse_base t e = Err x) <-> parse_url parse_base (e_render e (t_root t)) = None.
Proof.
  unfold create_url. destruct (parse_url parse_base (e_render e (t_root t))) as [u|].
  - split; [|discriminate]. intros [x X]. destruct (_ && _)%bool; discriminate.
  - split; [reflexivity|]. eauto.
Qed.

Lemma http_not_sent parse_base form_text t e :
  (forall r, to_request parse_base form_text t e <> Ok r) <->
  (forall s, rendered (e_string e) (t_root t) s -> parse_url parse_base s = None) \/
  (exists m s, t_body t = Some m /\ t_form t = true /\ rendered (e_string e) m s /\ form_text s = None).
Proof.
  pose proof (url_none parse_base t e) as U. unfold to_request, create_body. destruct (create_url parse_base t e) as [u|x]; cbn [rbind].
  - assert (V : parse_url parse_base (e_render e (t_root t)) <> None) by (intros X; apply U in X as [y X]; discriminate).
    split.
    + intros H. right. destruct (t_body t) as [m|]; [|exfalso; exact (H _ eq_refl)].
      destruct (t_form t); [|exfalso; exact (H _ eq_refl)]. exists m, (e_render e m).
      split; [reflexivity|]. split; [reflexivity|]. split; [apply e_render_rendered|].
      destruct (form_text (e_render e m)); [exfalso; exact (H _ eq_refl)|reflexivity].
    + intros [H|(m & s & B & F & R & N)] r.
      * exfalso. apply V. apply H. apply e_render_rendered.
      * rewrite B, F. apply rendered_e_render in R. subst s. rewrite N. discriminate.
  - split; [|discriminate]. intros _. left. intros s R. apply rendered_e_render in R. subst s. apply U. eauto.
Qed.

Lemma grpc_sent parse_base t e r : grpc_request parse_base t e = Ok r ->
  q_method r = "POST" /\
  (exists s u, rendered (e_string e) (g_url t) s /\ parse_url parse_base s = Some u /\ q_url r = url_text u) /\
  match g_body t with
  | None => q_body r = Some "{}"
  | Some m => exists s, rendered (e_string e) m s /\ q_body r = Some s
  end.
Proof.
  unfold grpc_request, grpc_url, grpc_body. destruct (parse_url parse_base (e_render e (g_url t))) as [u|] eqn:U; [|discriminate].
  cbn. intros [= <-]. cbn. split; [reflexivity|]. split.
  - exists (e_render e (g_url t)), u. split; [apply e_render_rendered|]. auto.
  - destruct (g_body t); [|reflexivity]. eexists. split; [apply e_render_rendered|reflexivity].
Qed.
