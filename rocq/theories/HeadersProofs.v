(** Proofs about header maps, allow-lists and CORS. *)
From Coq Require Import String Ascii ZArith NArith Bool Lia Arith List.
From Verif Require Import Base BaseFacts HeadersModel HeadersSpec.
Import ListNotations.
Open Scope string_scope.
Open Scope list_scope.

(** * Case *)
Lemma same_char_iff c d : same_char c d <-> lower_char c = lower_char d.
Proof.
  split.
  - intros [->|(k & L & [[-> ->]|[-> ->]])]; [reflexivity| |];
      unfold lower_char; rewrite !N_ascii_embedding by lia;
      destruct (N.leb_spec 65 (65 + k)), (N.leb_spec (65 + k) 90), (N.leb_spec 65 (97 + k)), (N.leb_spec (97 + k) 90);
      try lia; cbn [andb]; f_equal; lia.
  - unfold lower_char. intros H.
    assert (Bc : (N_of_ascii c < 256)%N) by apply N_ascii_bounded.
    assert (Bd : (N_of_ascii d < 256)%N) by apply N_ascii_bounded.
    destruct ((65 <=? N_of_ascii c) && (N_of_ascii c <=? 90))%N eqn:C;
    destruct ((65 <=? N_of_ascii d) && (N_of_ascii d <=? 90))%N eqn:D.
    + left. apply andb_true_iff in C as [C1 C2], D as [D1 D2]. apply N.leb_le in C1, C2, D1, D2.
      apply (f_equal N_of_ascii) in H. rewrite !N_ascii_embedding in H by lia.
      rewrite <- (ascii_N_embedding c), <- (ascii_N_embedding d). f_equal. lia.
    + right. apply andb_true_iff in C as [C1 C2]. apply N.leb_le in C1, C2.
      exists (N_of_ascii c - 65)%N. split; [lia|]. left. split.
      * replace (65 + (N_of_ascii c - 65))%N with (N_of_ascii c) by lia. symmetry. apply ascii_N_embedding.
      * rewrite <- H. f_equal. lia.
    + right. apply andb_true_iff in D as [D1 D2]. apply N.leb_le in D1, D2.
      exists (N_of_ascii d - 65)%N. split; [lia|]. right. split.
      * rewrite H. f_equal. lia.
      * replace (65 + (N_of_ascii d - 65))%N with (N_of_ascii d) by lia. symmetry. apply ascii_N_embedding.
    + left. exact H.
Qed.

Lemma same_name_iff a b : same_name a b <-> eq_ignore_case a b = true.
Proof.
  unfold eq_ignore_case. rewrite String.eqb_eq. split.
  - induction 1 as [|c d s t C _ IH]; cbn; [reflexivity|]. apply same_char_iff in C. congruence.
  - revert b. induction a as [|c s IH]; intros [|d t] H; cbn in H; try discriminate; [constructor|].
    injection H as H1 H2. constructor; [now apply same_char_iff|now apply IH].
Qed.

Lemma on_list_iff allowed n : on_list allowed n <-> existsb (fun a => eq_ignore_case a n) allowed = true.
Proof.
  unfold on_list. rewrite existsb_exists. split; intros (a & I & H); exists a; split; auto; now apply same_name_iff.
Qed.

(** * Maps *)
Lemma in_remove n h p : In p (h_remove n h) <-> In p h /\ fst p <> n.
Proof.
  unfold h_remove. rewrite filter_In, negb_true_iff, String.eqb_neq. intuition congruence.
Qed.

Lemma in_insert n v h p : In p (h_insert n v h) <-> p = (n, v) \/ (In p h /\ fst p <> n).
Proof.
  unfold h_insert. rewrite in_app_iff, in_remove. cbn. intuition.
Qed.

Lemma in_extend o h p : In p (h_extend o h) <-> In p o \/ (In p h /\ ~ In (fst p) (akeys o)).
Proof.
  unfold h_extend. rewrite in_app_iff, filter_In, negb_true_iff, smem_false. tauto.
Qed.

Lemma in_extend_opt o h p : In p (h_extend_opt o h) <-> In p h \/ o = Some p.
Proof.
  unfold h_extend_opt, h_append. destruct o as [[n v]|]; [|intuition discriminate].
  rewrite in_app_iff. cbn. intuition congruence.
Qed.

(** * Allow-list *)
Notation keep allowed k := (existsb (fun a => eq_ignore_case a k) allowed).

Lemma allowed_spec allowed hs : forall new k v,
  In (k, v) (fold_left (fun new kv => if keep allowed (fst kv) then h_insert (fst kv) (snd kv) new else new) hs new) <->
  (last_value hs k v /\ keep allowed k = true) \/ (In (k, v) new /\ (keep allowed k = false \/ ~ In k (map fst hs))).
Proof.
  induction hs as [|[n w] hs IH]; intros new k v; cbn [fold_left fst snd].
  - split.
    + intros I. right. split; [exact I|]. right. intros [].
    + intros [[(a & b & E & _) _]|[I _]]; [destruct a; discriminate|exact I].
  - rewrite IH. clear IH.
    assert (LV : forall u, last_value ((n, w) :: hs) k u <-> (last_value hs k u \/ (k = n /\ u = w /\ ~ In k (map fst hs)))).
    { intros u. split.
      - intros ([|p a] & b & E & N); cbn in E.
        + injection E as -> -> ->. right. auto.
        + assert (hs = a ++ (k, u) :: b) by congruence. left. exists a, b. auto.
      - intros [(a & b & -> & N)|(-> & -> & N)]; [exists ((n, w) :: a), b; auto|exists [], hs; auto]. }
    rewrite LV. cbn [map fst].
    destruct (keep allowed n) eqn:Kn.
    + rewrite in_insert. cbn [fst]. split.
      * intros [[L K]|[[E|[I N]] O]].
        -- left. auto.
        -- injection E as -> ->. destruct O as [O|O]; [congruence|]. left. auto.
        -- right. split; [exact I|]. destruct O as [O|O]; [auto|right; intros [->|J]; auto].
      * intros [[[L|(-> & -> & N)] K]|[I [O|O]]].
        -- left. auto.
        -- right. auto.
        -- right. split; [|auto]. right. split; [exact I|]. intros ->. congruence.
        -- right. split; [right|right; intros J; apply O; now right]. split; [exact I|]. intros ->. apply O. now left.
    + split.
      * intros [[L K]|[I O]]; [left; auto|]. right. split; [exact I|].
        destruct O as [O|O]; [auto|]. destruct (string_dec n k) as [->|N]; [auto|]. right. intros [->|J]; auto.
      * intros [[[L|(-> & -> & N)] K]|[I [O|O]]]; [left; auto|congruence|right; auto|].
        right. split; [exact I|]. right. intros J. apply O. now right.
Qed.

Lemma allowed_iff allowed hs k v :
  In (k, v) (create_allowed_headers hs allowed) <-> last_value hs k v /\ on_list allowed k.
Proof.
  unfold create_allowed_headers. rewrite allowed_spec, on_list_iff. split.
  - intros [H|[[] _]]. exact H.
  - intros H. now left.
Qed.

Lemma last_value_in hs k v : last_value hs k v -> In (k, v) hs.
Proof. intros (a & b & -> & _). apply in_app_iff. right. now left. Qed.

Lemma in_last_value hs k : In k (map fst hs) -> exists v, last_value hs k v.
Proof.
  induction hs as [|[n w] hs IH]; [intros []|]. intros I.
  destruct (in_dec string_dec k (map fst hs)) as [J|J].
  - destruct (IH J) as (v & a & b & -> & N). exists v, ((n, w) :: a), b. auto.
  - destruct I as [<-|I]; [|tauto]. exists w, [], hs. auto.
Qed.

Lemma nodup_last_value hs k v : NoDup (map fst hs) -> (In (k, v) hs <-> last_value hs k v).
Proof.
  intros D. split; [|apply last_value_in]. intros I. apply in_split in I as (a & b & ->).
  exists a, b. split; [reflexivity|]. rewrite map_app in D. cbn in D. apply NoDup_remove_2 in D.
  intros J. apply D. apply in_app_iff. auto.
Qed.

(** What is sent upstream. *)
Lemma set_headers_in get form cfg cl k v :
  In (k, v) (set_headers get form cfg cl) ->
  In (k, v) cl \/
  (~ In k (akeys cl) /\
   (In (k, v) cfg \/
    (get = false /\ k = "content-type" /\
     v = (if form then "application/x-www-form-urlencoded" else "application/json")))).
Proof.
  unfold set_headers. rewrite in_extend. intros [H|[H N]]; [auto|]. right. split; [exact N|].
  destruct get.
  - rewrite in_extend in H. destruct H as [H|[[] _]]. auto.
  - rewrite in_insert in H. destruct H as [H|[H _]].
    + injection H as -> ->. auto.
    + rewrite in_extend in H. destruct H as [H|[[] _]]. auto.
Qed.

Lemma set_headers_client get form cfg cl k v : In (k, v) cl -> In (k, v) (set_headers get form cfg cl).
Proof. intros I. unfold set_headers. apply in_extend. auto. Qed.

Lemma create_headers_in l k v : In (k, v) (create_headers l) -> In (k, v) l.
Proof.
  unfold create_headers.
  assert (G : forall new, In (k, v) (fold_left (fun new kv => match header_value (snd kv) with
            Some v => h_insert (fst kv) v new | None => new end) l new) -> In (k, v) l \/ In (k, v) new).
  { induction l as [|[n w] l IH]; intros new H; cbn [fold_left fst snd] in *; [auto|].
    apply IH in H as [H|H]; [left; now right|]. unfold header_value in H.
    destruct (all_chars value_char w); [|auto]. apply in_insert in H as [E|[H _]]; [|auto].
    left. left. congruence. }
  intros H. apply G in H as [H|[]]. exact H.
Qed.

(** * CORS *)
Lemma parse_value_ok s v : parse_value s = Ok v -> v = s.
Proof. unfold parse_value, header_value. destruct (all_chars value_char s); intros H; congruence. Qed.

Lemma parse_all l l' : mapM parse_value l = Ok l' -> l' = l.
Proof.
  revert l'. induction l as [|a l IH]; intros l' H; cbn in H; [congruence|].
  destruct (parse_value a) as [b|] eqn:P; [|discriminate]. apply parse_value_ok in P. subst.
  destruct (mapM parse_value l) as [bs|] eqn:M; [|discriminate]. injection H as <-. f_equal. now apply IH.
Qed.

Lemma wild_in l : existsb is_wildcard l = true <-> In "*" l.
Proof.
  rewrite existsb_exists. unfold is_wildcard. split.
  - intros (x & I & E). apply String.eqb_eq in E. congruence.
  - intros I. exists "*". split; [exact I|reflexivity].
Qed.

Record accepted (k : cors_config) (c : cors) : Prop := {
  ac_credentials : r_credentials c = match k_credentials k with Some b => b | None => false end;
  ac_origins : r_origins c = k_origins k;
  ac_headers : r_headers c = match k_headers k with [] => None | l => Some (String.concat ", " l) end;
  ac_methods : r_methods c = Some (match k_methods k with [] => "*" | l => String.concat ", " l end);
  ac_expose : r_expose c = Some (String.concat ", " (k_expose k));
  ac_usable : ensure_usable c = Ok tt
}.

Lemma cors_of_ok k c : cors_of k = Ok c -> accepted k c.
Proof.
  unfold cors_of. intros H.
  destruct (parse_value (String.concat ", " (k_headers k))) as [hs|] eqn:H1; [|discriminate].
  cbn [rbind] in H. destruct (parse_value (match k_methods k with [] => "*" | ms => String.concat ", " ms end)) as [ms|] eqn:H2; [|discriminate].
  cbn [rbind] in H. destruct (mapM parse_value (k_origins k)) as [os|] eqn:H3; [|discriminate].
  cbn [rbind] in H. destruct (parse_value (String.concat ", " (k_expose k))) as [ex|] eqn:H4; [|discriminate].
  cbn [rbind] in H. destruct (mapM parse_value (k_vary k)) as [vs|] eqn:H5; [|discriminate].
  cbn [rbind] in H. cbv zeta in H.
  match type of H with rbind (ensure_usable ?c0) _ = _ => set (c0' := c0) in H end.
  destruct (ensure_usable c0') as [[]|] eqn:H6; [|discriminate]. cbn [rbind] in H. injection H as <-.
  apply parse_value_ok in H1, H2, H4. apply parse_all in H3, H5. subst.
  split; try reflexivity; [|exact H6]. cbn. now destruct (k_headers k).
Qed.

Lemma usable_iff c : r_credentials c = true -> ensure_usable c = Ok tt ->
  r_headers c <> Some "*" /\ r_methods c <> Some "*" /\ ~ In "*" (r_origins c) /\ r_expose c <> Some "*".
Proof.
  intros C. unfold ensure_usable. rewrite C.
  destruct (match r_headers c with Some v => is_wildcard v | None => false end) eqn:A; [discriminate|].
  destruct (match r_methods c with Some v => is_wildcard v | None => false end) eqn:B; [discriminate|].
  destruct (existsb is_wildcard (r_origins c)) eqn:D; [discriminate|].
  destruct (match r_expose c with Some v => is_wildcard v | None => false end) eqn:E; [discriminate|].
  intros _. repeat split.
  - intros X. rewrite X in A. discriminate.
  - intros X. rewrite X in B. discriminate.
  - intros X. apply wild_in in X. congruence.
  - intros X. rewrite X in E. discriminate.
Qed.

Definition base_headers (c : cors) (r : http_request) : headers :=
  h_extend_opt (vary_header c)
    (h_extend_opt (allow_private_network c (q_headers r))
      (h_extend_opt (allow_credentials c)
        (h_extend_opt (allow_origin c (h_get "origin" (q_headers r))) []))).

Lemma base_in c r n v : In (n, v) (base_headers c r) ->
  (n = acao /\ h_get "origin" (q_headers r) = Some v /\ (In v (r_origins c) \/ In "*" (r_origins c))) \/
  (n = acac /\ v = "true" /\ r_credentials c = true) \/
  (n = "access-control-allow-private-network" /\ v = "true") \/
  n = "vary".
Proof.
  unfold base_headers. rewrite !in_extend_opt. intros [[[[[]|H]|H]|H]|H].
  - left. unfold allow_origin in H. destruct (h_get "origin" (q_headers r)) as [o|]; [|discriminate].
    destruct (existsb is_wildcard (r_origins c)) eqn:W.
    + injection H as <- <-. apply wild_in in W. auto.
    + destruct (smem o (r_origins c)) eqn:M; [|discriminate]. injection H as <- <-. apply smem_In in M. auto.
  - right. left. unfold allow_credentials in H. destruct (r_credentials c); [|discriminate].
    injection H as <- <-. auto.
  - right. right. left. unfold allow_private_network in H. destruct (r_private_network c); [|discriminate].
    destruct (h_get "access-control-request-private-network" (q_headers r)) as [x|]; [|discriminate].
    destruct (String.eqb x "true"); [|discriminate]. injection H as <- <-. auto.
  - right. right. right. unfold vary_header, named in H. destruct (r_vary c) as [|a l]; [discriminate|].
    destruct (header_value (String.concat ", " (a :: l))); [|discriminate]. congruence.
Qed.

Lemma with_cors_in c inner r n v : In (n, v) (with_cors c inner r) ->
  n <> "vary" ->
  In (n, v) (base_headers c r) \/
  (n = "access-control-allow-methods" /\ r_methods c = Some v /\ q_options r = true) \/
  (n = "access-control-allow-headers" /\ r_headers c = Some v /\ q_options r = true) \/
  (n = "access-control-expose-headers" /\ r_expose c = Some v /\ q_options r = false) \/
  (q_options r = false /\ In (n, v) inner).
Proof.
  unfold with_cors. fold (base_headers c r). intros H NV. destruct (q_options r).
  - rewrite !in_extend_opt in H. unfold named in H. destruct H as [[H|H]|H].
    + auto 9.
    + destruct (r_methods c) as [m|]; [|discriminate]. injection H as <- <-. auto 9.
    + destruct (r_headers c) as [m|]; [|discriminate]. injection H as <- <-. auto 9.
  - rewrite in_extend, in_remove, in_extend_opt in H. cbn [fst] in H. destruct H as [[[H|H] _]|[H _]].
    + auto 9.
    + unfold named in H. destruct (r_expose c) as [m|]; [|discriminate]. injection H as <- <-. auto 9.
    + destruct (h_get "vary" (h_extend_opt (named "access-control-expose-headers" (r_expose c)) (base_headers c r))) as [x|].
      * unfold h_append in H. apply in_app_iff in H as [H|[H|[]]]; [auto 9|]. congruence.
      * auto 9.
Qed.

(** C29 *)
Lemma origin_allowed k c inner r v :
  cors_of k = Ok c -> (forall x, ~ In (acao, x) inner) ->
  In (acao, v) (with_cors c inner r) ->
  h_get "origin" (q_headers r) = Some v /\ (In v (k_origins k) \/ In "*" (k_origins k)).
Proof.
  intros K I H. apply cors_of_ok in K as [A B C D E F].
  apply with_cors_in in H; [|discriminate].
  destruct H as [H|[[H _]|[[H _]|[[H _]|[_ H]]]]]; try discriminate.
  - apply base_in in H as [(_ & H1 & H2)|[(H & _)|[(H & _)|H]]]; try discriminate. rewrite <- B. auto.
  - now apply I in H.
Qed.

Lemma no_wildcards k c inner r :
  cors_of k = Ok c -> (forall n x, In n wildcard_headers -> ~ In (n, x) inner) -> (forall x, ~ In (acac, x) inner) ->
  In (acac, "true") (with_cors c inner r) ->
  forall n, In n wildcard_headers -> ~ In (n, "*") (with_cors c inner r).
Proof.
  intros K I Ic H n In1 J. apply cors_of_ok in K as [A B C D E F].
  assert (Cr : r_credentials c = true).
  { apply with_cors_in in H; [|discriminate].
    destruct H as [H|[[H _]|[[H _]|[[H _]|[_ H]]]]]; try discriminate; [|now apply Ic in H].
    apply base_in in H as [(H & _)|[(_ & _ & H)|[(H & _)|H]]]; try discriminate. exact H. }
  destruct (usable_iff c Cr F) as (U1 & U2 & U3 & U4).
  assert (NV : n <> "vary").
  { intros ->. cbn in In1. intuition discriminate. }
  apply with_cors_in in J; [|exact NV].
  destruct J as [J|[(_ & J & _)|[(_ & J & _)|[(_ & J & _)|[_ J]]]]]; try congruence.
  - apply base_in in J as [(_ & _ & [J|J])|[(_ & J & _)|[(_ & J)|J]]]; try discriminate; auto.
  - now apply I in J.
Qed.

(** Start-up refuses credentials next to a wildcard. *)
Lemma wildcard_refused k :
  k_credentials k = Some true -> In "*" (k_origins k) \/ k_methods k = [] \/ k_headers k = ["*"] \/ k_expose k = ["*"] ->
  is_ok (cors_of k) = false.
Proof.
  intros C H. destruct (cors_of k) as [c|] eqn:E; [|reflexivity]. exfalso.
  apply cors_of_ok in E as [A B H1 H2 H3 F]. rewrite C in A.
  destruct (usable_iff c A F) as (U1 & U2 & U3 & U4).
  destruct H as [H|[H|[H|H]]].
  - rewrite B in U3. auto.
  - rewrite H in H2. auto.
  - rewrite H in H1. auto.
  - rewrite H in H3. auto.
Qed.

(** An allowed origin is answered. *)
Lemma allowed_origin_answered k c inner r v :
  cors_of k = Ok c -> h_get "origin" (q_headers r) = Some v -> In v (k_origins k) \/ In "*" (k_origins k) ->
  In (acao, v) (with_cors c inner r).
Proof.
  intros K O H. apply cors_of_ok in K as [A B C D E F].
  assert (X : In (acao, v) (base_headers c r)).
  { unfold base_headers. rewrite !in_extend_opt. left. left. left. right. unfold allow_origin. rewrite O, B.
    destruct H as [H|H].
    - destruct (existsb is_wildcard (k_origins k)); [reflexivity|]. now rewrite (proj2 (smem_In _ _) H).
    - now rewrite (proj2 (wild_in _) H). }
  unfold with_cors. fold (base_headers c r). destruct (q_options r).
  - rewrite !in_extend_opt. auto.
  - rewrite in_extend, in_remove, in_extend_opt. left. split; [auto|discriminate].
Qed.

(** Without a configuration only the vendor's own site is answered. *)
Lemma no_cors_origin inner r v :
  (forall x, ~ In (acao, x) inner) -> In (acao, v) (without_cors inner r) ->
  v = tailcall_https /\ exists o, h_get "origin" (q_headers r) = Some o /\ (o = tailcall_https \/ o = tailcall_http).
Proof.
  intros I. unfold without_cors. destruct (h_get "origin" (q_headers r)) as [o|]; [|intros H; now apply I in H].
  destruct (String.eqb o tailcall_https || String.eqb o tailcall_http) eqn:E; [|intros H; now apply I in H].
  assert (O : o = tailcall_https \/ o = tailcall_http).
  { apply orb_true_iff in E as [E|E]; apply String.eqb_eq in E; auto. }
  destruct (q_options r).
  - intros [H|[H|[H|[]]]]; [|discriminate|discriminate]. injection H as <-. eauto.
  - rewrite in_insert. intros [H|[H _]]; [|now apply I in H]. injection H as ->. eauto.
Qed.
