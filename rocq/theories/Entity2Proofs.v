(** More for C66: the transformation, and that the key is enough to make the call. *)
From Coq Require Import String Ascii ZArith NArith Arith Bool Lia List.
From Verif Require Import Base Ordered OrderedFacts BaseFacts JsonModel TypeModel ConfigModel MustacheModel MustacheSpec MustacheProofs
  ComposeModel CtxModel RequestModel FieldSpec Field2Proofs EntityModel EntitySpec EntityProofs.
Import ListNotations.
Open Scope string_scope.
Open Scope list_scope.

Lemma flat_map_ext_in' {A B} (f g : A -> list B) l : (forall a, In a l -> f a = g a) -> flat_map f l = flat_map g l.
Proof. intros H. rewrite !flat_map_concat_map. f_equal. now apply map_ext_in. Qed.

Section Enough.
  Variable json_text : value -> string.

  Lemma found_get v p x : get_path_value v p = Some x <-> found v p x.
  Proof.
    rewrite get_path_value_same. split.
    - exact (proj1 (path_found p v x)).
    - exact (proj2 (path_found p v x)).
  Qed.

  Lemma render_ext f g (m : mustache) : (forall p, In (Expression p) m -> f p = g p) -> render f m = render g m.
  Proof.
    intros H. unfold render. f_equal. apply map_ext_in. intros [t|p] I; [reflexivity|]. now rewrite H.
  Qed.
  Lemma first_value_ext e1 e2 m : e_ext e1 = e_ext e2 ->
    (forall p, In (Expression p) m -> to_raw_value (e_ext e1) (e_ctx e1) p = to_raw_value (e_ext e1) (e_ctx e2) p) ->
    first_value e1 m = first_value e2 m.
  Proof.
    intros E H. induction m as [|[t|p] m IH]; cbn; [reflexivity|reflexivity|].
    rewrite (H p (or_introl eq_refl)), <- E. rewrite IH; [reflexivity|]. intros q I. apply H. now right.
  Qed.

  Section Two.
    Variables (url : string) (body : option value) (hs query : list (string * string)).
    Local Notation d := (DHttp url body hs query).
    Variables (rx : req_ext) (hd : HeadersModel.headers) (c : ctx) (v1 v2 : value).
    Let e1 := {| e_ext := rx; e_ctx := with_value v1 c; e_headers := hd |}.
    Let e2 := {| e_ext := rx; e_ctx := with_value v2 c; e_headers := hd |}.
    Hypothesis noargs : forall s, text_of json_text s d -> ~ uses_args s.
    Hypothesis agree : forall p x, used json_text d p -> found v1 p x <-> found v2 p x.

    Lemma raw_same s p : text_of json_text s d -> In (Expression p) (parse s) ->
      to_raw_value rx (with_value v1 c) p = to_raw_value rx (with_value v2 c) p.
    Proof.
      intros T I. apply in_parse in I. destruct I as (segs & W & I).
      assert (G : forall q, p = "value" :: q -> get_path_value v1 q = get_path_value v2 q).
      { intros q ->. assert (U : used json_text d q). { exists s. split; [exact T|]. exists segs. auto. }
        destruct (get_path_value v1 q) as [x|] eqn:E1.
        - apply found_get, (agree _ _ U), found_get in E1. auto.
        - destruct (get_path_value v2 q) as [x|] eqn:E2; [|reflexivity]. apply found_get, (agree _ _ U), found_get in E2. congruence. }
      assert (A : forall q, p <> "args" :: q). { intros q ->. apply (noargs s T). exists segs, q. auto. }
      destruct p as [|h [|t0 q]]; cbn [to_raw_value]; [reflexivity| |].
      - destruct (String.eqb_spec h "value") as [-> |].
        + unfold path_value. cbn. reflexivity || (specialize (G [] eq_refl); cbn in G; now injection G as ->).
        + destruct (String.eqb_spec h "args") as [-> |]; [now elim (A [])|]. reflexivity.
      - destruct (String.eqb_spec h "value") as [-> |].
        + unfold path_value. cbn [with_value c_over_value]. now rewrite (G _ eq_refl).
        + destruct (String.eqb_spec h "args") as [-> |]; [now elim (A (t0 :: q))|]. reflexivity.
    Qed.
    Lemma render_same s : text_of json_text s d -> e_render e1 (parse s) = e_render e2 (parse s).
    Proof.
      intros T. unfold e_render. apply render_ext. intros p I. unfold e_string, path_string. cbn. now rewrite (raw_same s p T I).
    Qed.
    Lemma request_same parse_base form_text t : made_of json_text url body hs query t ->
      to_request parse_base form_text t e1 = to_request parse_base form_text t e2.
    Proof.
      intros (R & Q & H & B).
      assert (U : create_url parse_base t e1 = create_url parse_base t e2).
      { unfold create_url. rewrite R, (render_same url) by (constructor; auto).
        destruct (UrlModel.parse_url parse_base (e_render e2 (parse url))) as [u|]; [|reflexivity].
        match goal with |- (if ?b then _ else _) = _ => destruct b end; [reflexivity|].
        assert (X : flat_map (extra_param t e1) (t_query t) = flat_map (extra_param t e2) (t_query t)).
        { apply flat_map_ext_in'. intros q I.
          assert (J : exists s, In (qy_key q, s) query /\ qy_value q = parse s).
          { apply (in_map (fun q => (qy_key q, qy_value q))) in I. rewrite Q in I. apply in_map_iff in I. destruct I as ([k s] & E & I).
            cbn in E. injection E as E1 E2. exists s. rewrite <- E1. auto. }
          destruct J as (s & J & E). unfold extra_param. rewrite E.
          rewrite (first_value_ext e1 e2 (parse s) eq_refl); [reflexivity|].
          intros p I'. apply (raw_same s p); [|exact I']. constructor. right. right. right. exists (qy_key q), s. auto. }
        now rewrite X. }
      unfold to_request. rewrite U.
      assert (BB : create_body form_text t e1 = create_body form_text t e2).
      { unfold create_body. rewrite B. pose proof render_same as RS. destruct body as [v|]; cbn [option_map]; [|reflexivity].
        rewrite (RS (json_text v)); [reflexivity|]. constructor. right. left. eauto. }
      assert (HH : rendered_headers t e1 = rendered_headers t e2).
      { unfold rendered_headers. rewrite H, !map_map. apply map_ext_in. intros [k s] I. cbn [fst snd]. f_equal.
        apply render_same. constructor. right. right. left. exists k, s. auto. }
      now rewrite BB, HH.
    Qed.
  End Two.

  Lemma key_enough url body hs query key paths rx hd c v1 v2 parse_base form_text t :
    extract_keys json_text (DHttp url body hs query) = Ok key -> key_paths key paths ->
    (forall p, In p paths <-> p <> [] /\ used json_text (DHttp url body hs query) p /\
       forall q, used json_text (DHttp url body hs query) (p ++ q) -> q = []) ->
    made_of json_text url body hs query t ->
    ~ used json_text (DHttp url body hs query) [] ->
    (forall p q, used json_text (DHttp url body hs query) p -> used json_text (DHttp url body hs query) (p ++ q) -> q = []) ->
    (forall p x, In p paths -> found v1 p x <-> found v2 p x) ->
    to_request parse_base form_text t {| e_ext := rx; e_ctx := with_value v1 c; e_headers := hd |} =
    to_request parse_base form_text t {| e_ext := rx; e_ctx := with_value v2 c; e_headers := hd |}.
  Proof.
    intros EX KP HP MO NW NP AG. destruct (key_exact json_text (DHttp url body hs query) key Logic.I EX) as [_ NA].
    apply (request_same url body hs query); auto. intros p x U. apply AG, HP. split; [intros ->; contradiction|]. split; [exact U|].
    intros q. now apply NP.
  Qed.
End Enough.

(** * The transformation *)
Lemma smem_push d t : with_directive d t (push_directive d t).
Proof.
  unfold push_directive, with_directive. destruct (smem d (t_directives t)) eqn:E.
  - left. apply smem_In in E. auto.
  - right. apply smem_false in E. auto.
Qed.
Lemma both_ok {A B} (x : checked A string) (y : checked B string) : (exists ab, both x y = Ok ab) <-> (exists a, x = Ok a) /\ (exists b, y = Ok b).
Proof.
  destruct x as [a|]; destruct y as [b|]; cbn; split; intros H;
    try (destruct H as [ab H]; discriminate); try (destruct H as [[? H] [? H']]; discriminate); eauto.
Qed.
Lemma rmap_ok {A B E} (f : A -> B) (x : result A E) : (exists b, rmap f x = Ok b) <-> exists a, x = Ok a.
Proof. destruct x; cbn; split; intros [y H]; try discriminate; eauto. Qed.
Lemma each_some {A B} (f : A -> checked B string) l : (exists bs, each f l = Ok bs) <-> forall a, In a l -> exists b, f a = Ok b.
Proof.
  induction l as [|a l IH]; cbn.
  - split; [intros _ a []|eauto].
  - split.
    + intros [bs H]. destruct (f a) as [b|] eqn:E; destruct (each f l) as [r|] eqn:R; try discriminate.
      intros x [<- | I]; [eauto|]. apply IH; eauto.
    + intros H. destruct (H a (or_introl eq_refl)) as [b ->]. destruct (proj2 IH) as [bs ->]; [auto|]. eauto.
Qed.

Lemma validate_iter_ok c p : forall n, (exists u, validate_iter (c_types c) n p = Ok u) <-> declared c n p.
Proof.
  induction p as [|k p IH]; intros n; cbn [validate_iter].
  - split; [constructor|eauto].
  - split.
    + destruct (oget scmp n (c_types c)) as [t|] eqn:T.
      * destruct (oget scmp k (t_fields t)) as [f|] eqn:F.
        -- intros H. apply IH in H. econstructor; eauto.
        -- intros H. apply rmap_ok, both_ok in H. destruct H as [[u H] _]. discriminate.
      * intros H. apply rmap_ok, both_ok in H. destruct H as [[u H] _]. discriminate.
    + intros H. inversion H as [|n' t k' f p' T F D]; subst. unfold find_type in T. rewrite T, F. now apply IH.
Qed.
Lemma validate_expressions_ok c n s : (exists u, validate_expressions (c_types c) n (parse s) = Ok u) <-> forall p, uses s p -> declared c n p.
Proof.
  unfold validate_expressions. etransitivity; [apply rmap_ok|]. etransitivity; [apply each_some|]. split.
  - intros H p (segs & W & I). destruct p as [|h p]; [constructor|].
    assert (J : In (Expression ("value" :: h :: p)) (parse s)) by (apply in_parse; eauto).
    specialize (H _ J). cbn in H. now apply validate_iter_ok.
  - intros H [t|[|h [|k p]]] I; try (eexists; reflexivity). destruct (String.eqb_spec h "value") as [-> |]; [|eauto].
    apply validate_iter_ok. apply H. apply in_parse in I. destruct I as (segs & W & I). exists segs. auto.
Qed.

Section Subgraph.
  Variable json_text : value -> string.
  Variable details_of : resolver -> details.
  Variable key_directive : string -> string.
  Local Notation entity_type := (entity_type json_text details_of key_directive).
  Local Notation subgraph := (subgraph json_text details_of key_directive).

  Local Notation known := (known details_of).

  Lemma entity_as c n t t' n' : known c -> In (n, t) (c_types c) -> entity_type (c_types c) (n, t) = Ok (n', t') ->
    n' = n /\ as_entity json_text details_of key_directive t t'.
  Proof.
    intros K I. unfold EntityModel.entity_type. destruct (t_resolvers t) as [|r [|]] eqn:R; try discriminate.
    - intros H. injection H as <- <-. split; [reflexivity|]. left. auto.
    - intros H. destruct (validate (c_types c) (details_of r) n) as [u|]; [|discriminate]. cbn [and_then rbind] in H.
      destruct (extract_keys json_text (details_of r)) as [key|] eqn:E; [|discriminate]. cbn in H. injection H as <- <-.
      split; [reflexivity|]. right. exists r. split; [exact R|].
      assert (IR : In r (t_resolvers t)) by (rewrite R; now left).
      destruct (K n t r I IR) as [D | RD].
      + left. split; [exact D|]. rewrite D in E. cbn in E. injection E as <-. reflexivity.
      + right. exists key. destruct (key_exact json_text _ _ RD E) as [KE _]. split; [exact KE|].
        destruct key as [text|]; [|reflexivity]. apply smem_push.
  Qed.
  Lemma entity_some c n t : known c -> In (n, t) (c_types c) ->
    (exists x, entity_type (c_types c) (n, t) = Ok x) <-> can_be_entity json_text details_of c n t.
  Proof.
    intros K I. unfold EntityModel.entity_type, can_be_entity. destruct (t_resolvers t) as [|r [|r' l]] eqn:R.
    - split; [auto|]. eauto.
    - assert (V : (exists u, validate (c_types c) (details_of r) n = Ok u) <->
        (forall url body hs query s p, details_of r = DHttp url body hs query ->
           s = url \/ (exists k, In (k, s) query) -> uses s p -> declared c n p)).
      { unfold validate. destruct (details_of r) as [url body hs query| | | | |].
        2-6: split; [intros _; discriminate|eauto].
        etransitivity; [apply rmap_ok|]. etransitivity; [apply both_ok|]. rewrite each_some, validate_expressions_ok. split.
        - intros [Q U] url' body' hs' query' s p E IS US. injection E as <- <- <- <-. destruct IS as [-> | (k & IS)]; [auto|].
          specialize (Q _ IS). cbn in Q. rewrite validate_expressions_ok in Q. auto.
        - intros H. split.
          + intros [k s] IS. cbn. apply validate_expressions_ok. intros p U. eapply H; [reflexivity|right; eauto|exact U].
          + intros p U. eapply H; [reflexivity|now left|exact U]. }
      assert (X : (exists key, extract_keys json_text (details_of r) = Ok key) <-> forall s, text_of json_text s (details_of r) -> ~ uses_args s).
      { assert (IR : In r (t_resolvers t)) by (rewrite R; now left).
        destruct (K n t r I IR) as [D | RD].
        - rewrite D. cbn. split; [|eauto]. intros _ s T. inversion T.
        - split.
          + intros [key E]. now apply (key_exact json_text _ _ RD E).
          + intros H. destruct (extract_keys json_text (details_of r)) as [key|es] eqn:E; [eauto|].
            destruct (key_fails json_text _ _ RD E) as (s & T & U). now elim (H s T). }
      split.
      + intros [x H]. right. exists r. split; [reflexivity|].
        destruct (validate (c_types c) (details_of r) n) as [u|] eqn:VE; [|discriminate]. cbn [and_then rbind] in H.
        destruct (extract_keys json_text (details_of r)) as [key|] eqn:E; [|discriminate]. split; [apply X; eauto|apply V; eauto].
      + intros [H | (r0 & E & A & B)]; [discriminate|]. injection E as <-.
        apply X in A. apply V in B. destruct A as [key ->], B as [u ->]. cbn. eauto.
    - split; [intros [x H]; discriminate|]. intros [H | (r0 & H & _)]; discriminate.
  Qed.

  Lemma types_after c types : known c -> each (entity_type (c_types c)) (c_types c) = Ok types ->
    forall n, match oget scmp n (c_types c), oget scmp n types with
              | Some t, Some t' => as_entity json_text details_of key_directive t t'
              | None, None => True
              | _, _ => False
              end.
  Proof.
    intros K H. apply each_ok in H. intros n.
    assert (G : forall l l', incl l (c_types c) -> Forall2 (fun a b => entity_type (c_types c) a = Ok b) l l' ->
      match oget scmp n l, oget scmp n l' with
      | Some t, Some t' => as_entity json_text details_of key_directive t t'
      | None, None => True
      | _, _ => False
      end).
    { clear H types. intros l l' J F. induction F as [|[k t] [k' t'] l l' E F IH]; cbn [oget]; [exact Logic.I|].
      destruct (entity_as c k t t' k' K (J _ (or_introl eq_refl)) E) as [-> A].
      destruct (scmp n k); [exact A| |]; (apply IH; intros x IX; apply J; now right). }
    apply G; [apply incl_refl|exact H].
  Qed.
  Lemma keys_after c types : known c -> each (entity_type (c_types c)) (c_types c) = Ok types -> map fst types = map fst (c_types c).
  Proof.
    intros K H. apply each_ok in H.
    assert (G : forall l l', incl l (c_types c) -> Forall2 (fun a b => entity_type (c_types c) a = Ok b) l l' -> map fst l' = map fst l).
    { intros l l' J F. induction F as [|[k t] [k' t'] l l' E F IH]; [reflexivity|].
      destruct (entity_as c k t t' k' K (J _ (or_introl eq_refl)) E) as [-> A]. cbn. f_equal. apply IH. intros x IX. apply J. now right. }
    apply G; [apply incl_refl|exact H].
  Qed.

  Lemma by_type_in l n r : In (n, r) (resolver_by_type l) <-> exists t rest, In (n, t) l /\ t_resolvers t = r :: rest.
  Proof.
    unfold resolver_by_type. rewrite in_flat_map. split.
    - intros ([n' t] & I & J). cbn in J. destruct (t_resolvers t) as [|r' rest] eqn:R; [destruct J|]. destruct J as [J | []]. injection J as <- <-. eauto.
    - intros (t & rest & I & R). exists (n, t). split; [exact I|]. cbn. rewrite R. now left.
  Qed.

  Lemma off c : ~ federated c -> subgraph c = Ok c.
  Proof.
    unfold federated, EntityModel.subgraph. destruct (s_federation (c_server c)) as [[]|]; congruence.
  Qed.
  Lemma subgraph_some c : known c -> federated c ->
    (exists c', subgraph c = Ok c') <-> forall n t, In (n, t) (c_types c) -> can_be_entity json_text details_of c n t.
  Proof.
    intros K FD. unfold federated in FD. unfold EntityModel.subgraph. rewrite FD. split.
    - intros [c' H]. destruct (each (entity_type (c_types c)) (c_types c)) as [types|] eqn:E; [|discriminate].
      intros n t I. apply (entity_some c n t K I). apply (proj1 (each_some (entity_type (c_types c)) (c_types c))); eauto.
    - intros H. destruct (proj2 (each_some (entity_type (c_types c)) (c_types c))) as [types E].
      { intros [n t] I. apply entity_some; auto. }
      rewrite E. cbn. eauto.
  Qed.

  (** The fields of the query type. *)
  Lemma subgraph_out c c' q : known c -> federated c -> own_query c q -> subgraph c = Ok c' ->
    exists types, each (entity_type (c_types c)) (c_types c) = Ok types /\
      let by_type := resolver_by_type (c_types c) in
      let types2 := add_to_type q "_service" service_field (oins scmp "_Service" service_type types) in
      c_types c' = match by_type with [] => types2 | _ => add_to_type q "_entities" (entities_field by_type) (oins scmp "_Any" empty_gtype types2) end /\
      c_unions c' = match by_type with [] => c_unions c | _ => oins scmp "_Entity" {| u_types := map fst by_type; u_doc := None |} (c_unions c) end /\
      c_enums c' = c_enums c /\ c_server c' = c_server c /\ c_upstream c' = c_upstream c /\ c_links c' = c_links c /\ c_telemetry c' = c_telemetry c /\
      r_query (c_schema c') = Some q /\ r_mutation (c_schema c') = r_mutation (c_schema c).
  Proof.
    intros K FD OQ H. unfold federated in FD. unfold EntityModel.subgraph in H. rewrite FD in H.
    destruct (each (entity_type (c_types c)) (c_types c)) as [types|] eqn:E; [|discriminate]. cbn [and_then rbind] in H.
    assert (Q : (match r_query (c_schema c) with Some q => q | None => "Query" end) = q).
    { destruct OQ as [-> | [-> ->]]; reflexivity. }
    rewrite Q in H. exists types. split; [reflexivity|]. injection H as <-. cbn zeta.
    destruct (resolver_by_type (c_types c)); cbn; repeat split; reflexivity.
  Qed.

  Lemma get_ins_other (n k : string) (t : gtype) l : n <> k -> oget scmp n (oins scmp k t l) = oget scmp n l.
  Proof. intros N. apply (oget_oins_other scmp scmp_order). exact N. Qed.
  Lemma get_ins_same (k : string) (t : gtype) l : oget scmp k (oins scmp k t l) = Some t.
  Proof. apply (oget_oins_same scmp scmp_order). Qed.

  Lemma type_out c c' q n : known c -> federated c -> own_query c q -> subgraph c = Ok c' ->
    ~ reserved n -> n <> q ->
    match find_type c n, find_type c' n with
    | Some t, Some t' => as_entity json_text details_of key_directive t t'
    | None, None => True
    | _, _ => False
    end.
  Proof.
    intros K FD OQ H NR NQ. destruct (subgraph_out c c' q K FD OQ H) as (types & E & CT & _).
    pose proof (types_after c types K E n) as G. unfold find_type. rewrite CT.
    assert (A : n <> "_Service" /\ n <> "_Any") by (unfold reserved in NR; split; intros ->; apply NR; auto).
    destruct A as [A1 A2].
    destruct (resolver_by_type (c_types c)); unfold add_to_type; rewrite ?get_ins_other by assumption; exact G.
  Qed.

  Lemma query_out c c' q : known c -> federated c -> own_query c q -> ~ reserved q -> subgraph c = Ok c' ->
    exists t t' tq,
      (find_type c q = Some t \/ find_type c q = None /\ t = empty_gtype) /\
      as_entity json_text details_of key_directive t t' /\ find_type c' q = Some tq /\
      t_directives tq = t_directives t' /\ t_resolvers tq = t_resolvers t' /\ t_protected tq = t_protected t' /\ t_added tq = t_added t' /\
      t_implements tq = t_implements t' /\ t_cache tq = t_cache t' /\ t_doc tq = t_doc t' /\
      (forall k, k <> "_service" -> k <> "_entities" -> oget scmp k (t_fields tq) = oget scmp k (t_fields t)) /\
      (exists f, oget scmp "_service" (t_fields tq) = Some f /\ f_resolvers f = [RService] /\ f_type f = TNamed "_Service" true /\ f_args f = [] /\ unadorned f) /\
      (resolver_by_type (c_types c) = [] -> oget scmp "_entities" (t_fields tq) = oget scmp "_entities" (t_fields t)) /\
      (resolver_by_type (c_types c) <> [] -> exists f, oget scmp "_entities" (t_fields tq) = Some f /\
          f_resolvers f = [REntity (resolver_by_type (c_types c))] /\ f_type f = TList (TNamed "_Entity" false) true /\
          (exists a, f_args f = [("representations", a)] /\ arg_type a = TList (TNamed "_Any" true) true /\ arg_modify a = None /\ arg_default a = None) /\ unadorned f).
  Proof.
    intros K FD OQ NR H. destruct (subgraph_out c c' q K FD OQ H) as (types & E & CT & _).
    pose proof (types_after c types K E q) as G.
    assert (A : q <> "_Service" /\ q <> "_Any") by (unfold reserved in NR; split; intros ->; apply NR; auto). destruct A as [A1 A2].
    assert (S1 : oget scmp q (oins scmp "_Service" service_type types) = oget scmp q types) by now apply get_ins_other.
    set (old := match oget scmp q (c_types c) with Some t => t | None => empty_gtype end).
    set (mid := match oget scmp q types with Some t => t | None => empty_gtype end).
    assert (AE : as_entity json_text details_of key_directive old mid).
    { unfold old, mid. destruct (oget scmp q (c_types c)), (oget scmp q types); try contradiction; [exact G|]. left. auto. }
    assert (FF : t_fields mid = t_fields old).
    { destruct AE as [[_ ->] | (r & _ & [[_ ->] | (key & _ & W)])]; try reflexivity. destruct key as [text|]; [|now rewrite W].
      destruct W as [[_ ->] | [_ ->]]; reflexivity. }
    assert (FO : forall (k k' : string) (f : field) l, k <> k' -> oget scmp k (oins scmp k' f l) = oget scmp k l)
      by (intros k k' f l N; apply (oget_oins_other scmp scmp_order); exact N).
    exists old, mid, (match resolver_by_type (c_types c) with
                      | [] => with_field "_service" service_field mid
                      | _ => with_field "_entities" (entities_field (resolver_by_type (c_types c))) (with_field "_service" service_field mid)
                      end).
    split; [unfold old, find_type; destruct (oget scmp q (c_types c)); auto|]. split; [exact AE|]. split.
    { unfold find_type. rewrite CT. unfold add_to_type. destruct (resolver_by_type (c_types c)).
      - now rewrite get_ins_same, S1.
      - rewrite get_ins_same. rewrite (get_ins_other q "_Any") by exact A2. now rewrite get_ins_same, S1. }
    destruct (resolver_by_type (c_types c)) as [|b bs] eqn:RB; cbn [with_field t_directives t_resolvers t_protected t_added t_implements t_cache t_fields];
      do 7 (split; [reflexivity|]); split.
    - intros k N1 N2. rewrite FO by exact N1. now rewrite FF.
    - split; [|split; [|congruence]].
      + exists service_field. split; [apply (oget_oins_same scmp scmp_order)|repeat split].
      + intros _. rewrite FO by discriminate. now rewrite FF.
    - intros k N1 N2. rewrite FO by exact N2. rewrite FO by exact N1. now rewrite FF.
    - split; [|split; [discriminate|]].
      + exists service_field. rewrite FO by discriminate. split; [apply (oget_oins_same scmp scmp_order)|repeat split].
      + intros _. exists (entities_field (b :: bs)). split; [apply (oget_oins_same scmp scmp_order)|]. split; [reflexivity|]. split; [reflexivity|]. split; [|repeat split]. eexists. repeat split.
  Qed.

  Lemma resolvers_listed c : osorted scmp (c_types c) -> (exists c', federated c /\ subgraph c = Ok c') -> known c ->
    forall n r, In (n, r) (resolver_by_type (c_types c)) <-> exists t, find_type c n = Some t /\ t_resolvers t = [r].
  Proof.
    intros SO (c' & FD & H) K n r. rewrite by_type_in. split.
    - intros (t & rest & I & R). exists t. split; [now apply (in_oget scmp scmp_order)|].
      assert (CB : can_be_entity json_text details_of c n t) by (apply (proj1 (subgraph_some c K FD)); eauto).
      destruct CB as [X | (r0 & X & _)]; [congruence|]. congruence.
    - intros (t & F & R). exists t, []. split; [now apply (oget_in scmp scmp_order)|exact R].
  Qed.

  Lemma entities_out c c' q : osorted scmp (c_types c) -> known c -> federated c -> own_query c q -> ~ reserved q -> subgraph c = Ok c' ->
    exists entries, lists_entities c entries /\
    exists t t' tq,
      (find_type c q = Some t \/ find_type c q = None /\ t = empty_gtype) /\
      as_entity json_text details_of key_directive t t' /\ find_type c' q = Some tq /\ same_but_fields t' tq /\
      (forall k, k <> "_service" -> k <> "_entities" -> oget scmp k (t_fields tq) = oget scmp k (t_fields t)) /\
      (exists f, oget scmp "_service" (t_fields tq) = Some f /\ f_resolvers f = [RService] /\ f_type f = TNamed "_Service" true /\ f_args f = [] /\ unadorned f) /\
      (entries = [] -> oget scmp "_entities" (t_fields tq) = oget scmp "_entities" (t_fields t) /\ c_unions c' = c_unions c) /\
      (entries <> [] ->
         (exists f, oget scmp "_entities" (t_fields tq) = Some f /\
            f_resolvers f = [REntity entries] /\ f_type f = TList (TNamed "_Entity" false) true /\
          (exists a, f_args f = [("representations", a)] /\ arg_type a = TList (TNamed "_Any" true) true /\ arg_modify a = None /\ arg_default a = None) /\ unadorned f) /\
         find_union c' "_Entity" = Some {| u_types := map fst entries; u_doc := None |} /\
         forall n, n <> "_Entity" -> find_union c' n = find_union c n).
  Proof.
    intros SO K FD OQ NR H. exists (resolver_by_type (c_types c)). split.
    { intros n r. apply resolvers_listed; eauto. }
    destruct (query_out c c' q K FD OQ NR H) as (t & t' & tq & A & B & C & D1 & D2 & D3 & D4 & D5 & D6 & D7 & E & G & I & J).
    destruct (subgraph_out c c' q K FD OQ H) as (types & _ & _ & U & _).
    exists t, t', tq. split; [exact A|]. split; [exact B|]. split; [exact C|]. split; [unfold same_but_fields; tauto|].
    split; [exact E|]. split; [exact G|]. split.
    - intros X. split; [auto|]. now rewrite X in U.
    - intros X. split; [auto|]. unfold find_union. destruct (resolver_by_type (c_types c)) as [|b bs]; [contradiction|]. rewrite U. split.
      + apply (oget_oins_same scmp scmp_order).
      + intros n N. apply (oget_oins_other scmp scmp_order). exact N.
  Qed.
  Lemma rest_out c c' : known c -> subgraph c = Ok c' ->
    c_enums c' = c_enums c /\ c_server c' = c_server c /\ c_upstream c' = c_upstream c /\ c_links c' = c_links c /\ c_telemetry c' = c_telemetry c /\
    r_mutation (c_schema c') = r_mutation (c_schema c) /\ r_subscription (c_schema c') = r_subscription (c_schema c).
  Proof.
    intros K H. unfold EntityModel.subgraph in H.
    destruct (match s_federation (c_server c) with Some b => b | None => false end); [|injection H as <-; repeat split].
    destruct (each (entity_type (c_types c)) (c_types c)) as [types|]; [|discriminate]. cbn [and_then rbind] in H.
    injection H as <-. destruct (resolver_by_type (c_types c)); repeat split.
  Qed.
  Lemma schema_out c c' q : known c -> federated c -> own_query c q -> subgraph c = Ok c' -> r_query (c_schema c') = Some q.
  Proof. intros K FD OQ H. destruct (subgraph_out c c' q K FD OQ H) as (types & _ & _ & _ & _ & _ & _ & _ & _ & Q & _). exact Q. Qed.
End Subgraph.
