(** Proofs about the command that generates configurations (C94). *)
From Coq Require Import String Ascii Bool List QArith.
From Verif Require Import Base LinksModel TgModel TgSpec TiProofs.
Import ListNotations.
Open Scope string_scope.
Open Scope list_scope.

(** * Relative paths *)
Lemma walk_app : forall a d b, walk d (a ++ b) = walk (walk d a) b.
Proof. induction a as [|n a IH]; intros d b; [reflexivity|]. cbn. apply IH. Qed.
Lemma walk_plain : forall p d, plain p -> walk d p = d ++ p.
Proof.
  induction p as [|n p IH]; intros d P; [now rewrite app_nil_r|]. cbn. destruct (String.eqb_spec n ".."); [subst; exfalso; apply P; now left|].
  rewrite IH; [now rewrite <- app_assoc|]. intros I. apply P. now right.
Qed.
Lemma up_snoc : forall d n, up (d ++ [n]) = d.
Proof. intros. unfold up. apply removelast_last. Qed.
Lemma walk_up : forall (b : list string) d, walk (d ++ b) (map (fun _ => "..") b) = d.
Proof.
  intros b. induction b as [|n b IH] using rev_ind; intros d; [cbn; apply app_nil_r|].
  rewrite map_app, app_assoc. cbn [map]. assert (E : forall A (l : list A), map (fun _ => "..") l ++ [".."] = ".." :: map (fun _ => "..") l) by (intros A l; induction l as [|x l H]; [reflexivity|cbn; now rewrite H]).
  rewrite E. cbn [walk]. rewrite String.eqb_refl, up_snoc. apply IH.
Qed.
Lemma diff_back : forall path base d r, plain path -> plain base -> diff_paths path base = Some r -> walk (d ++ base) r = d ++ path.
Proof.
  induction path as [|a path IH]; intros base d r P B.
  - assert (E : diff_paths [] base = Some (map (fun _ => "..") base)).
    { clear. induction base as [|b base E]; [reflexivity|]. cbn [diff_paths]. rewrite E. reflexivity. }
    rewrite E. intros [= <-]. rewrite walk_up, app_nil_r. reflexivity.
  - destruct base as [|b base]; cbn [diff_paths].
    + intros [= <-]. rewrite app_nil_r. now apply walk_plain.
    + destruct (String.eqb_spec a b) as [->|N].
      * intros D. specialize (IH base (d ++ [b]) r). rewrite <- !app_assoc in IH. apply IH; [intros I; apply P; now right|intros I; apply B; now right|exact D].
      * destruct (String.eqb_spec b "..") as [->|M]; [discriminate|]. intros [= <-].
        change (".." :: map (fun _ => "..") base ++ a :: path) with (map (fun _ : string => "..") (b :: base) ++ a :: path). rewrite walk_app, walk_up. now apply walk_plain.
Qed.
Lemma diff_some : forall path base, plain base -> exists r, diff_paths path base = Some r.
Proof.
  induction path as [|a path IH]; intros base B.
  - induction base as [|b base E]; [now exists []|]. cbn [diff_paths]. destruct E as (r & ->); [intros I; apply B; now right|]. eauto.
  - destruct base as [|b base]; cbn [diff_paths]; [eauto|]. destruct (String.eqb a b); [apply IH; intros I; apply B; now right|]. destruct (String.eqb_spec b "..") as [->|M]; [exfalso; apply B; now left|eauto].
Qed.

(** * Requests *)
Section Requests.
  Context {Json Meta Cfg Method : Type}.
  Variable url : string -> option string.
  Variable extension : string -> option string.
  Variable relative : option string -> string -> option string.
  Variable file : string -> option string.
  Variable read_proto : string -> option (list string) -> option Meta.
  Variable with_path : string -> Meta -> Meta.
  Variable parse_json : string -> option Json.
  Variable null : Json.
  Variable is_null : Json -> bool.
  Variable get : Method.
  Variable header_name header_value : string -> option string.
  Variable answer : list (event (Json := Json) (Cfg := Cfg) (Method := Method)) -> request (Json := Json) (Method := Method) -> option string.
  Notation io := (resolve_io url extension relative file read_proto with_path parse_json null is_null get header_name header_value answer).
  Notation input := (resolve_input url extension relative file read_proto with_path parse_json null is_null get header_name header_value answer).
  Notation rq := (curl_request url null is_null get header_name header_value).
  Hypothesis N : is_null null = true.

  Lemma headers_last : forall l acc hs n, header_map header_name header_value l acc = Some hs ->
    aget n hs = match last_header header_name header_value n l with Some v => Some v | None => aget n acc end.
  Proof.
    induction l as [|[k v] l IH]; intros acc hs n; cbn [header_map last_header]; [now intros [= ->]|].
    destruct (header_name k) as [k'|] eqn:K; [|discriminate]. destruct (header_value v) as [v'|] eqn:V; [|discriminate]. intros H. rewrite (IH _ _ n H). destruct (last_header _ _ n l); [reflexivity|].
    rewrite aget_aset. destruct (String.eqb_spec n k') as [->|D]; [now rewrite String.eqb_refl|]. destruct (String.eqb_spec k' n); [congruence|reflexivity].
  Qed.
  Lemma rq_asks : forall src h m b i f q, rq src h m b = Some q -> asks url is_null get header_name header_value (Curl src h m b i f) q.
  Proof.
    intros src h m b i f q. unfold curl_request. destruct (url src) as [u|] eqn:U; [|discriminate].
    destruct (match h with Some l => header_map header_name header_value l [] | None => Some [] end) as [hs|] eqn:H; [|discriminate]. intros [= <-]. cbn.
    split; [exact U|]. split; [reflexivity|]. split.
    - intros b'. destruct b as [b|]; [|rewrite N; split; [discriminate|intros []; discriminate]]. destruct (is_null b) eqn:E; split; try discriminate.
      + intros [[= ->] E']. congruence.
      + intros [= <-]. auto.
      + intros [[= ->] _]. reflexivity.
    - intros n. destruct h as [l|]; [|now injection H as <-]. rewrite (headers_last l [] hs n H). now destruct (last_header _ _ n l).
  Qed.
  Lemma requests_app : forall a b : list (event (Json := Json) (Cfg := Cfg) (Method := Method)), requests (a ++ b) = requests a ++ requests b.
  Proof. induction a as [|[] a IH]; intros b; cbn; rewrite ?IH; reflexivity. Qed.
  (** What an input adds: at most its request *)
  Lemma input_events : forall out ev s ev' r, input out ev s = (ev', r) ->
    (ev' = ev /\ (is_curl s = true -> r = None)) \/ (exists q, ev' = ev ++ [Asked q] /\ asks url is_null get header_name header_value s q).
  Proof.
    intros out ev s ev' r. destruct s as [src h m b i f|src u ps c|src]; cbn [resolve_input is_curl].
    - destruct (rq src h m b) as [q|] eqn:Q; intros [= <- <-]; [|left; auto]. right. exists q. split; [reflexivity|now apply rq_asks].
    - intros [= <- <-]. left. split; [reflexivity|discriminate].
    - intros [= <- <-]. left. split; [reflexivity|discriminate].
  Qed.
  Lemma io_events : forall out l ev ev' r, io out ev l = (ev', r) ->
    exists qs done rest, ev' = ev ++ map Asked qs /\ filter is_curl l = done ++ rest /\ Forall2 (asks url is_null get header_name header_value) done qs /\ (r <> None -> rest = []).
  Proof.
    intros out. induction l as [|s l IH]; intros ev ev' r; cbn [resolve_io].
    - intros [= <- <-]. exists [], [], []. cbn. rewrite app_nil_r. auto.
    - destruct (input out ev s) as [ev1 x] eqn:I. pose proof (input_events _ _ _ _ _ I) as C. cbn [filter].
      destruct x as [x|].
      + destruct (io out ev1 l) as [ev2 r2] eqn:O. intros [= <- <-]. destruct (IH _ _ _ O) as (qs & done & rest & -> & F & A & R).
        assert (R' : option_map (cons x) r2 <> None -> rest = []) by (intros X; apply R; now destruct r2).
        destruct C as [[-> C]|(q & -> & Q)].
        * destruct (is_curl s) eqn:E; [discriminate (C eq_refl)|]. exists qs, done, rest. auto.
        * assert (E : is_curl s = true) by (destruct s; [reflexivity|contradiction|contradiction]). rewrite E, F. exists (q :: qs), (s :: done), rest. cbn. rewrite <- app_assoc. auto.
      + intros [= <- <-]. destruct C as [[-> C]|(q & -> & Q)].
        * exists [], [], (if is_curl s then s :: filter is_curl l else filter is_curl l). cbn. rewrite app_nil_r. split; [reflexivity|]. split; [reflexivity|]. split; [constructor|now intros []].
        * assert (E : is_curl s = true) by (destruct s; [reflexivity|contradiction|contradiction]). rewrite E. exists [q], [s], (filter is_curl l). cbn. split; [reflexivity|]. split; [reflexivity|]. split; [repeat constructor; assumption|now intros []].
  Qed.
End Requests.
Lemma asked_only : forall {Json Cfg Method} (qs : list (request (Json := Json) (Method := Method))), requests (map (Asked (Cfg := Cfg)) qs) = qs.
Proof. intros. induction qs as [|q qs IH]; [reflexivity|]. cbn. now rewrite IH. Qed.
Lemma asked_no_writes : forall {Json Cfg Method} (qs : list (request (Json := Json) (Method := Method))) (e : event (Cfg := Cfg)), In e (map Asked qs) -> ~ writes e.
Proof. intros J C M qs e I. apply in_map_iff in I as (q & <- & _). now intros (p & t & E). Qed.

(** * The whole command *)
Section Whole.
  Context {Json Meta Cfg Method : Type}.
  Variable url extension canonical : string -> option string.
  Variable cwd : option string.
  Variable clean : string -> string.
  Variable relative : option string -> string -> option string.
  Variable file : string -> option string.
  Variable render : string -> string.
  Variable parse_config : doc_source -> string -> option (gen_config (Json := Json) (Method := Method)).
  Variable read_proto : string -> option (list string) -> option Meta.
  Variable with_path : string -> Meta -> Meta.
  Variable parse_json : string -> option Json.
  Variable null : Json.
  Variable is_null : Json -> bool.
  Variable get : Method.
  Variable header_name header_value : string -> option string.
  Variable answer : list (event (Json := Json) (Cfg := Cfg) (Method := Method)) -> request (Json := Json) (Method := Method) -> option string.
  Variable generated : preset -> string -> option string -> list (sample (Json := Json) (Meta := Meta) (Method := Method)) -> option Cfg.
  Variable inferred : list (event (Json := Json) (Cfg := Cfg) (Method := Method)) -> string -> option string -> Cfg -> option Cfg.
  Variable to_sdl : Cfg -> string.
  Variable exists_file : string -> bool.
  Variable agreed : string -> option bool.
  Variable written : string -> bool.
  Notation run := (generate url extension canonical cwd clean relative file render parse_config read_proto with_path parse_json null is_null get header_name header_value answer generated inferred to_sdl exists_file agreed written).
  Notation config_at := (read_gen url extension canonical cwd clean file render parse_config).
  Notation write := (write_gen (Json := Json) (Method := Method) extension to_sdl exists_file agreed written).
  Hypothesis N : is_null null = true.

  Lemma run_shape : forall cp ev r, run cp = (ev, r) -> (ev = [] /\ r = None) \/
    exists g qs done rest infs, config_at cp = Some g /\ filter is_curl (g_inputs g) = done ++ rest /\ Forall2 (asks url is_null get header_name header_value) done qs /\
      (forall e, In e infs -> exists m s c, e = Inferred m s c) /\
      ((ev = map Asked qs ++ infs /\ r = None) \/ (rest = [] /\ exists c ok, write (map Asked qs ++ infs) c (g_output g) = (ev, ok) /\ r = if ok then Some c else None)).
  Proof.
    intros cp ev r. unfold generate. destruct (config_at cp) as [g|]; [|intros [= <- <-]; auto].
    destruct (to_preset _) as [p|]; [|intros [= <- <-]; auto].
    destruct (resolve_io _ _ _ _ _ _ _ _ _ _ _ _ _ _ _ _) as [ev1 r1] eqn:IO. destruct (io_events _ _ _ _ _ _ _ _ _ _ _ _ _ N _ _ _ _ _ IO) as (qs & done & rest & -> & F & A & R). cbn [app] in *.
    intros G. right. exists g, qs, done, rest.
    destruct r1 as [samples|]; [|injection G as <- <-; exists []; rewrite app_nil_r; intuition contradiction].
    specialize (R ltac:(discriminate)). destruct (generated _ _ _ _) as [c|]; [|injection G as <- <-; exists []; rewrite app_nil_r; intuition contradiction].
    assert (W : forall evs c', (let '(ev0, ok) := write evs c' (g_output g) in (ev0, if ok then Some c' else None)) = (ev, r) -> exists c ok, write evs c (g_output g) = (ev, ok) /\ r = if ok then Some c else None).
    { intros evs c' H. destruct (write evs c' (g_output g)) as [e0 ok] eqn:E. injection H as <- <-. exists c', ok. auto. }
    destruct (if infer_type_names p then g_llm g else None) as [[[m|] s]|].
    - exists [Inferred m s c]. split; [reflexivity|]. split; [exact F|]. split; [exact A|]. split; [intros e [<-|[]]; eauto|]. destruct (inferred _ _ _ _) as [c'|].
      + right. split; [exact R|]. exact (W _ c' G).
      + left. injection G as <- <-. auto.
    - exists []. rewrite app_nil_r. split; [reflexivity|]. split; [exact F|]. split; [exact A|]. split; [now intros e []|]. right. split; [exact R|]. exact (W _ c G).
    - exists []. rewrite app_nil_r. split; [reflexivity|]. split; [exact F|]. split; [exact A|]. split; [now intros e []|]. right. split; [exact R|]. exact (W _ c G).
  Qed.
  Lemma write_shape : forall ev0 c p ev ok, write ev0 c p = (ev, ok) ->
    (ev = ev0 /\ ok = false) \/ (ev = ev0 ++ [Prompted p] /\ exists_file p = true /\ ((agreed p = None /\ ok = false) \/ (agreed p = Some false /\ ok = true))) \/
    (ok = written p /\ ((exists_file p = false /\ ev = ev0 ++ [Wrote p (to_sdl c)]) \/ (exists_file p = true /\ agreed p = Some true /\ ev = (ev0 ++ [Prompted p]) ++ [Wrote p (to_sdl c)]))).
  Proof.
    intros ev0 c p ev ok. unfold write_gen. destruct (detect extension p) as [[]|]; try (intros [= <- <-]; now left).
    destruct (exists_file p) eqn:X; [|intros [= <- <-]; right; right; auto].
    destruct (agreed p) as [[]|] eqn:G; intros [= <- <-].
    - right. right. split; [reflexivity|]. right. rewrite <- app_assoc. auto.
    - right. left. auto.
    - right. left. auto.
  Qed.
  Lemma before_no_writes : forall (qs : list (request (Json := Json) (Method := Method))) (infs : list (event (Json := Json) (Cfg := Cfg) (Method := Method))), (forall e, In e infs -> exists m s c, e = Inferred m s c) ->
    forall e, In e (map Asked qs ++ infs) -> ~ writes e.
  Proof. intros qs infs I e H. apply in_app_or in H as [H|H]; [now apply asked_no_writes in H|]. destruct (I e H) as (m & s & c & ->). now intros (p & t & E). Qed.
  Lemma before_requests : forall (qs : list (request (Json := Json) (Method := Method))) (infs : list (event (Json := Json) (Cfg := Cfg) (Method := Method))), (forall e, In e infs -> exists m s c, e = Inferred m s c) ->
    requests (map Asked qs ++ infs) = qs.
  Proof.
    intros qs infs I. rewrite requests_app, asked_only. assert (E : requests infs = []); [|now rewrite E, app_nil_r].
    induction infs as [|e infs IH]; [reflexivity|]. destruct (I e (or_introl eq_refl)) as (m & s & c & ->). cbn. apply IH. intros e H. apply I. now right.
  Qed.
End Whole.

(** * Places *)
Lemma join_folder : forall d p, d <> "" -> ends_with_slash d = false -> prefix "/" p = false -> join_path d p = (d ++ "/" ++ p)%string.
Proof. intros d p D E P. unfold join_path, is_absolute. rewrite P, E. destruct (String.eqb_spec d ""); [contradiction|reflexivity]. Qed.
Lemma prefix_slash_app : forall d p, d <> "" -> prefix "/" (d ++ p)%string = prefix "/" d.
Proof.
  intros [|a d] p D; [contradiction|]. change (String a d ++ p)%string with (String a (d ++ p)). assert (E : forall t, prefix "/" (String a t) = if ascii_dec "/" a then true else false) by (intros t; unfold prefix; destruct (ascii_dec "/" a); [now destruct t|reflexivity]). now rewrite !E.
Qed.
Lemma into_located : forall url real w clean d p, d <> "" -> ends_with_slash d = false -> prefix "/" d = false -> w <> "" -> ends_with_slash w = false ->
  located url real w clean d p (into_resolved url real (Some w) clean d p).
Proof.
  intros url real w clean d p D E R W V. unfold into_resolved. destruct (url p) as [u|] eqn:U; [exact (L_url _ _ _ _ _ _ u U)|]. cbn [orb]. unfold is_absolute. destruct (prefix "/" p) eqn:P.
  - destruct p as [|a p]; [discriminate|]. unfold prefix in P. destruct (ascii_dec "/" a) as [<-|]; [|discriminate]. apply (L_absolute url real w clean d p).
  - rewrite (join_folder d p D E P). destruct (real (d ++ "/" ++ p)%string) as [q|] eqn:Q; [now apply L_real|].
    rewrite join_folder; [now apply L_new|assumption|assumption|]. now rewrite prefix_slash_app.
Qed.
