(** Codecs for the settings of directives that satisfy the laws asked for in C85: settings as trees, and trees as words of two letters. *)
From Coq Require Import String Ascii ZArith NArith Bool Arith List.
From Verif Require Import Base StringFacts ConfigModel FedModel DocModel DocSpec PrSpec PrProofs SdlModel SdlSpec.
Import ListNotations.
Open Scope string_scope.
Open Scope list_scope.

Inductive tree := Leaf | Node (l r : tree).
Fixpoint word_of (t : tree) : string := match t with Leaf => "a" | Node l r => String "b" (word_of l ++ word_of r) end.
Fixpoint trees_of (s : string) : list tree :=
  match s with
  | "" => []
  | String c s => if Ascii.eqb c "a" then Leaf :: trees_of s else match trees_of s with l :: r :: st => Node l r :: st | _ => [] end
  end.
Lemma str_assoc (a b c : string) : ((a ++ b) ++ c = a ++ (b ++ c))%string.
Proof. induction a as [|x a IH]; [reflexivity|]. cbn. now rewrite IH. Qed.
Lemma trees_word t : forall s, trees_of (word_of t ++ s) = t :: trees_of s.
Proof. induction t as [|l IHl r IHr]; intros s; [reflexivity|]. cbn. rewrite str_assoc, IHl, IHr. reflexivity. Qed.
Lemma letters_app p a b : all_chars p (a ++ b) = (all_chars p a && all_chars p b)%bool.
Proof. induction a as [|x a IH]; [reflexivity|]. cbn. rewrite IH. now rewrite andb_assoc. Qed.
Lemma word_letters t : all_chars (fun c => letter c || digit c) (word_of t) = true.
Proof. induction t as [|l IHl r IHr]; [reflexivity|]. cbn. rewrite letters_app, IHl, IHr. reflexivity. Qed.
Lemma word_name t : is_name (word_of t).
Proof. destruct t as [|l r]; [reflexivity|]. unfold is_name. cbn. rewrite letters_app, !word_letters. reflexivity. Qed.
Lemma word_tokens t : tokens (word_of t) = Some [Word (word_of t)].
Proof. exact (t_name _ (word_name t)). Qed.
Lemma word_value t : value_text (word_of t).
Proof. exists [Word (word_of t)]. split; [apply word_tokens|reflexivity]. Qed.

(** Settings as trees and back *)
Record treed (A : Type) := { to : A -> tree; of : tree -> option A; back : forall a, of (to a) = Some a }.
Arguments to {A}. Arguments of {A}.
Definition texts {A} (k : treed A) : codec Args A := {| enc := fun a => [("value", word_of (to k a))]; dec := fun _ => Err [] |}.
Definition words {A} (k : treed A) : codec TArgs A :=
  {| enc := fun a => [("value", [Word (word_of (to k a))])];
     dec := fun l => match l with
                     | [(_, [Word w])] => match trees_of w with [t] => match of k t with Some a => Ok a | None => Err ["settings"] end | _ => Err ["word"] end
                     | _ => Err ["argument"]
                     end |}.
Lemma words_lawful {A} (k : treed A) : lawful (words k).
Proof. intros a. cbn. rewrite <- (str_app_nil_r (word_of (to k a))), trees_word. cbn. now rewrite back. Qed.
Lemma texts_written {A} (k : treed A) : writes (texts k) (words k).
Proof.
  intros a. split.
  - constructor; [split; [reflexivity|apply word_value]|constructor].
  - cbn. destruct (String.eqb_spec (word_of (to k a)) "null") as [E|_]; [destruct (to k a); discriminate|]. cbn. unfold value_tokens. now rewrite word_tokens.
Qed.

Definition as_unit : treed unit. Proof. refine {| to := fun _ => Leaf; of := fun _ => Some tt |}. now intros []. Defined.
Definition as_bool : treed bool.
Proof. refine {| to := fun b : bool => if b then Leaf else Node Leaf Leaf; of := fun t => Some match t with Leaf => true | _ => false end |}. now intros []. Defined.
Definition as_opt {A} (k : treed A) : treed (option A).
Proof.
  refine {| to := fun o => match o with None => Leaf | Some a => Node Leaf (to k a) end;
            of := fun t => match t with Leaf => Some None | Node _ x => option_map Some (of k x) end |}.
  intros [a|]; [|reflexivity]. cbn. now rewrite back.
Defined.
Definition as_pair {A B} (k : treed A) (k' : treed B) : treed (A * B).
Proof.
  refine {| to := fun p => Node (to k (fst p)) (to k' (snd p));
            of := fun t => match t with Leaf => None | Node x y => match of k x, of k' y with Some a, Some b => Some (a, b) | _, _ => None end end |}.
  intros [a b]. cbn. now rewrite !back.
Defined.
Definition as_list {A} (k : treed A) : treed (list A).
Proof.
  refine {| to := fix go l := match l with [] => Leaf | a :: l => Node (to k a) (go l) end;
            of := fix go t := match t with Leaf => Some [] | Node x y => match of k x, go y with Some a, Some l => Some (a :: l) | _, _ => None end end |}.
  induction a as [|a l IH]; [reflexivity|]. cbn. now rewrite back, IH.
Defined.
Definition as_iso {A B} (k : treed A) (f : B -> A) (g : A -> B) (E : forall b, g (f b) = b) : treed B.
Proof. refine {| to := fun b => to k (f b); of := fun t => option_map g (of k t) |}. intros b. rewrite back. cbn. now rewrite E. Defined.
Definition as_char : treed ascii.
Proof.
  refine (as_iso (as_list as_bool) (fun c => let '(Ascii a b c d e f g h) := c in [a; b; c; d; e; f; g; h])
    (fun l => match l with [a; b; c; d; e; f; g; h] => Ascii a b c d e f g h | _ => zero end) _).
  now intros [].
Defined.
Definition as_string : treed string.
Proof. refine (as_iso (as_list as_char) list_ascii_of_string string_of_list_ascii _). apply string_of_list_ascii_of_string. Defined.
Definition as_pos : treed positive.
Proof.
  refine {| to := fix go p := match p with xH => Leaf | xO p => Node Leaf (go p) | xI p => Node (Node Leaf Leaf) (go p) end;
            of := fix go t := match t with Leaf => Some xH | Node Leaf p => option_map xO (go p) | Node _ p => option_map xI (go p) end |}.
  induction a as [p IH|p IH|]; [| |reflexivity]; cbn; now rewrite IH.
Defined.
Definition as_Z : treed Z.
Proof.
  refine (as_iso (as_opt (as_pair as_bool as_pos)) (fun z => match z with Z0 => None | Zpos p => Some (true, p) | Zneg p => Some (false, p) end)
    (fun o => match o with None => Z0 | Some (true, p) => Zpos p | Some (false, p) => Zneg p end) _).
  now intros [].
Defined.
Definition as_ob := as_opt as_bool.
Definition as_oz := as_opt as_Z.
Definition as_os := as_opt as_string.
Definition as_ls := as_list as_string.
Notation "k * k'" := (as_pair k k').
Definition as_cors : treed cors_cfg.
Proof.
  refine (as_iso (as_ob * (as_ls * (as_ls * (as_ls * (as_ob * (as_ls * (as_oz * as_ls)))))))
    (fun c => (co_credentials c, (co_headers c, (co_methods c, (co_origins c, (co_private c, (co_expose c, (co_max_age c, co_vary c))))))))
    (fun x => let '(a, (b, (c, (d, (e, (f, (g, h))))))) := x in
       {| co_credentials := a; co_headers := b; co_methods := c; co_origins := d; co_private := e; co_expose := f; co_max_age := g; co_vary := h |}) _).
  now intros [].
Defined.
Definition as_kvs : treed (list key_value) := as_list (as_string * as_string).
Definition as_headers : treed headers_cfg.
Proof.
  refine (as_iso (as_ob * (as_kvs * (as_opt as_ls * (as_ob * as_opt as_cors))))
    (fun c => (h_cache_control c, (h_custom c, (h_experimental c, (h_set_cookies c, h_cors c)))))
    (fun x => let '(a, (b, (c, (d, e)))) := x in {| h_cache_control := a; h_custom := b; h_experimental := c; h_set_cookies := d; h_cors := e |}) _).
  now intros [].
Defined.
Definition as_routes : treed routes.
Proof. refine (as_iso (as_string * as_string) (fun r => (ro_status r, ro_graphql r)) (fun x => {| ro_status := fst x; ro_graphql := snd x |}) _). now intros []. Defined.
Definition as_server : treed server.
Proof.
  refine (as_iso (as_ob * (as_ob * (as_ob * (as_opt as_headers * (as_oz * (as_os * (as_ob * (as_ob * (as_ob * (as_oz * (as_ob * (as_ob * (as_opt as_oz * (as_ob * (as_kvs * (as_os * (as_oz * as_opt as_routes)))))))))))))))))
    (fun s => (s_enable_jit s, (s_apollo_tracing s, (s_batch_requests s, (s_headers s, (s_timeout s, (s_hostname s, (s_introspection s, (s_federation s, (s_pipeline_flush s, (s_port s,
              (s_query_validation s, (s_response_validation s, (s_script s, (s_showcase s, (s_vars s, (s_version s, (s_workers s, s_routes s))))))))))))))))))
    (fun x => let '(a, (b, (c, (d, (e, (f, (g, (h, (i, (j, (k, (l, (m, (n, (o, (p, (q, r))))))))))))))))) := x in
       {| s_enable_jit := a; s_apollo_tracing := b; s_batch_requests := c; s_headers := d; s_timeout := e; s_hostname := f; s_introspection := g; s_federation := h; s_pipeline_flush := i; s_port := j;
          s_query_validation := k; s_response_validation := l; s_script := m; s_showcase := n; s_vars := o; s_version := p; s_workers := q; s_routes := r |}) _).
  now intros [].
Defined.
Definition as_batch : treed batch.
Proof. refine (as_iso (as_Z * (as_ls * as_oz)) (fun b => (b_delay b, (b_headers b, b_max_size b))) (fun x => let '(a, (b, c)) := x in {| b_delay := a; b_headers := b; b_max_size := c |}) _). now intros []. Defined.
Definition as_upstream : treed upstream.
Proof.
  refine (as_iso (as_os * (as_opt as_ls * (as_opt as_batch * (as_oz * (as_oz * (as_ob * (as_oz * (as_oz * (as_ob * (as_oz * (as_oz * (as_os * (as_oz * (as_oz * (as_os * as_ob)))))))))))))))
    (fun u => (up_on_request u, (up_allowed_headers u, (up_batch u, (up_connect_timeout u, (up_http_cache u, (up_http2_only u, (up_keep_alive_interval u, (up_keep_alive_timeout u, (up_keep_alive_while_idle u,
              (up_pool_max_idle u, (up_pool_idle_timeout u, (up_proxy u, (up_tcp_keep_alive u, (up_timeout u, (up_user_agent u, up_verify_ssl u))))))))))))))))
    (fun x => let '(a, (b, (c, (d, (e, (f, (g, (h, (i, (j, (k, (l, (m, (n, (o, p))))))))))))))) := x in
       {| up_on_request := a; up_allowed_headers := b; up_batch := c; up_connect_timeout := d; up_http_cache := e; up_http2_only := f; up_keep_alive_interval := g; up_keep_alive_timeout := h;
          up_keep_alive_while_idle := i; up_pool_max_idle := j; up_pool_idle_timeout := k; up_proxy := l; up_tcp_keep_alive := m; up_timeout := n; up_user_agent := o; up_verify_ssl := p |}) _).
  now intros [].
Defined.
Definition as_telemetry : treed telemetry.
Proof. refine (as_iso (as_os * as_ls) (fun t => (te_export t, te_headers t)) (fun x => {| te_export := fst x; te_headers := snd x |}) _). now intros []. Defined.
Definition as_modify : treed modify.
Proof. refine (as_iso (as_os * as_ob) (fun t => (mod_name t, mod_omit t)) (fun x => {| mod_name := fst x; mod_omit := snd x |}) _). now intros []. Defined.
Definition as_protected : treed protected.
Proof. refine (as_iso (as_opt as_ls) prot_id (fun x => {| prot_id := x |}) _). now intros []. Defined.

Definition codecs_of (X : Type) (mk : forall A, treed A -> codec X A) (none : X) : codecs X := {|
  k_server := mk _ as_server; k_upstream := mk _ as_upstream; k_link := mk _ as_string; k_telemetry := mk _ as_telemetry;
  k_http := mk _ (as_ls * as_string); k_grpc := mk _ (as_ls * as_string); k_graphql := mk _ (as_bool * as_string);
  k_call := mk _ as_string; k_js := mk _ as_string; k_expr := mk _ as_string;
  k_modify := mk _ as_modify; k_omit := mk _ as_unit; k_cache := mk _ as_Z; k_protected := mk _ as_protected;
  k_discriminate := mk _ as_os; k_add_field := mk _ as_string; k_alias := mk _ as_ls;
  k_other_name := fun d => d; k_other_args := fun _ => none; k_other_of := fun n _ => Ok n |}.
Definition W85 : codecs Args := codecs_of Args (@texts) [].
Definition R85 : codecs TArgs := codecs_of TArgs (@words) [].
Lemma R85_lawful : lawful_codecs R85.
Proof. split; try apply words_lawful; [reflexivity|]. intros n a d E. now injection E as <-. Qed.
Lemma W85_writes : writes_all W85 R85.
Proof. split; try apply texts_written; [reflexivity|]. intros d. split; [constructor|reflexivity]. Qed.
