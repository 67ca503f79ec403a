(** Flattening of types with a single field: theorems of property C78. *)
From Coq Require Import String Ascii ZArith NArith Bool Arith List Lia.
From Verif Require Import Base BaseFacts Ordered OrderedFacts JsonModel TypeModel ConfigModel BuilderModel AmbModel ComposeModel IrModel FieldModel FieldSpec FieldProps FlatModel FlatSpec FlatProofs.
Import ListNotations.
Open Scope string_scope.
Open Scope list_scope.

(** ** What flattening does *)
(** It ends if the input types can be told. *)
Theorem C78_ends walk c inputs : walk c = Some inputs -> exists c' added, flatten_single_field walk c = Some (c', added).
Proof.
  intros W. unfold flatten_single_field. rewrite W. destruct (types_result c inputs (c_types c)) as (ts & added & -> & _). eauto.
Qed.
Print Assumptions C78_ends.

(** Fields from which one way leads on to a scalar or an enum are left out and added again with
    that path, in all types but input types; nothing else changes. *)
Theorem C78_exact walk c c' added inputs : flatten_single_field walk c = Some (c', added) -> walk c = Some inputs ->
  (c_server c' = c_server c /\ c_upstream c' = c_upstream c /\ c_schema c' = c_schema c /\ c_unions c' = c_unions c /\ c_enums c' = c_enums c /\
   c_links c' = c_links c /\ c_telemetry c' = c_telemetry c) /\
  (forall n, find_type c n = None -> find_type c' n = None) /\
  forall n t, find_type c n = Some t -> exists t' new, find_type c' n = Some t' /\ oget scmp n added = Some new /\ same_but_fields t t' /\
    (In n inputs -> t_fields t' = t_fields t /\ new = []) /\
    (~ In n inputs ->
      Forall2 (fun a b => fst a = fst b /\ (flat c (snd a) /\ left_out (snd a) (snd b) \/ ~ flat c (snd a) /\ snd b = snd a)) (t_fields t) (t_fields t') /\
      (forall a, In a new <-> exists f x p, In (f, x) (t_fields t) /\ p <> [] /\ single c (type_name (f_type x)) p /\ a = {| af_name := f; af_path := f :: p |}) /\
      (NoDup (map fst (t_fields t)) -> NoDup (map af_name new))).
Proof.
  unfold flatten_single_field. intros H W. rewrite W in H. destruct (types_result c inputs (c_types c)) as (ts & ad & E & R). rewrite E in H. injection H as <- <-.
  split; [repeat split|]. split.
  - intros n F. specialize (R n). unfold find_type in *. cbn [c_types]. rewrite F in R. destruct (oget scmp n ts); [contradiction|reflexivity].
  - intros n t F. specialize (R n). unfold find_type in *. cbn [c_types]. rewrite F in R. destruct (oget scmp n ts) as [t'|]; [|contradiction]. destruct (oget scmp n ad) as [new|]; [|contradiction].
    exists t', new. split; [reflexivity|]. split; [reflexivity|]. destruct R as [Sm R]. split; [exact Sm|]. split.
    + intros I. apply smem_In in I. now rewrite I in R.
    + intros I. apply smem_false in I. rewrite I in R. destruct R as (A & B & D). split; [clear B D|split; assumption]. induction A as [|a b l l' (X & D) A IHA]; constructor; [|exact IHA].
      split; [exact X|]. destruct D as [(Y & Z)|(Y & Z)]; [left|now right]. split; [exact Y|]. rewrite Z. repeat split.
Qed.
Print Assumptions C78_exact.

(** The type of the new field, null allowed, is that of the field at the end, if there are no lists and
    no resolvers on the way. *)
Theorem C78_types_partial {IO} compile valid_templates m walk c added n t new f x p ty (d : fdef IO) :
  flatten_single_field walk c = Some (m_config m, added) -> (forall n t, find_type c n = Some t -> is_predefined n = false) ->
  find_type c n = Some t -> oget scmp n added = Some new -> In {| af_name := f; af_path := f :: p |} new ->
  get_field f t = Some x -> straight c x p ty -> is_predefined (type_name ty) = true -> Forall like_a_name (f :: p) ->
  (f_resolvers x <> [] -> forall g, hd_error p = Some g -> get_field g t = None) ->
  forall t', find_type (m_config m) n = Some t' ->
  to_added_field compile valid_templates m n t' {| af_name := f; af_path := f :: p |} = Ok d -> d_type d = or_null ty.
Proof.
  intros H Np F An In_ G S Pt Ln Sh t' F' A. unfold flatten_single_field in H. destruct (walk c) as [inputs|]; [|discriminate].
  destruct (types_result c inputs (c_types c)) as (ts & ad & E & R). rewrite E in H. injection H as Hc <-.
  assert (R' : forall n, match find_type c n, find_type (m_config m) n with Some t, Some t' => exists new, type_result c inputs n t t' new | None, None => True | _, _ => False end).
  { intros k. specialize (R k). unfold find_type in *. rewrite <- Hc. cbn [c_types]. destruct (oget scmp k (c_types c)), (oget scmp k ts); try contradiction; auto. destruct (oget scmp k ad) as [w|]; [exists w; exact R|contradiction]. }
  assert (Fr : exists new, type_result c inputs n t t' new) by (specialize (R' n); now rewrite F, F' in R').
  assert (Gf : forall g, match get_field g t, get_field g t' with Some y, Some y' => f_type y' = f_type y /\ f_resolvers y' = f_resolvers y | None, None => True | _, _ => False end).
  { intros g. destruct Fr as (w & _ & Fr). unfold get_field. destruct (smem n inputs); [destruct Fr as [-> _]; destruct (oget scmp g (t_fields t)); auto|]. destruct Fr as (Fr & _).
    clear - Fr. induction Fr as [|[a y] [b z] l l' (E & D) Fr IH]; [exact I|]. cbn in E, D. subst b. cbn [oget]. destruct (scmp g a); [|exact IH|exact IH]. destruct D as [(_ & ->)|(_ & ->)]; auto. }
  pose proof (Gf f) as Gx. rewrite G in Gx. destruct (get_field f t') as [x'|] eqn:G'; [|contradiction]. destruct Gx as [Tx Rx].
  eapply (C65_types_partial compile valid_templates m n t' _ d f p x' ty); [|exact A|reflexivity|exact G'|exact Ln| |now left].
  - intros k tk Fk. specialize (R' k). rewrite Fk in R'. destruct (find_type c k) as [tc|] eqn:Fc; [|contradiction]. now apply (Np k tc).
  - destruct (f_resolvers x) as [|r rs] eqn:Rs.
    + left. split; [exact Rx|]. apply (straight_leads c (m_config m) inputs R' p x ty S t' f x' G' Tx). exact Rx.
    + right. split; [rewrite Rx; discriminate|]. inversion S as [x0|x0 k nn tk g y q ty0 Tk Fk Fs Rsy S']; subst.
      * exfalso. pose proof (R n) as Rn. rewrite An in Rn. unfold find_type in F. rewrite F in Rn. destruct (oget scmp n ts) as [t2|]; [|contradiction]. destruct Rn as (_ & Rn).
        destruct (smem n inputs); [destruct Rn as [_ ->]; destruct In_|]. destruct Rn as (_ & Rn & _). apply Rn in In_. destruct In_ as (a & b & q & _ & Nq & _ & Eq). injection Eq as _ <-. now apply Nq.
      * pose proof (R' k) as X. rewrite Fk in X. destruct (find_type (m_config m) k) as [tk'|] eqn:Fk'; [|contradiction]. exists k, nn, tk'. split; [now rewrite Tx|]. split; [exact Fk'|]. split.
        -- destruct X as (w & _ & X). rewrite Fs in X. assert (Y : exists y', t_fields tk' = [(g, y')] /\ f_type y' = f_type y /\ f_resolvers y' = f_resolvers y).
           { destruct (smem k inputs); [exists y; tauto|]. destruct X as (X & _). inversion X as [|? [g' y'] ? ? En X2]; subst. inversion X2; subst. destruct En as [En Ey]. cbn in En, Ey. subst g'.
             exists y'. split; [reflexivity|]. destruct Ey as [(_ & ->)|(_ & ->)]; auto. }
           destruct Y as (y' & Fy & Ty & Ry). apply (straight_leads c (m_config m) inputs R' q y ty S' tk' g y'); [|exact Ty|congruence]. unfold get_field. rewrite Fy. cbn. now rewrite (to_refl _ g scmp_order).
        -- intros g0 Hg. specialize (Sh ltac:(discriminate) g0 Hg). pose proof (Gf g0) as Z. rewrite Sh in Z. destruct (get_field g0 t'); [contradiction|reflexivity].
Qed.
Print Assumptions C78_types_partial.

(** ** Examples *)
Definition flatten (c : config) : option (config * list (string * list add_field)) := flatten_single_field (input_types 20) c.
Definition shelf : config := xc
  [("Author", xt None [("name", xf (xn "Name") [])]); ("Book", xt None [("author", xf (xn "Author") []); ("title", xf (xn "String") [])]);
   ("Name", xt None [("text", xf (TNamed "String" true) [])]); ("Query", xt None [("author", xf (xn "Author") [http "/author"]); ("book", xf (xn "Book") [http "/book"])])] [] [].
Definition flat_shelf : config := xc
  [("Author", xt None [("name", with_omit (xf (xn "Name") []))]); ("Book", xt None [("author", with_omit (xf (xn "Author") [])); ("title", xf (xn "String") [])]);
   ("Name", xt None [("text", xf (TNamed "String" true) [])]);
   ("Query", xt None [("author", with_omit (xf (xn "Author") [http "/author"])); ("book", xf (xn "Book") [http "/book"])])] [] [].
Definition by_path (n : string) (p : list string) : add_field := {| af_name := n; af_path := n :: p |}.
Definition shelf_added : list (string * list add_field) :=
  [("Author", [by_path "name" ["text"]]); ("Book", [by_path "author" ["name"; "text"]]); ("Name", []); ("Query", [by_path "author" ["name"; "text"]])].
Example C78_example_result : flatten shelf = Some (flat_shelf, shelf_added).
Proof. vm_compute. reflexivity. Qed.
Definition define_added (m : cmodule) (n : string) (a : add_field) : option (string * typ) :=
  match find_type (m_config m) n with Some t => after_define (xadd m n t a) (fun d => (d_name d, d_type d)) | None => None end.
Example C78_example_applies : (forall n t, find_type shelf n = Some t -> is_predefined n = false) /\
  straight shelf (xf (xn "Author") []) ["name"; "text"] (TNamed "String" true) /\ straight shelf (xf (xn "Author") [http "/author"]) ["name"; "text"] (TNamed "String" true) /\
  Forall like_a_name ["author"; "name"; "text"] /\ single shelf "Author" ["name"; "text"] /\
  define_added (xm flat_shelf []) "Book" (by_path "author" ["name"; "text"]) = Some ("author", xn "String") /\
  define_added (xm flat_shelf []) "Query" (by_path "author" ["name"; "text"]) = Some ("author", xn "String").
Proof.
  split.
  { intros n t F. apply (oget_in scmp scmp_order) in F. cbn in F. repeat (destruct F as [F|F]; [injection F as <- _; reflexivity|]). contradiction. }
  assert (St : straight shelf (xf (xn "Name") []) ["text"] (TNamed "String" true)).
  { eapply St_into; [reflexivity|reflexivity|reflexivity|reflexivity|]. exact (St_end _ (xf (TNamed "String" true) [])). }
  split; [eapply St_into; [reflexivity|reflexivity|reflexivity|reflexivity|exact St]|]. split; [eapply St_into; [reflexivity|reflexivity|reflexivity|reflexivity|exact St]|].
  split; [repeat constructor; cbn; try lia; try discriminate; right; reflexivity|]. split; [|split; reflexivity].
  assert (N : forall n t, find_type shelf n = Some t -> t_fields t <> [] -> ~ ends shelf n) by (intros n t F T [E|E]; [rewrite F in E; contradiction|now apply E]).
  eapply S_into; [eapply N; [reflexivity|discriminate]|reflexivity|reflexivity|]. eapply S_into; [eapply N; [reflexivity|discriminate]|reflexivity|reflexivity|]. apply S_ends. left. reflexivity.
Qed.

(** ** What does not hold *)
(** A path that ends in an enum is refused when the result is read: the configuration was fine before. *)
Definition kinds (tb tq : gtype) : config := xc [("Book", tb); ("Query", tq)] [] [("Kind", {| e_variants := [("NOVEL", None)]; e_doc := None |})].
Definition refused {A} (r : checked A blueprint_error) : Prop := match r with Ok _ => False | Err _ => True end.
Definition fields_of (m : cmodule) (n : string) (added : list add_field) :=
  match find_type (m_config m) n with Some t => to_fields xcompile xvalid m n t added | None => Ok [] end.
Theorem C78_enums_refuted : exists c c' added new, flatten c = Some (c', added) /\ oget scmp "Query" added = Some new /\
  ~ refused (fields_of (xm c []) "Query" []) /\ refused (fields_of (xm c' []) "Query" new).
Proof.
  exists (kinds (xt None [("kind", xf (xn "Kind") [])]) (xt None [("book", xf (xn "Book") [http "/book"])])). eexists _, _, _. split; [vm_compute; reflexivity|]. split; [reflexivity|].
  split; [intros H; exact H|exact I].
Qed.
Print Assumptions C78_enums_refuted.

(** So is one with a resolver on the way. *)
Theorem C78_resolvers_refuted : exists c c' added new, flatten c = Some (c', added) /\ oget scmp "Query" added = Some new /\
  ~ refused (fields_of (xm c []) "Query" []) /\ refused (fields_of (xm c' []) "Query" new).
Proof.
  exists (kinds (xt None [("pages", xf (xn "Int") [http "/pages"])]) (xt None [("book", xf (xn "Book") [http "/book"])])). eexists _, _, _. split; [vm_compute; reflexivity|]. split; [reflexivity|].
  split; [intros H; exact H|exact I].
Qed.
Print Assumptions C78_resolvers_refuted.

(** Through a list the new field gives null, whatever the list holds. *)
Definition show_added (m : cmodule) (n : string) (a : add_field) (answers : list (string * value)) : option (string * typ * (result value (ir_error string) * list string)) :=
  match find_type (m_config m) n with
  | Some t => after_define (xadd m n t a) (fun d => (d_name d, d_type d, xdeliver answers None d (VObj [])))
  | None => None
  end.
Theorem C78_lists_refuted : exists c c' added, flatten c = Some (c', added) /\ oget scmp "Query" added = Some [by_path "books" ["title"]] /\
  forall titles : list string,
    show_added (xm c' []) "Query" (by_path "books" ["title"]) [("/books", VList (map (fun t => VObj [("title", VStr t)]) titles))] =
    Some ("books", TNamed "String" false, (Ok VNull, ["/books"])).
Proof.
  exists (kinds (xt None [("title", xf (xn "String") [])]) (xt None [("books", xf (TList (TNamed "Book" false) false) [http "/books"])])). eexists _, _. split; [vm_compute; reflexivity|]. split; [reflexivity|].
  intros titles. vm_compute. reflexivity.
Qed.
Print Assumptions C78_lists_refuted.

(** Arguments on the way are lost. *)
Definition with_args (l : list (string * ConfigModel.arg)) (f : field) : field :=
  {| f_type := f_type f; f_args := l; f_doc := f_doc f; f_modify := f_modify f; f_omit := f_omit f; f_cache := f_cache f; f_default := f_default f;
     f_protected := f_protected f; f_discriminate := f_discriminate f; f_resolvers := f_resolvers f; f_directives := f_directives f |}.
Theorem C78_arguments_refuted : exists c c' added t' d, flatten c = Some (c', added) /\
  (exists t x, find_type c "Book" = Some t /\ get_field "title" t = Some x /\ f_args x <> []) /\
  find_type c' "Query" = Some t' /\ xadd (xm c' []) "Query" t' (by_path "book" ["title"]) = Ok d /\ d_args d = [].
Proof.
  exists (kinds (xt None [("title", with_args [("language", {| arg_type := xn "String"; arg_doc := None; arg_modify := None; arg_default := None |})] (xf (xn "String") []))])
            (xt None [("book", xf (xn "Book") [http "/book"])])). eexists _, _, _, _. split; [vm_compute; reflexivity|]. split; [eexists _, _; split; [reflexivity|]; split; [reflexivity|discriminate]|].
  split; [reflexivity|]. split; [vm_compute; reflexivity|reflexivity].
Qed.
Print Assumptions C78_arguments_refuted.

(** Flattening twice adds the fields twice. *)
Theorem C78_twice_refuted : exists c c' added new fs, flatten c = Some (c', added) /\ flatten c' = Some (c', added) /\ oget scmp "Query" added = Some new /\
  fields_of (xm c' []) "Query" (new ++ new) = Ok fs /\ ~ NoDup (map d_name fs).
Proof.
  exists shelf, flat_shelf, shelf_added. eexists _, _. split; [vm_compute; reflexivity|]. split; [vm_compute; reflexivity|]. split; [reflexivity|]. split; [vm_compute; reflexivity|].
  cbn. intros N. inversion N as [|? ? X N1]; subst. inversion N1 as [|? ? Y N2]; subst. apply Y. now left.
Qed.
Print Assumptions C78_twice_refuted.
