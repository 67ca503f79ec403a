(** C84: the text of a document says what the document says. *)
From Coq Require Import String Ascii ZArith NArith Bool Arith Lia List Permutation.
From Verif Require Import Base TypeModel DocModel PrModel PrSpec PrProofs Pr2Proofs Pr3Proofs.
Import ListNotations.
Open Scope string_scope.
Open Scope list_scope.

(** A reader of GraphQL finds in the text of a document its schema and all its types, with their fields, arguments, types, defaults and
    directives, in the order schema, scalars, inputs, interfaces, unions, enums, objects; without what [told] leaves out: the
    documentation of arguments, interfaces and unions, the directives of arguments, interfaces and scalars, arguments of directives that
    are null, and a schema with neither queries nor mutations. *)
Theorem C84_read_back_partial : forall doc, readable doc -> read (print "" doc) = Some (told doc).
Proof. exact document_read. Qed.
Print Assumptions C84_read_back_partial.

(** So documents that differ in anything else have different texts. *)
Theorem C84_nothing_else_lost : forall doc doc', readable doc -> readable doc' -> print "" doc = print "" doc' -> told doc = told doc'.
Proof. intros doc doc' R R' E. apply C84_read_back_partial in R. apply C84_read_back_partial in R'. rewrite E, R' in R. now injection R. Qed.
Print Assumptions C84_nothing_else_lost.

(** The types that are read are those of the document, each as often as it is there. *)
Theorem C84_each_type : forall doc, readable doc -> exists schemas types, read (print "" doc) = Some (schemas ++ types) /\
  Permutation types (map type_told (types_of doc)) /\ forall d, In d schemas -> exists ds rs, d = RSchema ds rs.
Proof.
  intros doc R. exists (schemas_told doc), (flat_map (types_told doc) [0; 1; 2; 3; 4; 5]). split; [now apply C84_read_back_partial|]. split; [apply told_types|].
  intros d I. unfold schemas_told in I. apply in_flat_map in I. destruct I as (x & _ & I). destruct x as [s|t|]; [|destruct I|destruct I].
  unfold schema_told in I. destruct (sd_query s), (sd_mutation s); destruct I as [<-|[]] || destruct I; eauto.
Qed.
Print Assumptions C84_each_type.

(** Nothing is read that the document does not have, and no schema that it does not have. *)
Theorem C84_nothing_added : forall doc l d, readable doc -> read (print "" doc) = Some l -> In d l ->
  (exists t, In (DType t) doc /\ d = type_told t) \/ (exists s, In (DSchema s) doc /\ schema_told s = [d]).
Proof.
  intros doc l d R H I. rewrite (C84_read_back_partial doc R) in H. injection H as <-. unfold told in I. apply in_app_or in I. destruct I as [I|I].
  - right. unfold schemas_told in I. apply in_flat_map in I. destruct I as (x & X & I). destruct x as [s|t|]; [|destruct I|destruct I]. exists s. split; [exact X|].
    unfold schema_told in *. destruct (sd_query s), (sd_mutation s); destruct I as [<-|[]] || destruct I; reflexivity.
  - left. apply in_flat_map in I. destruct I as (n & _ & I). unfold types_told in I. apply in_flat_map in I. destruct I as (x & X & I). destruct x as [s|t|]; [destruct I| |destruct I].
    destruct (Nat.eqb _ n); [|destruct I]. destruct I as [<-|[]]. now exists t.
Qed.
Print Assumptions C84_nothing_added.

(** ** A concrete document *)
Definition pn (n : string) : ptype := PType (PNamed n) true.
Definition pr (n : string) : ptype := PType (PNamed n) false.
Definition p_http : directive :=
  {| d_name := "http"; d_args := [("url", quote ++ "http://a.b/{{.args.id}}" ++ quote); ("query", "[{key: 1, value: A}]"); ("body", "null")] |}%string.
Definition p_omit : directive := {| d_name := "omit"; d_args := [] |}.
Definition p_in (doc : option string) (n : string) (t : ptype) (d : option string) (ds : list directive) : input_value Args :=
  {| iv_doc := doc; iv_name := n; iv_type := t; iv_default := d; iv_dirs := ds |}.
Definition p_field (doc : option string) (n : string) (args : list (input_value Args)) (t : ptype) (ds : list directive) : field_def Args :=
  {| fd_doc := doc; fd_name := n; fd_args := args; fd_type := t; fd_dirs := ds |}.
Definition p_def (n : string) (doc : option string) (ds : list directive) (k : kind Args) : definition Args := DType {| td_doc := doc; td_name := n; td_dirs := ds; td_kind := k |}.
Definition p_schema (q m : option string) : definition Args := DSchema {| sd_dirs := [p_omit; p_http]; sd_query := q; sd_mutation := m; sd_subscription := None |}.
Definition p84 : document Args :=
  [p_schema (Some "Query") None;
   p_def "Query" (Some "All there is") [p_omit] (KObject ["Node"; "Other"]
     [p_field (Some "The users, 'sorted'") "users" [p_in (Some "ids") "id" (PType (PList (pr "Int")) false) (Some "[1, 2]") []; p_in None "of" (pn "In") None []] (pn "User") [p_http; p_omit];
      p_field None "id" [] (pr "ID") []]);
   p_def "Node" None [] (KInterface [] [p_field None "id" [] (pr "ID") []]); p_def "Date" (Some "A day") [] KScalar;
   p_def "Found" None [p_omit] (KUnion ["Query"; "User"]); p_def "Kind" (Some "Kinds") [] (KEnum [("BIG", []); ("SMALL", [p_omit])]);
   p_def "In" (Some "An input") [] (KInput [p_in (Some "Some text.") "id" (pn "Int") None [p_omit]; p_in None "of" (pn "In") (Some "{id: 1}") []])].
Ltac readily :=
  repeat first
    [ match goal with |- default_ok _ => progress cbn [default_ok iv_default p_in] | |- value_text _ => eexists; split; vm_compute; reflexivity | |- _ <= _ => vm_compute; lia | |- _ \/ _ => first [left; reflexivity | right; reflexivity] end
    | apply Forall_nil | apply Forall_cons | exact I | reflexivity | discriminate | split ].
Example C84_example : readable p84 /\ length (told p84) = 7.
Proof. split; [unfold readable, p84|reflexivity]. readily. Qed.

(** ** What is not so *)
(** An input field with a default and a directive: the directive is written before the default, and GraphQL cannot be read so. *)
Theorem C84_default_and_directive_refuted : exists doc,
  Forall (fun d => match d with DType t => is_name (td_name t) | _ => True end) doc /\ read (print "" doc) = None /\
  exists n ds f, doc = [p_schema (Some "Query") None; p_def n None ds (KInput [f])] /\ argument_ok f /\ dirs_ok (iv_dirs f) /\ iv_doc f = None.
Proof.
  exists [p_schema (Some "Query") None; p_def "In" None [] (KInput [p_in None "id" (pn "Int") (Some "1") [p_omit]])]. split; [repeat constructor|]. split; [vm_compute; reflexivity|].
  eexists _, _, _. split; [reflexivity|]. unfold dirs_ok, argument_ok. cbn [iv_name iv_type iv_default iv_dirs iv_doc p_in]. readily.
Qed.
Print Assumptions C84_default_and_directive_refuted.

(** The settings at a schema without queries and mutations are lost. *)
Theorem C84_settings_refuted : exists s, def_ok (DSchema s) /\ sd_dirs s <> [] /\ sd_subscription s <> None /\ print "" [DSchema s] = "".
Proof.
  exists {| sd_dirs := [p_http]; sd_query := None; sd_mutation := None; sd_subscription := Some "Subscription" |}. split; [cbn [def_ok sd_dirs sd_query sd_mutation sd_subscription]; unfold dirs_ok; readily|].
  split; [discriminate|]. split; [discriminate|reflexivity].
Qed.
Print Assumptions C84_settings_refuted.

(** Documentation of two lines: other text is read at a type, the words of both lines run into each other at an input; and with three quotes in
    it no document is read at all. *)
Definition p_lines : string := ("first" ++ newline ++ "second")%string.
Theorem C84_lines_refuted :
  (exists d, read (print "" [p_def "A" (Some p_lines) [] (KObject [] [p_field None "id" [] (pn "ID") []])]) = Some [RType (Some d) "A" [] (RObject [] [field_told (p_field None "id" [] (pn "ID") [])])] /\
    d = ("  first" ++ newline ++ "second")%string) /\
  read (print "" [p_def "A" (Some p_lines) [] (KInput [p_in None "id" (pn "ID") None []])]) = Some [RType (Some "firstsecond") "A" [] (RInput [input_told (p_in None "id" (pn "ID") None [])])] /\
  read (print "" [p_def "A" (Some ("say " ++ quotes ++ "x")%string) [] (KObject [] [p_field None "id" [] (pn "ID") []])]) = None.
Proof. split; [eexists; split; [vm_compute; reflexivity|reflexivity]|]. split; vm_compute; reflexivity. Qed.
Print Assumptions C84_lines_refuted.

(** Documentation of more than 80 characters gets ends of lines at scalars, inputs and their fields. *)
Definition p_long : string := "This is a text of more than eighty characters in a single line, which goes on and on and on.".
Theorem C84_long_refuted : one_line p_long /\ exists d, read (print "" [p_def "A" (Some p_long) [] KScalar]) = Some [RType (Some d) "A" [] RScalar] /\ d <> p_long /\
  read (print "" [p_def "A" (Some p_long) [] (KEnum [("B", [])])]) = Some [RType (Some p_long) "A" [] (REnum [("B", [])])].
Proof.
  split; [vm_compute; repeat split|]. eexists. split; [vm_compute; reflexivity|]. split; [discriminate|vm_compute; reflexivity].
Qed.
Print Assumptions C84_long_refuted.

(** But its pieces together are the text, but for ends of lines; it is cut after white space only, and not before 80 characters. *)
Lemma next_line_whole : forall s room a b, next_line room s = (a, b) -> s = (a ++ b)%string /\
  (b = "" \/ exists p c, a = (p ++ String c "")%string /\ OpGenModel.is_white c = true /\ room <= String.length p).
Proof.
  induction s as [|c s IH]; intros room a b E; cbn in E; [injection E as <- <-; auto|]. destruct room as [|room].
  - destruct (OpGenModel.is_white c) eqn:W; [injection E as <- <-; split; [reflexivity|]; right; exists "", c; repeat split; auto with arith|].
    destruct (next_line 0 s) as [x y] eqn:N. injection E as <- <-. destruct (IH _ _ _ N) as [-> [->|(p & d & -> & Wd & L)]]; (split; [reflexivity|]); [now left|].
    right. exists (String c p), d. repeat split; auto with arith.
  - destruct (next_line room s) as [x y] eqn:N. injection E as <- <-. destruct (IH _ _ _ N) as [-> [->|(p & d & -> & Wd & L)]]; (split; [reflexivity|]); [now left|].
    right. exists (String c p), d. repeat split; [exact Wd|cbn; lia].
Qed.
Lemma next_line_some : forall c s room a b, next_line room (String c s) = (a, b) -> a <> "".
Proof. intros c s [|room] a b E; cbn in E; [destruct (OpGenModel.is_white c); [injection E as <- <-; discriminate|]|]; destruct (next_line _ s); injection E as <- <-; discriminate. Qed.
Theorem C84_long_texts_are_whole : forall d indent, exists pieces,
  get_formatted_docs (Some d) indent =
    (spaces indent ++ quotes ++ String.concat "" (map (fun p => newline ++ spaces indent ++ p) pieces) ++ newline ++ spaces indent ++ quotes ++ newline)%string /\
  String.concat "" pieces = string_of_list_ascii (filter (fun c => negb (Ascii.eqb c (ascii_of_nat 10))) (list_ascii_of_string d)) /\
  forall i p q, nth_error pieces i = Some p -> nth_error pieces (S i) = Some q -> exists t c, p = (t ++ String c "")%string /\ In (N_of_ascii c) [9; 10; 11; 12; 13; 32]%N /\ 80 <= String.length t.
Proof.
  intros d indent. exists (broken_lines (String.length (without_newlines d)) 80 (without_newlines d)). split; [reflexivity|].
  assert (W : without_newlines d = string_of_list_ascii (filter (fun c => negb (Ascii.eqb c (ascii_of_nat 10))) (list_ascii_of_string d))).
  { clear. induction d as [|c d IH]; [reflexivity|]. cbn [without_newlines list_ascii_of_string filter]. destruct (Ascii.eqb c _); cbn; [exact IH|now rewrite IH]. }
  rewrite <- W. clear W. generalize (without_newlines d) as s. clear d. intros s.
  assert (G : forall fuel s, String.length s <= fuel -> String.concat "" (broken_lines fuel 80 s) = s /\
    forall i p q, nth_error (broken_lines fuel 80 s) i = Some p -> nth_error (broken_lines fuel 80 s) (S i) = Some q ->
      exists t c, p = (t ++ String c "")%string /\ OpGenModel.is_white c = true /\ 80 <= String.length t).
  { clear. induction fuel as [|fuel IH]; intros s L.
    - destruct s; [|cbn in L; lia]. split; [reflexivity|]. intros [|i]; discriminate.
    - destruct s as [|c s]; [split; [reflexivity|]; intros [|i]; discriminate|]. remember (String c s) as u eqn:U.
      assert (B : broken_lines (S fuel) 80 u = let (a, b) := next_line 80 u in a :: broken_lines fuel 80 b) by (subst u; reflexivity). rewrite B. clear B.
      destruct (next_line 80 u) as [a b] eqn:N. assert (Z : a <> "") by (subst u; exact (next_line_some _ _ _ _ _ N)).
      destruct (next_line_whole _ _ _ _ N) as [E C]. assert (Lb : String.length b <= fuel).
      { rewrite E, StringFacts.str_app_length in L. destruct a; [now destruct Z|]. cbn in L. lia. }
      destruct (IH b Lb) as [W H]. split; [rewrite StringFacts.concat_nil_cons, W; now symmetry|]. intros [|i] p q P Q; [|exact (H i p q P Q)].
      cbn in P. injection P as <-. destruct C as [->|C]; [|exact C]. destruct fuel; discriminate. }
  destruct (G _ s (le_n _)) as [A B]. split; [exact A|]. intros i p q P Q. destruct (B i p q P Q) as (t & c & E & W & L). exists t, c. split; [exact E|]. split; [|exact L].
  unfold OpGenModel.is_white in W. cbn [In]. apply orb_true_iff in W as [W|W]; [apply andb_true_iff in W as [W1 W2]; apply N.leb_le in W1; apply N.leb_le in W2|apply N.eqb_eq in W]; lia.
Qed.
Print Assumptions C84_long_texts_are_whole.

(** What is left out: the documentation and directives of interfaces, the documentation of unions and arguments, and arguments that are null. *)
Theorem C84_left_out_refuted : exists doc doc', readable doc /\ readable doc' /\ doc <> doc' /\ print "" doc = print "" doc' /\
  doc = [p_def "A" (Some "text") [p_http] (KInterface [] [p_field None "id" [p_in (Some "text") "of" (pn "ID") None [p_omit]] (pn "ID") []]); p_def "B" (Some "text") [] (KUnion ["C"])] /\
  doc' = [p_def "A" None [] (KInterface [] [p_field None "id" [p_in None "of" (pn "ID") None []] (pn "ID") []]); p_def "B" None [] (KUnion ["C"])].
Proof.
  eexists _, _. split; [|split; [|split; [|split; [|split; reflexivity]]]]; [unfold readable; readily|unfold readable; readily|discriminate|vm_compute; reflexivity].
Qed.
Print Assumptions C84_left_out_refuted.

(** Types without fields, members or values are written with nothing in their brackets: such a document cannot be read. *)
Theorem C84_empty_refuted :
  read (print "" [p_def "A" None [] (KObject [] [])]) = None /\ read (print "" [p_def "A" None [] (KUnion [])]) = None /\
  read (print "" [p_def "A" None [] (KEnum [])]) = None /\ read (print "" [p_def "A" None [] (KInput [])]) = None /\ read (print "" [p_def "A" None [] (KInterface [] [])]) = None.
Proof. repeat split; vm_compute; reflexivity. Qed.
Print Assumptions C84_empty_refuted.
