(** C89: the report of an error tells all of it, and can be read. *)
From Coq Require Import String Ascii Bool List.
From Verif Require Import Base StringFacts ErModel ErSpec ErProofs.
Import ListNotations.
Open Scope string_scope.
Open Scope list_scope.

(** The report is the message with description and trace, and then all causes, each with a bullet and moved to the right, with theirs below them. *)
Theorem C89_report : forall paint e t, plain e \/ (forall c s, paint c s = s) -> display paint e = Some t -> t = text_of (layout e).
Proof.
  intros paint e t U E. pose proof (display_main paint e U) as M. rewrite E in M. destruct M as [L _]. rewrite <- L. symmetry. apply text_lines.
Qed.
Print Assumptions C89_report.

(** There is a report just when no cause, of whatever depth, says nothing. *)
Theorem C89_reported : forall paint e, plain e \/ (forall c s, paint c s = s) -> ((exists t, display paint e = Some t) <-> forall c, below e c -> ~ silent c).
Proof.
  intros paint e U. pose proof (display_main paint e U) as M. destruct (display paint e) as [t|].
  - split; [intros _; apply M|eauto].
  - split; [intros [t E]; discriminate|]. intros N. destruct M as (c & B & S). destruct (N c B S).
Qed.
Print Assumptions C89_reported.

(** Of errors with texts of one line, the report tells which errors there are, and which is the cause of which. *)
Theorem C89_can_be_read : forall paint a b t, plain a -> plain b -> all_one_line a -> all_one_line b ->
  display paint a = Some t -> display paint b = Some t -> outline_of a = outline_of b.
Proof.
  intros paint a b t Pa Pb Oa Ob Ea Eb. pose proof (display_main paint a (or_introl Pa)) as A. pose proof (display_main paint b (or_introl Pb)) as B.
  rewrite Ea in A. rewrite Eb in B. apply layout_inj; auto. destruct A as [<- _], B as [<- _]. reflexivity.
Qed.
Print Assumptions C89_can_be_read.

(** What is wrong with a configuration is told line by line, in order: message, description and trace. *)
Theorem C89_configuration : forall paint causes, causes <> [] ->
  (forall c, In c causes -> v_message c <> "" /\ one_line (v_message c) /\ (forall d, v_description c = Some d -> one_line d) /\ one_line (String.concat "." (v_trace c))) ->
  display paint (from_blueprint causes) = Some (text_of ("Blueprint Error" :: "Caused by:" ::
    map (fun c => "  • " ++ v_message c ++ (match v_description c with Some d => ": " ++ d | None => "" end)
                    ++ (match v_trace c with [] => "" | t => " [at " ++ String.concat "." t ++ "]" end))%string causes)).
Proof.
  intros paint causes N H. set (e := from_blueprint causes).
  assert (K : forall x, In x (causes_of e) -> exists c, In c causes /\ x = Errata false false (v_message c) (v_description c) (v_trace c) []).
  { intros x I. unfold e, from_blueprint, caused_by, new in I. cbn [causes_of] in I. rewrite map_map in I. apply in_map_iff in I as (c & <- & I). exists c. split; [exact I|].
    unfold described, at_trace, new, describe. destruct (v_description c); reflexivity. }
  assert (B : forall x, below e x -> In x (causes_of e)).
  { intros x X. destruct X as [e0 x I|e0 c x I X]; [exact I|]. destruct (K c I) as (v & _ & ->). inversion X; cbn in *; contradiction. }
  assert (P : plain e) by (split; [reflexivity|]; intros x X; apply B in X; destruct (K x X) as (v & _ & ->); reflexivity).
  assert (D : exists t, display paint e = Some t).
  { apply C89_reported; [now left|]. intros x X [S _]. apply B in X. destruct (K x X) as (v & I & ->). cbn in S. apply str_app_eq_nil in S as [S _]. exact (proj1 (H v I) S). }
  destruct D as [t D]. rewrite D. f_equal. rewrite (C89_report paint e t (or_introl P) D). f_equal. unfold e, from_blueprint, caused_by, new. cbn [layout says]. rewrite map_map.
  change (lines _) with ["Blueprint Error"]. cbn [app]. f_equal. destruct causes as [|c0 cs0]; [now destruct N|].
  change (match map ?f (c0 :: cs0) with [] => [] | _ :: _ => ?x end) with x. f_equal.
  clear N D P B K t e. induction (c0 :: cs0) as [|c l IH]; [reflexivity|]. cbn [map flat_map]. rewrite IH by (intros x I; apply H; now right).
  change (?a :: ?b) with ([a] ++ b) at 2. f_equal. destruct (H c (or_introl eq_refl)) as (_ & O1 & O2 & O3). unfold described, at_trace, new, describe.
  destruct c as [m d tr]. cbn [v_message v_description v_trace] in *.
  destruct d as [d|]; rewrite layout_eq, lines_one by (apply one_line_says; [exact O1|exact O2 || discriminate|exact O3]); destruct tr; reflexivity.
Qed.
Print Assumptions C89_configuration.

(** ** Cases *)
Definition plain89 (c : colour) (s : string) : string := s.
Definition mark89 (c : colour) (s : string) : string := ("<" ++ s ++ ">")%string.
Definition error89 : errata :=
  caused_by [at_trace ["User"; "posts"] (new "no url"); caused_by [new "deep"; describe "why" (new "second")] (new "other")] (new "Configuration Error").
Example C89_report_example : display plain89 error89 = Some (text_of
  ["Configuration Error"; "Caused by:"; "  • no url [at User.posts]"; "  • other"; "    Caused by:"; "      • deep"; "      • second: why"]).
Proof. reflexivity. Qed.
Example C89_colour_example : display mark89 (with_color true error89) = Some (text_of
  ["<Configuration Error>"; "<Caused by:>"; "  • <no url>< [at User.posts]>"; "  • <other>"; "    <Caused by:>"; "      • deep"; "      • second: why"]).
Proof. reflexivity. Qed.
Example C89_several_lines_example : display plain89 (caused_by [new (text_of ["a"; ""; "b"; ""])] (new "E")) = Some (text_of ["E"; "Caused by:"; "  • a"; "    "; "    b"; ""]).
Proof. reflexivity. Qed.
Example C89_configuration_example : display plain89 (from_blueprint [{| v_message := "no url"; v_description := Some "set one"; v_trace := ["Q"; "f"] |}]) =
  Some (text_of ["Blueprint Error"; "Caused by:"; "  • no url: set one [at Q.f]"]).
Proof. reflexivity. Qed.

(** ** What does not hold *)
(** An error whose cause has an empty message cannot be reported: the report panics. *)
Theorem C89_always_reported_refuted : exists text source, forall paint, display paint (from_any (AnOther text [source])) = None.
Proof. exists "failed", "". reflexivity. Qed.
Print Assumptions C89_always_reported_refuted.

(** Descriptions are lost when the texts of the errors are given. *)
Theorem C89_descriptions_are_told_refuted : exists a b, a <> b /\ from_any (AValidation a) = from_any (AValidation b).
Proof. exists [{| v_message := "m"; v_description := Some "d"; v_trace := [] |}], [{| v_message := "m"; v_description := None; v_trace := [] |}]. split; [discriminate|reflexivity]. Qed.
Print Assumptions C89_descriptions_are_told_refuted.

(** Of a chain of sources only the first is told. *)
Theorem C89_all_sources_are_told_refuted : exists text s1 s2, from_any (AnOther text [s1; s2]) = from_any (AnOther text [s1]).
Proof. exists "a", "b", "c". reflexivity. Qed.
Print Assumptions C89_all_sources_are_told_refuted.

(** Messages with several lines can be read as causes. *)
Theorem C89_can_always_be_read_refuted : exists a b t, outline_of a <> outline_of b /\ display plain89 a = Some t /\ display plain89 b = Some t.
Proof.
  exists (new (text_of ["E"; "Caused by:"; "  • x"])), (caused_by [new "x"] (new "E")). eexists. split; [discriminate|]. split; [reflexivity|reflexivity].
Qed.
Print Assumptions C89_can_always_be_read_refuted.

(** Colour does not reach causes of causes. *)
Theorem C89_all_coloured_refuted : exists e c, below (with_color true e) c /\ is_colored c = false.
Proof. exists error89, (Errata false false "deep" None [] []). split; [|reflexivity]. eapply below_more; [right; left; reflexivity|]. apply below_one. left. reflexivity. Qed.
Print Assumptions C89_all_coloured_refuted.
