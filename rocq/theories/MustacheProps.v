(** Property C17. *)
From Coq Require Import String Ascii Bool List.
From Verif Require Import Base MustacheModel MustacheSpec MustacheProofs.
Import ListNotations.
Open Scope string_scope.
Open Scope list_scope.

(** A template as written is read as the segments it stands for. *)
Theorem C17_written_templates_are_read :
  forall segs s, written segs s -> ~ In (Literal """") segs -> parse s = segs.
Proof. exact parse_written. Qed.
Print Assumptions C17_written_templates_are_read.

(** Whatever is not a template is one piece of text. *)
Theorem C17_anything_else_is_text :
  forall s, (forall segs, ~ written segs s) -> parse s = [Literal s].
Proof. exact parse_not_written. Qed.
Print Assumptions C17_anything_else_is_text.

(** Rendering what was written replaces the expressions and nothing else. *)
Theorem C17_rendering_replaces_expressions_only :
  forall f segs s, written segs s -> ~ In (Literal """") segs ->
  forall out, render f (parse s) = out <-> rendered f segs out.
Proof. exact render_parse. Qed.
Print Assumptions C17_rendering_replaces_expressions_only.

(** Printing then reading gives the same template. *)
Theorem C17_print_then_read :
  forall segs, canonical segs -> ~ In (Literal """") segs -> parse (show segs) = segs.
Proof. exact parse_show. Qed.
Print Assumptions C17_print_then_read.

(** Without expressions, rendering gives the source text back, in any context. *)
Theorem C17_constant_renders_to_itself :
  forall s f, mustache_is_const (parse s) = true -> s <> """" -> render f (parse s) = s.
Proof. exact render_const. Qed.
Print Assumptions C17_constant_renders_to_itself.

Theorem C17_constant_ignores_context :
  forall m f g, mustache_is_const m = true -> render f m = render g m.
Proof. exact render_const_any. Qed.
Print Assumptions C17_constant_ignores_context.

(** Partial rendering: with all values present it is rendering; with none it
    prints the template back. *)
Theorem C17_partial_all_present :
  forall f m, (forall p, In (Expression p) m -> f p <> None) -> eval_partial f m = render f m.
Proof. exact partial_total. Qed.
Print Assumptions C17_partial_all_present.

Theorem C17_partial_none_present :
  forall f m, (forall p, In (Expression p) m -> f p = None) -> eval_partial f m = show m.
Proof. exact partial_absent. Qed.
Print Assumptions C17_partial_none_present.

(** Finding: a piece of text consisting of one double quote is dropped. *)
Theorem C17_lone_quote_refuted :
  exists s segs, written segs s /\ (forall f, render f (parse s) <> render f segs).
Proof. exact quote_refuted. Qed.
Print Assumptions C17_lone_quote_refuted.

Definition ctx17 (p : list string) : option string :=
  match p with ["args"; "id"] => Some "7" | _ => None end.

Example C17_witness :
  parse "/u/{{.args.id}}/{{ value . x_1 }}?{" =
    [Literal "/u/"; Expression ["args"; "id"]; Literal "/"; Expression ["value"; "x_1"]; Literal "?{"]
  /\ render ctx17 (parse "/u/{{.args.id}}/{{ value . x_1 }}?{") = "/u/7/?{"
  /\ eval_partial ctx17 (parse "/u/{{.args.id}}/{{ value . x_1 }}?{") = "/u/7/{{.value.x_1}}?{"
  /\ parse "a{{b" = [Literal "a{{b"]
  /\ parse "a{{{b}}" = [Literal "a{{{b}}"].
Proof. vm_compute. repeat split. Qed.

Example C17_witness_written :
  written [Literal "/u/"; Expression ["a"; "b_1"]; Literal "{"] "/u/{{.a. b_1}}{".
Proof.
  apply (W_text_expr "/u/" ["a"; "b_1"] "{{.a. b_1}}" [Literal "{"] "{").
  - discriminate.
  - intros [|x [|y [|z [|w [|v a]]]]] b; cbn; discriminate.
  - apply (WE_dot ["a"; "b_1"] "a. b_1").
    apply (WP_more "a" "" "" ["b_1"] " b_1"); try (repeat constructor; fail).
    apply (WP_one "b_1" " " ""); repeat constructor.
  - constructor; [discriminate|]. intros [|x [|y a]] b; cbn; discriminate.
Qed.

Example C17_witness_canonical :
  canonical [Literal "x"; Expression ["a"; "b"]; Expression ["c"]].
Proof.
  apply K_text_expr; try discriminate.
  - intros [|x [|y [|z a]]] b; cbn; discriminate.
  - repeat constructor.
  - apply K_expr; try discriminate; repeat constructor.
Qed.
