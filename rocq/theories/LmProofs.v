(** Proofs about the limits of operations (C102). *)
From Coq Require Import String ZArith NArith Bool List Lia.
From Verif Require Import Base JsonModel LmModel LmSpec.
Import ListNotations.
Open Scope string_scope.
Open Scope list_scope.

Lemma traces_default : forall s, default false (s_tracing s) = true <-> traces s.
Proof. intro s. unfold traces. destruct (s_tracing s) as [[]|]; simpl; split; congruence. Qed.
Lemma validates_default : forall s, default false (s_validation s) = true <-> validates s.
Proof. intro s. unfold validates. destruct (s_validation s) as [[]|]; simpl; split; congruence. Qed.
(** What the extensions of the settings make of an answer *)
Lemma around_settings : forall other s no_resolver inner,
  noted s (fst (global_timeout (sc_data (to_schema_with s no_resolver [])) inner)) (fst (fold_right (around other (sc_data (to_schema_with s no_resolver []))) inner (sc_extensions (to_schema_with s no_resolver [])))) /\
  snd (fold_right (around other (sc_data (to_schema_with s no_resolver []))) inner (sc_extensions (to_schema_with s no_resolver []))) = snd (global_timeout (sc_data (to_schema_with s no_resolver [])) inner).
Proof.
  intros other s n inner. pose proof (traces_default s) as T. unfold to_schema_with. simpl.
  destruct (0 <? default 0 (s_timeout s))%Z; destruct (default false (s_tracing s)); cbn [app map fold_right around fst snd]; unfold noted; simpl;
    (split; [|reflexivity]); (split; [reflexivity|]; split; [reflexivity|]; split; intro H; try reflexivity).
  - destruct (H (proj1 T eq_refl)).
  - apply T in H. discriminate.
  - destruct (H (proj1 T eq_refl)).
  - apply T in H. discriminate.
Qed.
Lemma timeout_limited : forall s n ms inner, limited s ms ->
  global_timeout (sc_data (to_schema_with s n [])) inner = if (snd inner <=? ms)%N then inner else (out_of_time, ms).
Proof.
  intros s n ms inner (P & E). unfold to_schema_with, sc_data. rewrite E. cbn [default].
  replace (0 <? Z.of_N ms)%Z with true by (symmetry; apply Z.ltb_lt; lia). unfold global_timeout. rewrite N2Z.id.
  replace (0 <? ms)%N with true by (symmetry; apply N.ltb_lt; exact P). reflexivity.
Qed.
Lemma timeout_unlimited : forall s n inner, unlimited s -> global_timeout (sc_data (to_schema_with s n [])) inner = inner.
Proof.
  intros s n inner U. unfold to_schema_with, sc_data. replace (0 <? default 0 (s_timeout s))%Z with false; [reflexivity|].
  symmetry. apply Z.ltb_ge. destruct U as [->|(z & -> & L)]; simpl; lia.
Qed.
Lemma mode_accepted : forall s o, accepted s o -> match sc_mode (to_schema_with s false []) with Strict => o_strict o | Fast => o_fast o end = true.
Proof.
  intros s o (A & B). pose proof (validates_default s) as V. unfold to_schema_with, sc_mode. rewrite orb_false_r.
  destruct (default false (s_validation s)); [apply A, V; reflexivity|]. apply B. intro H. apply V in H. discriminate.
Qed.
