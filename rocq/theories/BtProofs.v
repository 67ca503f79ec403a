(** Proofs about checking and starting (C96). *)
From Coq Require Import String Ascii NArith Bool List.
From Verif Require Import Base LkModel BtModel BtSpec.
Import ListNotations.
Open Scope string_scope.

Lemma ref_splits : forall s seen, ref_first seen s = true -> exists a b, split_at s = Some (a, b).
Proof.
  induction s as [|c s IH]; intros seen; [discriminate|]. cbn [ref_first split_at]. destruct (Ascii.eqb c "@"); [eauto|]. intros H. apply andb_prop in H as [_ H]. destruct (IH _ H) as (a & b & ->). eauto.
Qed.
Lemma apollo_splits : forall r others e, validate_apollo r others = Ok e -> exists a b, split_at r = Some (a, b).
Proof. intros r others e. unfold validate_apollo. destruct (is_graph_ref r) eqn:G; [intros _; exact (ref_splits r false G)|discriminate]. Qed.
Lemma unspecified_iff : forall i, is_unspecified i = true <-> unspecified i.
Proof.
  intros [a b c d|l]; cbn [is_unspecified].
  - rewrite !andb_true_iff, !N.eqb_eq. split; [intros [[[-> ->] ->] ->]; constructor|]. now inversion 1.
  - rewrite forallb_forall. split; [intros H; constructor; intros n I; apply H, N.eqb_eq in I; now symmetry|]. inversion 1; subst. intros n I. apply N.eqb_eq. symmetry. auto.
Qed.
