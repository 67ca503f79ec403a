(** Facts about strings not in the standard library. *)
From Coq Require Import String Ascii Bool Lia List.
From Verif Require Import Base BaseFacts.
Import ListNotations.
Open Scope string_scope.

Lemma str_app_nil_r : forall s, s ++ "" = s.
Proof. induction s; cbn; congruence. Qed.

Lemma str_app_assoc : forall a b c, (a ++ b) ++ c = a ++ (b ++ c).
Proof. induction a; cbn; intros; congruence. Qed.

Lemma str_app_length : forall a b, String.length (a ++ b) = String.length a + String.length b.
Proof. induction a; cbn; intros; auto. Qed.

Lemma str_app_inv_head : forall a b c, a ++ b = a ++ c -> b = c.
Proof. induction a; cbn; intros; auto. inversion H. auto. Qed.

Lemma str_app_eq_nil : forall a b, a ++ b = "" -> a = "" /\ b = "".
Proof. destruct a; cbn; intros; auto. discriminate. Qed.

Lemma str_app_cons_shift : forall a c b, a ++ String c b = (a ++ String c "") ++ b.
Proof. intros. rewrite str_app_assoc. reflexivity. Qed.

Lemma concat_nil_cons : forall s l, String.concat "" (s :: l) = s ++ String.concat "" l.
Proof.
  intros. destruct l; cbn; auto. rewrite str_app_nil_r. auto.
Qed.

Lemma concat_nil_app : forall l1 l2,
  String.concat "" (l1 ++ l2)%list = String.concat "" l1 ++ String.concat "" l2.
Proof.
  induction l1; intros.
  - reflexivity.
  - rewrite <- app_comm_cons, !concat_nil_cons, IHl1, str_app_assoc. auto.
Qed.

Lemma str_length_nil : forall s, String.length s = 0 -> s = "".
Proof. destruct s; cbn; intros; auto. lia. Qed.
