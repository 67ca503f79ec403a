From Coq Require Import String Ascii ZArith NArith Bool Lia List.
From Verif Require Import Base BaseFacts JsonModel JsonSpec JsonProofs TypeModel TypeSpec.
Import ListNotations.
Open Scope string_scope.
Open Scope list_scope.

Lemma of_to_parser t : of_parser (to_parser t) = t.
Proof.
  induction t as [n nn|t IH nn]; simpl; unfold is_nullable.
  - now rewrite negb_involutive.
  - rewrite IH. now rewrite negb_involutive.
Qed.

Fixpoint ptype_ind' (P : ptype -> Prop)
  (Hn : forall n nu, P (PType (PNamed n) nu))
  (Hl : forall t nu, P t -> P (PType (PList t) nu)) (p : ptype) : P p :=
  match p with
  | PType (PNamed n) nu => Hn n nu
  | PType (PList t) nu => Hl t nu (ptype_ind' P Hn Hl t)
  end.

Lemma to_of_parser p : to_parser (of_parser p) = p.
Proof.
  induction p using ptype_ind'; simpl; unfold is_nullable.
  - now rewrite negb_involutive.
  - rewrite IHp. now rewrite negb_involutive.
Qed.

Lemma to_tref_inj t : forall u, to_tref t = to_tref u -> t = u.
Proof.
  induction t as [n nn|t IH nn]; intros [m mm|u mm]; simpl; unfold is_nullable; simpl;
    destruct nn, mm; simpl; intros H; inversion H; subst; try reflexivity;
    try (f_equal; auto).
Qed.

Section Sem.
  Variable base : string -> value -> Prop.

  Lemma Forall_iff_in {A} (P Q : A -> Prop) l :
    (forall x, In x l -> (P x <-> Q x)) -> (Forall P l <-> Forall Q l).
  Proof.
    intros H. rewrite !Forall_forall. split; intros HF x Hx; apply H; auto.
  Qed.

  Lemma ref_admits_iff t : forall v, ref_admits base (to_tref t) v <-> admits base t v.
  Proof.
    assert (NN : forall b v, ref_admits base b v -> v <> VNull -> ref_admits base (RNonNull b) v)
      by (intros; now constructor).
    induction t as [n nn|t IH nn]; intros v; simpl; unfold is_nullable; destruct nn; simpl.
    - split.
      + intros H; inv H. match goal with H : ref_admits _ (RNamed _) _ |- _ => inv H end; [congruence|now constructor].
      + intros H; inv H. constructor; [assumption|now constructor].
    - split; intros H; inv H; now constructor.
    - split.
      + intros H; inv H. match goal with H : ref_admits _ (RList _) _ |- _ => inv H end; [congruence|]. constructor.
        eapply Forall_impl; [|eassumption]. intros a. apply IH.
      + intros H; inv H. constructor; [discriminate|]. constructor.
        eapply Forall_impl; [|eassumption]. intros a. apply IH.
    - split.
      + intros H; inv H; constructor.
        eapply Forall_impl; [|eassumption]. intros a. apply IH.
      + intros H; inv H; constructor.
        eapply Forall_impl; [|eassumption]. intros a. apply IH.
  Qed.

  Lemma p_admits_iff t : forall v, p_admits base (to_parser t) v <-> admits base t v.
  Proof.
    induction t as [n nn|t IH nn]; intros v; simpl; unfold is_nullable.
    - split.
      + inversion 1; subst.
        * destruct nn; [discriminate|]. constructor.
        * now constructor.
      + inversion 1; subst; constructor; assumption.
    - split.
      + inversion 1; subst.
        * destruct nn; [discriminate|]. constructor.
        * constructor. eapply Forall_impl; [|eassumption]. intros a. apply IH.
      + inversion 1; subst; constructor.
        eapply Forall_impl; [|eassumption]. intros a. apply IH.
  Qed.

  Lemma into_required_admits t v :
    admits base (into_required t) v <-> admits base t v /\ v <> VNull.
  Proof.
    destruct t as [n nn|t nn]; simpl; split.
    - inversion 1; subst. split; [now constructor|assumption].
    - intros [H HN]. inversion H; subst; [congruence|now constructor].
    - inversion 1; subst. split; [now constructor|discriminate].
    - intros [H HN]. inversion H; subst; [congruence|now constructor].
  Qed.

  Lemma into_nullable_admits t v :
    admits base (into_nullable t) v <-> admits base t v \/ v = VNull.
  Proof.
    destruct t as [n nn|t nn]; simpl; split.
    - inversion 1; subst; [auto|left; now constructor].
    - intros [H| ->]; [|constructor]. inversion H; subst; now constructor.
    - inversion 1; subst; [auto|left; now constructor].
    - intros [H| ->]; [|constructor]. inversion H; subst; now constructor.
  Qed.

  Lemma is_nullable_admits t : admits base t VNull <-> is_nullable t = true.
  Proof.
    destruct t as [n nn|t nn]; unfold is_nullable; simpl; split.
    - inversion 1; subst; [reflexivity|congruence].
    - destruct nn; [discriminate|]. constructor.
    - inversion 1; subst; reflexivity.
    - destruct nn; [discriminate|]. constructor.
  Qed.

  Lemma into_list_admits t v :
    admits base (into_list t) v <-> v = VNull \/ exists l, v = VList l /\ Forall (admits base t) l.
  Proof.
    unfold into_list. split.
    - inversion 1; subst; eauto.
    - intros [-> | (l & -> & H)]; now constructor.
  Qed.
End Sem.

Lemma with_name_admits base n t v :
  admits base (with_name n t) v <-> admits (fun _ => base n) t v.
Proof.
  revert v. induction t as [m nn|t IH nn]; intros v; simpl; split; inversion 1; subst;
    constructor; auto; eapply Forall_impl; try eassumption; intros a; apply IH.
Qed.

Lemma type_name_with_name n t : type_name (with_name n t) = n.
Proof. induction t; simpl; auto. Qed.

Lemma type_name_ops t :
  type_name (into_required t) = type_name t /\ type_name (into_nullable t) = type_name t /\
  type_name (into_list t) = type_name t /\ type_name (into_single t) = type_name t.
Proof. repeat split; try (destruct t; reflexivity). induction t; simpl; auto. Qed.

(* ----- the printed text determines the type ----- *)

Lemma sapp_nil_r s : (s ++ "")%string = s.
Proof. induction s; simpl; congruence. Qed.
Lemma sapp_assoc a b c : ((a ++ b) ++ c)%string = (a ++ (b ++ c))%string.
Proof. induction a; simpl; congruence. Qed.

(** reading a plain prefix is deterministic *)
Lemma plain_prefix n : forall m x y,
    plain n = true -> plain m = true ->
    (forall c t, x = String c t -> plain_char c = false) ->
    (forall c t, y = String c t -> plain_char c = false) ->
    (n ++ x)%string = (m ++ y)%string -> n = m /\ x = y.
Proof.
  induction n as [|c n IH]; intros m x y Hn Hm Hx Hy E.
  - destruct m as [|d m]; simpl in E; [auto|].
    simpl in Hm. apply andb_prop in Hm as [Hd _]. rewrite (Hx d (m ++ y)%string E) in Hd. discriminate.
  - destruct m as [|d m]; simpl in E.
    + simpl in Hn. apply andb_prop in Hn as [Hc _]. rewrite (Hy c (n ++ x)%string (eq_sym E)) in Hc. discriminate.
    + injection E as -> E. simpl in Hn, Hm. apply andb_prop in Hn as [_ Hn]. apply andb_prop in Hm as [_ Hm].
      destruct (IH m x y Hn Hm Hx Hy E) as [-> ->]. auto.
Qed.

(** continuation texts that can follow a type inside a bigger text *)
Inductive follow : string -> Prop :=
| follow_end : follow ""
| follow_br x : follow (String "]" x).

Lemma text_inj : forall t u x y,
    plain (type_name t) = true -> plain (type_name u) = true ->
    type_name t <> "" -> type_name u <> "" ->
    follow x -> follow y ->
    (type_text t ++ x)%string = (type_text u ++ y)%string -> t = u /\ x = y.
Proof.
  assert (FP : forall x, follow x -> forall c t, x = String c t -> plain_char c = false)
    by (intros x []; intros c t [= <- <-]; reflexivity).
  assert (BP : forall x c t, String "!" x = String c t -> plain_char c = false)
    by (intros x c t [= <- <-]; reflexivity).
  assert (FB : forall x z, follow x -> x = String "!" z -> False) by (intros x z [] H; discriminate).
  induction t as [n nn|t IH nn]; intros [m mm|u mm] x y Pt Pu Nt Nu Fx Fy E; simpl type_name in *.
  - assert (E' : (n ++ (if nn then String "!" x else x))%string = (m ++ (if mm then String "!" y else y))%string).
    { destruct nn, mm; simpl in E; rewrite ?sapp_assoc in E; exact E. }
    apply plain_prefix in E' as [-> E'']; auto.
    + destruct nn, mm.
      * injection E'' as ->. auto.
      * exfalso. eapply FB; [exact Fy|]. symmetry; exact E''.
      * exfalso. eapply FB; [exact Fx|exact E''].
      * auto.
    + destruct nn; [apply BP|now apply FP].
    + destruct mm; [apply BP|now apply FP].
  - exfalso. destruct n as [|c n]; [congruence|].
    simpl in Pt. apply andb_prop in Pt as [Pc _].
    assert (c = "["%char) as -> by (destruct nn, mm; simpl in E; congruence).
    discriminate.
  - exfalso. destruct m as [|c m]; [congruence|].
    simpl in Pu. apply andb_prop in Pu as [Pc _].
    assert (c = "["%char) as -> by (destruct nn, mm; simpl in E; congruence).
    discriminate.
  - assert (E' : (type_text t ++ String "]" (if nn then String "!" x else x))%string =
                 (type_text u ++ String "]" (if mm then String "!" y else y))%string).
    { destruct nn, mm; cbn [type_text] in E; rewrite ?sapp_assoc in E; simpl in E; injection E as E;
        rewrite ?sapp_assoc in E; exact E. }
    apply IH in E' as [-> E'']; [|assumption..|constructor|constructor].
    injection E'' as E''. destruct nn, mm.
    + injection E'' as ->. auto.
    + exfalso. eapply FB; [exact Fy|]. symmetry; exact E''.
    + exfalso. eapply FB; [exact Fx|exact E''].
    + auto.
Qed.

Lemma type_text_inj t u :
  plain (type_name t) = true -> plain (type_name u) = true ->
  type_name t <> "" -> type_name u <> "" ->
  type_text t = type_text u -> t = u.
Proof.
  intros Pt Pu Nt Nu E. destruct (text_inj t u "" "" Pt Pu Nt Nu) as [H _]; auto; try constructor.
  now rewrite !sapp_nil_r.
Qed.
