From Coq Require Import String Ascii NArith Bool Lia List.
From Verif Require Import Base UrlModel.
Import ListNotations.
Open Scope list_scope.
Open Scope string_scope.

Lemma app_nil_r_str s : s ++ "" = s.
Proof. induction s; cbn; congruence. Qed.
Lemma app_assoc_str a b c : (a ++ b) ++ c = a ++ (b ++ c).
Proof. induction a; cbn; congruence. Qed.

Lemma encode_app a b : encode_query (a ++ b) = encode_query a ++ encode_query b.
Proof.
  induction a as [|c a IH]; [reflexivity|]. cbn [String.append encode_query].
  destruct (query_dropped c); [exact IH|]. destruct (query_escaped c); cbn; now rewrite IH.
Qed.

Lemma split_app c a b : split_on c (a ++ String c b) = (split_on c a ++ split_on c b)%list.
Proof.
  induction a as [|d a IH]; cbn [String.append split_on].
  - rewrite Ascii.eqb_refl. reflexivity.
  - destruct (Ascii.eqb d c); [now rewrite IH|]. rewrite IH.
    destruct (split_on c a) as [|h r] eqn:E; [|reflexivity].
    destruct a as [|x a]; cbn in E; [discriminate|]. destruct (Ascii.eqb x c); [discriminate|].
    destruct (split_on c a); discriminate.
Qed.

Lemma encode_amp b : encode_query (String "&" b) = String "&" (encode_query b).
Proof. reflexivity. Qed.

Lemma form_pairs_app a b :
  form_pairs (encode_query (a ++ "&" ++ b)) = (form_pairs (encode_query a) ++ form_pairs (encode_query b))%list.
Proof.
  rewrite encode_app. cbn [String.append]. rewrite encode_amp. unfold form_pairs. rewrite split_app. apply flat_map_app.
Qed.

(** Decoding undoes one escaped character; all 256 characters are tried. *)
Lemma decode_escaped c t :
  decode_form (String "%" (String (hex_digit (N.div (N_of_ascii c) 16)) (String (hex_digit (N.modulo (N_of_ascii c) 16)) t)))
  = String c (decode_form t).
Proof. destruct c as [[] [] [] [] [] [] [] []]; reflexivity. Qed.

Lemma hex_digits_char c x :
  (In x ["&"; "="; "%"; "+"]%char) -> hex_digit (N.div (N_of_ascii c) 16) <> x /\ hex_digit (N.modulo (N_of_ascii c) 16) <> x.
Proof. intros H. cbn in H. destruct H as [<-|[<-|[<-|[<-|[]]]]]; destruct c as [[] [] [] [] [] [] [] []]; split; discriminate. Qed.
