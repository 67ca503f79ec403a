(** Proofs about batched GraphQL and gRPC calls (C40). *)
From Coq Require Import String Ascii Bool Arith Lia List.
From Verif Require Import Base BaseFacts StringFacts JsonModel JsonSpec JsonProofs DlModel DlSpec DlProofs
  HttpBatchModel HttpBatchSpec HttpBatchProofs AnswerSpec SplitModel SplitSpec.
Import ListNotations.
Open Scope string_scope.
Open Scope list_scope.

Lemma forall2_len {A B} (R : A -> B -> Prop) l l' : Forall2 R l l' -> length l = length l'.
Proof. induction 1; cbn; congruence. Qed.

Section Gql.
  Context {Meta Raw E : Type}.
  Notation resp := (resp (Meta := Meta)).
  Variable default : Meta.
  Variable listed : list string.
  Variable execute : req -> result Raw E.
  Variable to_json : Raw -> result resp E.
  Notation load := (gql_load listed execute to_json).
  Notation answer := (answer_of default listed).
  Notation key_of := (key_of listed).

  Lemma hand_out_ok (res : resp) values : forall rs i m, NoDup (map key_of rs) ->
    (forall k, ~ In k (map key_of rs) -> lookup key_dec k (hand_out listed res values i rs m) = lookup key_dec k m) /\
    (forall n r, nth_error rs n = Some r ->
       lookup key_dec (key_of r) (hand_out listed res values i rs m) =
       Some {| r_meta := r_meta res; r_body := match nth_error values (i + n) with Some v => v | None => VNull end |}).
  Proof.
    induction rs as [|r rs IH]; cbn [hand_out map]; intros i m D.
    - split; [auto|]. intros [|n] x H; discriminate.
    - apply NoDup_cons_iff in D as [N D].
      destruct (IH (S i) (hput key_dec (key_of r)
        {| r_meta := r_meta res; r_body := match nth_error values i with Some v => v | None => VNull end |} m) D) as [A B].
      split.
      + intros k Nk. cbn in Nk. rewrite A by tauto. rewrite lookup_hput.
        destruct (key_dec k (key_of r)); [exfalso; apply Nk; left; congruence|reflexivity].
      + intros [|n] x H; cbn [nth_error] in H.
        * injection H as <-. rewrite A by exact N. rewrite lookup_hput.
          destruct (key_dec (key_of r) (key_of r)); [|congruence]. now rewrite Nat.add_0_r.
        * rewrite (B n x H). now rewrite <- plus_n_Sm.
  Qed.

  Lemma batch_split keys m : NoDup (map key_of keys) -> load true keys = Ok m ->
    exists first others b raw, keys = first :: others /\ with_other_body first b /\
      q_body b = Some (collect_request_bodies keys) /\ execute b = Ok raw /\
      (forall res vs, to_json raw = Ok res -> r_body res = VList vs ->
         forall i r, nth_error keys i = Some r ->
           answer m r = {| r_meta := r_meta res; r_body := nth i vs VNull |}) /\
      ((forall res vs, to_json raw = Ok res -> r_body res <> VList vs) ->
         forall r, answer m r = {| r_meta := default; r_body := VNull |}).
  Proof.
    intros D H. unfold gql_load in H. destruct keys as [|first others]; cbn [create_batched_request] in H; [discriminate|].
    set (b := with_body first (collect_request_bodies (first :: others))) in *.
    destruct (execute b) as [raw|e] eqn:X; [|discriminate]. injection H as <-.
    exists first, others, b, raw. split; [auto|]. split; [now repeat split|]. split; [reflexivity|]. split; [exact X|].
    unfold extract_responses. split.
    - intros res vs J L i r I. rewrite J, L. unfold answer_of.
      rewrite (proj2 (hand_out_ok res vs (first :: others) 0 [] D) i r I). cbn [Nat.add]. f_equal.
      clear. revert vs. induction i as [|i IH]; intros [|v vs]; cbn; auto.
    - intros N r. unfold answer_of. destruct (to_json raw) as [res|e]; [|reflexivity].
      destruct (r_body res) eqn:L; try reflexivity. exfalso. eapply N; [reflexivity|exact L].
  Qed.

  Lemma batch_fails keys : keys <> [] ->
    ((exists e, load true keys = Err e) <->
     exists first others b e, keys = first :: others /\ b = with_body first (collect_request_bodies keys) /\ execute b = Err e).
  Proof.
    intros N. unfold gql_load. destruct keys as [|first others]; [congruence|]. cbn [create_batched_request].
    split.
    - intros (e & H). destruct (execute _) as [raw|e'] eqn:X; [discriminate|].
      exists first, others, (with_body first (collect_request_bodies (first :: others))), e'. auto.
    - intros (f & o & b & e & K & -> & X). injection K as -> ->. rewrite X. eauto.
  Qed.

  Lemma each_ok : forall rs m m', collect_each listed execute to_json rs m = Ok m' -> NoDup (map key_of rs) ->
    (forall k, ~ In k (map key_of rs) -> lookup key_dec k m' = lookup key_dec k m) /\
    (forall r, In r rs -> exists raw v, execute r = Ok raw /\ to_json raw = Ok v /\ lookup key_dec (key_of r) m' = Some v).
  Proof.
    induction rs as [|r rs IH]; cbn [collect_each map]; intros m m' H D.
    - injection H as ->. split; [auto|intros r []].
    - destruct (rbind (execute r) to_json) as [v|e] eqn:R; [|discriminate].
      apply NoDup_cons_iff in D as [N D]. destruct (IH _ _ H D) as [A B]. split.
      + intros k Nk. cbn in Nk. rewrite A by tauto. rewrite lookup_hput. destruct (key_dec k (key_of r)); [|auto].
        exfalso. apply Nk. left. congruence.
      + intros x [<-|I]; [|auto]. destruct (execute r) as [raw|e]; [|discriminate]. exists raw, v.
        split; [auto|]. split; [exact R|]. rewrite A by exact N. rewrite lookup_hput.
        destruct (key_dec (key_of r) (key_of r)); congruence.
  Qed.

  Lemma unbatched_split keys m : NoDup (map key_of keys) -> load false keys = Ok m ->
    forall r, In r keys -> exists raw v, execute r = Ok raw /\ to_json raw = Ok v /\ answer m r = v.
  Proof.
    intros D H r I. destruct (proj2 (each_ok keys [] m H D) r I) as (raw & v & A & B & C).
    exists raw, v. unfold answer_of. rewrite C. auto.
  Qed.

  Lemma unbatched_fails keys :
    (exists e, load false keys = Err e) <->
    exists r, In r keys /\ ((exists e, execute r = Err e) \/ exists raw e, execute r = Ok raw /\ to_json raw = Err e).
  Proof.
    unfold gql_load. generalize (@nil (key * resp)). induction keys as [|r rs IH]; intros m; cbn [collect_each].
    - split; [intros (e & H); discriminate|intros (r & [] & _)].
    - destruct (execute r) as [raw|e] eqn:X; cbn [rbind].
      + destruct (to_json raw) as [v|e] eqn:J.
        * rewrite IH. split.
          -- intros (x & I & H). exists x. cbn. auto.
          -- intros (x & [<-|I] & H); [|eauto]. exfalso. destruct H as [(e & H)|(raw' & e & H & H')]; congruence.
        * split; [intros _; exists r; split; [now left|right; eauto]|eauto].
      + split; [intros _; exists r; split; [now left|left; eauto]|eauto].
  Qed.
End Gql.

Lemma concat_items (atom : string -> value -> Prop) (name : string -> string -> Prop) bs vs :
  Forall2 (text atom name) bs vs -> items atom name (String.concat "," bs) vs.
Proof.
  induction 1 as [|b v bs vs T F IH]; [apply items_nil|].
  inversion F as [|b' v' bs' vs' T' F']; subst.
  - apply items_one. exact T.
  - change (String.concat "," (b :: b' :: bs')) with (String.append b (String.append "," (String.concat "," (b' :: bs')))).
    apply items_more; [exact T|exact IH|discriminate].
Qed.

Lemma bodies_text (atom : string -> value -> Prop) (name : string -> string -> Prop) keys vs :
  Forall2 (fun r v => exists b, q_body r = Some b /\ text atom name b v) keys vs ->
  text atom name (collect_request_bodies keys) (VList vs).
Proof.
  intros F. unfold collect_request_bodies. apply text_list. apply concat_items.
  induction F as [|r v rs vs (b & B & T) F IH]; cbn [map]; [constructor|]. rewrite B. constructor; auto.
Qed.

Section Grpc.
  Context {Meta E : Type}.
  Notation resp := (resp (Meta := Meta)).
  Variable default : Meta.
  Variable listed : list string.
  Variable upstream : req -> result resp E.
  Variable Msg : Type.
  Variable parse : string -> result Msg E.
  Variable id_of : string -> Msg -> result string E.
  Variable pack : list Msg -> result string E.
  Variable single : req -> result req E.
  Notation load := (grpc_load listed upstream Msg parse id_of pack single).
  Notation answer := (answer_of default listed).
  Notation key_of := (key_of listed).

  Lemma collect_forall2 {A B} (f : A -> result B E) l bs :
    Base.collect (map f l) = Ok bs <-> Forall2 (fun a b => f a = Ok b) l bs.
  Proof.
    revert bs. induction l as [|a l IH]; intros bs; cbn.
    - split; [intros H; injection H as <-; constructor|intros H; inversion H; auto].
    - destruct (f a) as [b|e] eqn:F.
      + destruct (Base.collect (map f l)) as [bs'|e].
        * split.
          -- intros H. injection H as <-. constructor; [exact F|]. now apply IH.
          -- intros H. inversion H as [|? b' ? bs'' H1 H2]; subst. apply IH in H2. congruence.
        * split; [discriminate|]. intros H. inversion H as [|? b' ? bs'' H1 H2]; subst. apply IH in H2. discriminate.
      + split; [discriminate|]. intros H. inversion H as [|? b' ? bs'' H1 H2]; subst. congruence.
  Qed.
  Lemma collect_err {A B} (f : A -> result B E) l :
    (exists e, Base.collect (map f l) = Err e) <-> exists a e, In a l /\ f a = Err e.
  Proof.
    induction l as [|a l IH]; cbn.
    - split; [intros (e & H); discriminate|intros (a & e & [] & _)].
    - destruct (f a) as [b|e] eqn:F.
      + destruct (Base.collect (map f l)) as [bs|e'].
        * split; [intros (e & H); discriminate|]. intros (x & e & [<-|I] & H); [congruence|].
          destruct (proj2 IH) as (e' & H'); [eauto|discriminate].
        * split; [|eauto]. intros _. destruct (proj1 IH) as (x & e & I & H); [eauto|]. exists x, e. auto.
      + split; [intros _; exists a, e; auto|eauto].
  Qed.

  Lemma hand_ids_ok (res : resp) groups : forall kis m, NoDup (map (fun x => key_of (fst x)) kis) ->
    (forall k, ~ In k (map (fun x => key_of (fst x)) kis) -> lookup key_dec k (hand_out_ids listed res groups kis m) = lookup key_dec k m) /\
    (forall r id, In (r, id) kis ->
       lookup key_dec (key_of r) (hand_out_ids listed res groups kis m) =
       Some {| r_meta := r_meta res; r_body := body_single groups id |}).
  Proof.
    induction kis as [|[r id] kis IH]; cbn [hand_out_ids map fst]; intros m D.
    - split; [auto|intros r id []].
    - apply NoDup_cons_iff in D as [N D].
      destruct (IH (hput key_dec (key_of r) {| r_meta := r_meta res; r_body := body_single groups id |} m) D) as [A B]. split.
      + intros k Nk. cbn in Nk. rewrite A by tauto. rewrite lookup_hput.
        destruct (key_dec k (key_of r)); [exfalso; apply Nk; left; congruence|reflexivity].
      + intros x j [I|I]; [|auto]. injection I as <- <-. rewrite A by exact N. rewrite lookup_hput.
        destruct (key_dec (key_of r) (key_of r)); congruence.
  Qed.

  Lemma combine_fst {A B} (l : list A) (l' : list B) : length l = length l' -> map fst (combine l l') = l.
  Proof. revert l'. induction l as [|a l IH]; intros [|b l'] H; cbn in *; try discriminate; [auto|]. f_equal. apply IH. lia. Qed.

  Lemma combine_in {A B C} (f : A -> result B E) (g : B -> result C E) : forall l bs cs,
    Forall2 (fun a b => f a = Ok b) l bs -> Forall2 (fun b c => g b = Ok c) bs cs ->
    forall a, In a l -> exists b c, f a = Ok b /\ g b = Ok c /\ In (a, c) (combine l cs).
  Proof.
    induction l as [|a l IH]; intros bs cs F G x I; [destruct I|].
    inversion F as [|? b ? bs' Fa Ft]; subst. inversion G as [|? c ? cs' Ga Gt]; subst. destruct I as [<-|I].
    - exists b, c. cbn. auto.
    - destruct (IH _ _ Ft Gt x I) as (b' & c' & P & Q & R). exists b', c'. cbn. auto.
  Qed.

  Lemma grouped_split g keys m : NoDup (map key_of keys) -> load (Some g) keys = Ok m ->
    exists first others msgs body res, keys = first :: others /\
      Forall2 (fun r msg => parse (text_of r) = Ok msg) keys msgs /\ pack msgs = Ok body /\
      upstream (with_body first body) = Ok res /\
      forall r, In r keys -> exists msg id, parse (text_of r) = Ok msg /\ id_of (group_key g) msg = Ok id /\
        forall found rs, matches (group_path g) (r_body res) found ->
          Forall (fun kv => exact_id (fst kv)) found -> picked id found rs ->
          answer m r = {| r_meta := r_meta res; r_body := shown false rs |}.
  Proof.
    intros D H. cbn [grpc_load] in H. unfold load_with_group_by, convert_multiple_inputs in H. rewrite map_map in H.
    destruct (Base.collect (map (fun x => parse (text_of x)) keys)) as [msgs|e] eqn:P; cbn [rbind] in H; [|discriminate].
    destruct (Base.collect (map (id_of (group_key g)) msgs)) as [ids|e] eqn:I; cbn [rbind] in H; [|discriminate].
    destruct (pack msgs) as [body|e] eqn:K; cbn [rmap rbind] in H; [|discriminate].
    destruct keys as [|first others]; [discriminate|].
    destruct (upstream (with_body first body)) as [res|e] eqn:U; [|discriminate]. injection H as <-.
    exists first, others, msgs, body, res. apply collect_forall2 in P, I.
    split; [auto|]. split; [exact P|]. split; [exact K|]. split; [exact U|].
    intros r R. destruct (combine_in _ _ _ _ _ P I r R) as (msg & id & A & B & C). exists msg, id.
    split; [exact A|]. split; [exact B|]. intros found rs M X Q. unfold answer_of.
    assert (L : length (first :: others) = length ids) by (rewrite (forall2_len _ _ _ P); exact (forall2_len _ _ _ I)).
    assert (D' : NoDup (map (fun x => key_of (fst x)) (combine (first :: others) ids))).
    { rewrite <- map_map with (f := fst) (g := key_of). rewrite combine_fst by exact L. exact D. }
    change (match ids with [] => [] | y :: tl => (first, y) :: combine others tl end) with (combine (first :: others) ids).
    rewrite (proj2 (hand_ids_ok res (group_by (r_body res) (group_path g)) _ [] D') r id C).
    f_equal. exact (extract_shown (r_body res) (group_path g) false id found rs M X Q).
  Qed.

  Lemma grouped_fails_iff g keys : keys <> [] ->
    ((exists e, load (Some g) keys = Err e) <->
     (exists r e, In r keys /\ parse (text_of r) = Err e) \/
     (exists r msg e, In r keys /\ parse (text_of r) = Ok msg /\ id_of (group_key g) msg = Err e) \/
     (exists msgs e, Forall2 (fun r msg => parse (text_of r) = Ok msg) keys msgs /\ pack msgs = Err e) \/
     (exists first others msgs body e, keys = first :: others /\
        Forall2 (fun r msg => parse (text_of r) = Ok msg) keys msgs /\ pack msgs = Ok body /\
        upstream (with_body first body) = Err e)).
  Proof.
    intros N. cbn [grpc_load]. unfold load_with_group_by, convert_multiple_inputs. rewrite map_map.
    assert (CE := collect_err (fun x => parse (text_of x)) keys).
    assert (CO := collect_forall2 (fun x => parse (text_of x)) keys).
    destruct (Base.collect (map (fun x => parse (text_of x)) keys)) as [msgs|e] eqn:P; cbn [rbind].
    - assert (F := proj1 (CO msgs) eq_refl).
      assert (U : forall ms, Forall2 (fun r msg => parse (text_of r) = Ok msg) keys ms -> ms = msgs)
        by (intros ms Q; apply CO in Q; congruence).
      assert (NP : ~ exists r e, In r keys /\ parse (text_of r) = Err e)
        by (intros Q; apply CE in Q as (e & Q); discriminate).
      assert (IE := collect_err (id_of (group_key g)) msgs).
      destruct (Base.collect (map (id_of (group_key g)) msgs)) as [ids|e] eqn:I; cbn [rbind].
      + assert (NI : ~ exists r msg e, In r keys /\ parse (text_of r) = Ok msg /\ id_of (group_key g) msg = Err e).
        { intros (r & msg & e & R & A & B). assert (X : exists e : E, Ok ids = Err e); [|destruct X; discriminate].
          apply IE. exists msg, e. split; [|exact B].
          clear -F R A. induction F as [|a b l l' H F IH]; [destruct R|]. destruct R as [->|R]; [left; congruence|right; auto]. }
        destruct (pack msgs) as [body|e] eqn:K; cbn [rmap rbind].
        * destruct keys as [|first others]; [congruence|]. destruct (upstream (with_body first body)) as [res|e] eqn:Up.
          -- split; [intros (e & H); discriminate|]. intros [H|[H|[(ms & e & H & H')|(f & o & ms & b & e & Q & H & H' & H'')]]];
               [tauto|tauto| |]; apply U in H; subst ms; [congruence|]. injection Q as <- <-. congruence.
          -- split; [|eauto]. intros _. right; right; right. exists first, others, msgs, body, e. auto.
        * split; [|eauto]. intros _. right; right; left. exists msgs, e. auto.
      + split; [|eauto]. intros _. right; left. destruct (proj1 IE) as (msg & e' & A & B); [eauto|].
        assert (X : exists r, In r keys /\ parse (text_of r) = Ok msg).
        { clear -F A. induction F as [|a b l l' H F IH]; [destruct A|]. destruct A as [->|A]; [exists a; cbn; auto|].
          destruct (IH A) as (r & R & Q). exists r. cbn. auto. }
        destruct X as (r & R & Q). exists r, msg, e'. auto.
    - split; [|eauto]. intros _. left. apply CE. eauto.
  Qed.

  Lemma dedupe_ok : forall rs m m', load_dedupe_only listed upstream single rs m = Ok m' -> NoDup (map key_of rs) ->
    (forall k, ~ In k (map key_of rs) -> lookup key_dec k m' = lookup key_dec k m) /\
    (forall r, In r rs -> exists q v, single r = Ok q /\ upstream q = Ok v /\ lookup key_dec (key_of r) m' = Some v).
  Proof.
    induction rs as [|r rs IH]; cbn [load_dedupe_only map]; intros m m' H D.
    - injection H as ->. split; [auto|intros r []].
    - destruct (rbind (single r) upstream) as [v|e] eqn:R; [|discriminate].
      apply NoDup_cons_iff in D as [N D]. destruct (IH _ _ H D) as [A B]. split.
      + intros k Nk. cbn in Nk. rewrite A by tauto. rewrite lookup_hput. destruct (key_dec k (key_of r)); [|auto].
        exfalso. apply Nk. left. congruence.
      + intros x [<-|I]; [|auto]. destruct (single r) as [q|e]; [|discriminate]. exists q, v.
        split; [auto|]. split; [exact R|]. rewrite A by exact N. rewrite lookup_hput.
        destruct (key_dec (key_of r) (key_of r)); congruence.
  Qed.
  Lemma ungrouped_split keys m : NoDup (map key_of keys) -> load None keys = Ok m ->
    forall r, In r keys -> exists q v, single r = Ok q /\ upstream q = Ok v /\ answer m r = v.
  Proof.
    intros D H r I. destruct (proj2 (dedupe_ok keys [] m H D) r I) as (q & v & A & B & C).
    exists q, v. unfold answer_of. rewrite C. auto.
  Qed.
End Grpc.
