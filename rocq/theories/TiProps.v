(** C91: [tailcall init] keeps the files of the user. *)
From Coq Require Import String Ascii Bool List.
From Verif Require Import Base TiModel TiSpec TiProofs.
Import ListNotations.
Open Scope string_scope.
Open Scope list_scope.

(** Whenever the command is stopped, whatever the answers and whichever writes fail or are torn: a file that was there is as it was, or the user agreed to its being overwritten, or it is a
    [.graphqlrc.yml] that cannot be read. *)
Theorem C91_files_are_kept : forall rc rc_schema parse print main_text main_schema can choice s v p f,
  s_past s = [] ->
  In v (found (snd (init rc rc_schema parse print main_text main_schema can choice s))) ->
  aget p (v_files (s_now s)) = Some f ->
  aget p (v_files v) = Some f \/ In p (v_agreed v) \/ (p = ".graphqlrc.yml" /\ f = Unreadable).
Proof.
  intros until f. intros P I F. destruct (init_inv rc rc_schema parse print main_text main_schema (s_now s) choice can s eq_refl P) as [G _]. rewrite Forall_forall in G.
  destruct (G v I p) as [Q|([M|[M|[M1 M2]]] & _)]; [left; congruence|congruence|auto|]. right. right. split; [exact M1|congruence].
Qed.
Print Assumptions C91_files_are_kept.

(** Nothing but the five files changes, and each holds a beginning of what is to be written to it. *)
Theorem C91_only_its_own_files : forall rc rc_schema parse print main_text main_schema can choice s v p,
  s_past s = [] ->
  In v (found (snd (init rc rc_schema parse print main_text main_schema can choice s))) ->
  aget p (v_files v) = aget p (v_files (s_now s)) \/
  exists t content, wanted rc rc_schema parse print main_text main_schema (v_files (s_now s)) choice p content /\ aget p (v_files v) = Some (Text t) /\ begins t content.
Proof.
  intros until p. intros P I. destruct (init_inv rc rc_schema parse print main_text main_schema (s_now s) choice can s eq_refl P) as [G _]. rewrite Forall_forall in G.
  destruct (G v I p) as [Q|(_ & t & content & T & W & B)]; [now left|right]. exists t, content. auto.
Qed.
Print Assumptions C91_only_its_own_files.

(** If the command succeeds, a format was chosen and each file holds what is to be written to it, or was there and has been left alone. *)
Theorem C91_success_is_whole : forall rc rc_schema parse print main_text main_schema can choice s p content,
  s_past s = [] ->
  let r := init rc rc_schema parse print main_text main_schema can choice s in
  fst r = true ->
  choice <> None /\
  (wanted rc rc_schema parse print main_text main_schema (v_files (s_now s)) choice p content ->
   aget p (v_files (s_now (snd r))) = Some (Text content) \/
   (aget p (v_files (s_now s)) <> None /\ aget p (v_files (s_now (snd r))) = aget p (v_files (s_now s)))).
Proof.
  intros until content. intros P r Ok. destruct (init_inv rc rc_schema parse print main_text main_schema (s_now s) choice can s eq_refl P) as [_ H]. destruct (H Ok) as (C & l & (_ & _ & S) & L). split; [exact C|].
  intros W. rewrite Forall_forall in S. destruct (S p (L p content W)) as [(c & Wc & E)|Q]; [left|now right]. unfold r. rewrite E. do 2 f_equal.
  clear - W Wc. inversion W; subst; inversion Wc; subst; try reflexivity; try congruence; exfalso; eauto.
Qed.
Print Assumptions C91_success_is_whole.

(** Of a user that never agrees, nothing is lost. *)
Theorem C91_without_agreement : forall rc rc_schema parse print main_text main_schema can choice s v p f,
  s_past s = [] -> v_agreed (s_now s) = [] -> ~ In Yes (s_answers s) ->
  In v (found (snd (init rc rc_schema parse print main_text main_schema can choice s))) ->
  aget p (v_files (s_now s)) = Some f -> f <> Unreadable ->
  aget p (v_files v) = Some f.
Proof.
  intros until f. intros P A N I F U. destruct (C91_files_are_kept _ _ _ _ _ _ _ _ _ _ _ _ P I F) as [Q|[Q|[_ Q]]]; [exact Q| |contradiction].
  assert (Z : never s) by (split; [exact N|unfold found; rewrite P; now repeat constructor]). apply (init_never rc rc_schema parse print main_text main_schema can choice) in Z as [_ Z].
  rewrite Forall_forall in Z. rewrite (Z v I) in Q. destruct Q.
Qed.
Print Assumptions C91_without_agreement.

(** If the folder is not there and the user declines to create it, nothing is written and the command fails. *)
Theorem C91_folder_declined : forall rc rc_schema parse print main_text main_schema can choice s,
  v_folder (s_now s) = false -> v_files (s_now s) = [] -> (forall rest, s_answers s <> Yes :: rest) ->
  let r := init rc rc_schema parse print main_text main_schema can choice s in
  fst r = false /\ s_now (snd r) = s_now s /\ s_past (snd r) = s_past s.
Proof.
  intros until s. intros F E A r. unfold r, init, create_directory, prompt. rewrite F. destruct (s_answers s) as [|a rest]; [cbn; auto|]. destruct a; [now destruct (A rest)| |cbn; auto]. cbn [next].
  destruct choice as [src|]; [|cbn; auto]. set (s1 := {| s_now := s_now s; s_past := s_past s; s_answers := rest; s_writes := s_writes s |}).
  destruct (confirm_nofolder ".tailcallrc.graphql" rc s1 F E) as (Q & N & Pa). destruct (confirm_and_write ".tailcallrc.graphql" rc s1) as [ok s2]. cbn in Q, N, Pa. subst ok. cbn. auto.
Qed.
Print Assumptions C91_folder_declined.

(** What is merged into [.graphqlrc.yml]: all but the schema stays, and what the schema lists is kept, before the two patterns. *)
Theorem C91_settings_are_kept : forall m, keys_once m -> exists m',
  merge_yaml (YMapping m) default_graphqlrc = YMapping m' /\
  (forall k, k <> "schema" -> aget k m' = aget k m) /\
  (aget "schema" m = None -> aget "schema" m' = Some (YSequence globs)) /\
  (forall l, aget "schema" m = Some (YSequence l) -> aget "schema" m' = Some (YSequence (l ++ globs))).
Proof.
  intros m K. destruct (merge_default m K) as (m' & E & O & S). exists m'. split; [exact E|]. split; [exact O|]. split; [intros N; now rewrite S, N|]. intros l L. rewrite S, L. reflexivity.
Qed.
Print Assumptions C91_settings_are_kept.

(** A run with a folder that has files of the user *)
Definition a_parse (t : string) : option yaml := if String.eqb t "documents: x" then Some (YMapping [("documents", YString "x")]) else if String.eqb t "new" then Some default_graphqlrc else None.
Definition a_print (y : yaml) : string :=
  match y with
  | YMapping [("schema", YSequence [_; _])] => "new"
  | YMapping [("schema", YSequence [_; _; _; _])] => "twice"
  | YMapping [("documents", _); _] => "both"
  | _ => "other"
  end.
Definition a_init (choice : option source) (s : state) : bool * state := init "rc" "rcs" a_parse a_print (fun src => match src with Json => "{}" | Yml => "y" end) "type Query" true choice s.
Definition a_state (files : list (string * file)) (answers : list answer) (writes : list write_outcome) : state :=
  {| s_now := {| v_folder := true; v_files := files; v_agreed := [] |}; s_past := []; s_answers := answers; s_writes := writes |}.
Definition of_user : list (string * file) := [("main.json", Text "mine"); (".graphqlrc.yml", Text "documents: x"); ("a.txt", Unreadable)].
Definition writes_well : list write_outcome := [Written 1; Written 1; Written 1; Written 1; Written 1].
Example C91_example : let r := a_init (Some Json) (a_state of_user [Yes; No] writes_well) in
  fst r = true /\ v_agreed (s_now (snd r)) = [".graphqlrc.yml"] /\
  v_files (s_now (snd r)) = [("main.json", Text "mine"); (".graphqlrc.yml", Text "both"); ("a.txt", Unreadable); (".tailcallrc.graphql", Text "rc"); (".tailcallrc.schema.json", Text "rcs"); ("main.graphql", Text "type Query")].
Proof. vm_compute. repeat split. Qed.
Example C91_torn_example : let r := a_init (Some Yml) (a_state of_user [Yes] [Written 1; Torn 2]) in
  fst r = false /\ aget ".graphqlrc.yml" (v_files (s_now (snd r))) = Some (Text "bo") /\ aget "main.json" (v_files (s_now (snd r))) = Some (Text "mine").
Proof. vm_compute. repeat split. Qed.
Example C91_never_example : let s := a_state of_user [No; No] writes_well in
  s_past s = [] /\ v_agreed (s_now s) = [] /\ ~ In Yes (s_answers s) /\ fst (a_init (Some Json) s) = true.
Proof. cbn. repeat split. intuition discriminate. Qed.
Example C91_folder_example : fst (a_init (Some Json) {| s_now := {| v_folder := false; v_files := []; v_agreed := [] |}; s_past := []; s_answers := [No]; s_writes := writes_well |}) = false.
Proof. reflexivity. Qed.
Example C91_settings_example : keys_once [("schema", YSequence [YString "a"]); ("documents", YString "x")] /\
  merge_yaml (YMapping [("schema", YSequence [YString "a"]); ("documents", YString "x")]) default_graphqlrc = YMapping [("documents", YString "x"); ("schema", YSequence (YString "a" :: globs))].
Proof. split; [|reflexivity]. repeat constructor; cbn; intuition discriminate. Qed.

(** "No file is overwritten unless the user agrees": a [.graphqlrc.yml] that cannot be read as a text is. *)
Theorem C91_unasked_refuted : exists s, s_answers s = [] /\ aget ".graphqlrc.yml" (v_files (s_now s)) = Some Unreadable /\
  fst (a_init (Some Json) s) = true /\ v_agreed (s_now (snd (a_init (Some Json) s))) = [] /\ aget ".graphqlrc.yml" (v_files (s_now (snd (a_init (Some Json) s)))) = Some (Text "new").
Proof. exists (a_state [(".graphqlrc.yml", Unreadable)] [] writes_well). vm_compute. repeat split. Qed.
Print Assumptions C91_unasked_refuted.

(** "What is overwritten is either the old text or the new one": in between it is empty. *)
Theorem C91_atomic_refuted : exists s v, s_past s = [] /\ aget "main.json" (v_files (s_now s)) = Some (Text "mine") /\
  In v (found (snd (a_init (Some Json) s))) /\ aget "main.json" (v_files v) = Some (Text "").
Proof.
  exists (a_state of_user [Yes; Yes] writes_well), (nth 5 (found (snd (a_init (Some Json) (a_state of_user [Yes; Yes] writes_well)))) {| v_folder := true; v_files := []; v_agreed := [] |}). vm_compute. repeat split; auto 20.
Qed.
Print Assumptions C91_atomic_refuted.

(** "Running the command again changes nothing": the patterns are listed once more. *)
Theorem C91_again_refuted : exists files, aget ".graphqlrc.yml" files = Some (Text "new") /\ v_files (s_now (snd (a_init (Some Json) (a_state [] [] writes_well)))) = files /\
  merge_yaml default_graphqlrc default_graphqlrc = YMapping [("schema", YSequence (globs ++ globs))] /\
  aget ".graphqlrc.yml" (v_files (s_now (snd (a_init (Some Json) (a_state files [Yes; Yes; Yes; Yes; Yes] writes_well))))) = Some (Text "twice").
Proof. eexists. split; [|split; [vm_compute; reflexivity|split; [reflexivity|vm_compute; reflexivity]]]. reflexivity. Qed.
Print Assumptions C91_again_refuted.

(** "A schema named by the settings stays": named by a text and not by a list, it is lost. *)
Theorem C91_one_schema_refuted : exists name, merge_yaml (YMapping [("schema", YString name)]) default_graphqlrc = default_graphqlrc.
Proof. exists "mine.graphql". reflexivity. Qed.
Print Assumptions C91_one_schema_refuted.
