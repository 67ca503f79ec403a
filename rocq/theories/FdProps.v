(** C82: a federated schema answers for its entities and gives its own text. *)
From Coq Require Import String Ascii ZArith NArith Bool Arith Lia List.
From Verif Require Import Base Ordered OrderedFacts JsonModel TypeModel ConfigModel AuthModel IrModel IrSpec CtxModel ComposeModel FieldModel FieldSpec DocSpec EntityModel EntitySpec FdModel FdSpec FdProofs Fd2Proofs.
From Verif Require FieldProps EntityProps.
Import ListNotations.
Open Scope string_scope.
Open Scope list_scope.

(** ** Entities *)
(** From the configuration that was written, with federation on, to an answer: [c'] is the configuration after the step
    that makes it a subgraph (C66), [fields] are the fields of the query type (C62 to C65), and [defs'] is the schema that
    is served.  Its query type has the field [_entities].  Asked with a list of representations it answers, in their order,
    what the resolver of the type of each gives for that representation, with the name of the type; if that is possible for
    all of them it does; and if there is one whose type is not an entity, it fails before anything is called. *)
Theorem C82_entities : forall (IO : Type) compile valid_templates print json_text details_of key_directive c c' q m tq added (fields : list (fdef IO)) rest defs defs',
  osorted scmp (c_types c) -> known details_of c -> written_down c -> federated c -> own_query c q -> ~ reserved q ->
  subgraph json_text details_of key_directive c = Ok c' -> m_config m = c' -> find_type c' q = Some tq ->
  to_fields compile valid_templates m q tq added = Ok fields -> In (DObject q fields rest) defs ->
  update_federation compile print c' q defs = Ok defs' -> (exists n, is_entity c n) ->
  exists fields', In (DObject q fields' rest) defs' /\
    (exists d a, In d fields' /\ d_name d = "_entities" /\ d_type d = TList (TNamed "_Entity" false) true /\
       d_args d = [("representations", a)] /\ arg_type a = TList (TNamed "_Any" true) true) /\
    forall d, In d fields' -> d_name d = "_entities" ->
    forall (F Key St : Type) rx ext req (do_io : IO -> ctx -> St -> result value F * St) (cache_key : IO -> ctx -> option Key) cache_get cache_set x l st r st',
      option_map cow_value (path_arg x ["representations"]) = Some (VList l) ->
      deliver rx ext req do_io cache_key cache_get cache_set d x st = (r, st') ->
      (forall v, r = Ok v -> exists ws, v = VList ws /\ answered rx ext req do_io cache_key cache_get cache_set compile c x l st ws st') /\
      (forall ws st'', answered rx ext req do_io cache_key cache_get cache_set compile c x l st ws st'' ->
         exists ws', r = Ok (VList ws') /\ st' = st'' /\ answered rx ext req do_io cache_key cache_get cache_set compile c x l st ws' st') /\
      (forall repr, In repr l -> (forall n, of_type repr n -> ~ is_entity c n) -> (exists msg, r = Err (EEntity msg)) /\ st' = st).
Proof.
  intros IO compile valid_templates print json_text details_of key_directive c c' q m tq added fields rest defs defs' SO KN WD FE OQ NR SU _ FT TF ID UF HE.
  destruct (entities_in_place compile valid_templates print json_text details_of key_directive c c' q m tq added fields rest defs defs' SO KN WD FE OQ NR SU FT TF ID UF HE) as (fields' & tbl & I & T & D & R).
  exists fields'. split; [exact I|]. split; [exact D|]. intros d Id Nd F Key St rx ext req do_io cache_key cache_get cache_set x l st r st' P H.
  unfold deliver in H. rewrite (R d Id Nd) in H. destruct (entities_evaluated rx ext req do_io cache_key cache_get cache_set compile c tbl T x l st r st' P H) as (A & B & C).
  split; [exact A|]. split; [exact B|]. intros repr Ir N. apply (C repr Ir). intros n e O (t & r0 & E1 & E2 & _). apply (N n O). now exists t, r0.
Qed.
Print Assumptions C82_entities.

(** ** The schema itself *)
(** The field [_service] gives the text of the schema as it was before this step, and the line that opts in to federation. *)
Theorem C82_service : forall (IO : Type) compile valid_templates print json_text details_of key_directive c c' q m tq added (fields : list (fdef IO)) rest defs defs',
  osorted scmp (c_types c) -> known details_of c -> written_down c -> federated c -> own_query c q -> ~ reserved q ->
  subgraph json_text details_of key_directive c = Ok c' -> m_config m = c' -> find_type c' q = Some tq ->
  to_fields compile valid_templates m q tq added = Ok fields -> In (DObject q fields rest) defs ->
  update_federation compile print c' q defs = Ok defs' ->
  NoDup (map def_name defs) -> NoDup (map (fun d => d_name d) fields) ->
  exists fields' d, In (DObject q fields' rest) defs' /\ In d fields' /\ d_name d = "_service" /\ d_type d = TNamed "_Service" true /\ d_args d = [] /\
    forall (F Key St : Type) rx ext req (do_io : IO -> ctx -> St -> result value F * St) (cache_key : IO -> ctx -> option Key) cache_get cache_set x st,
      deliver rx ext req do_io cache_key cache_get cache_set d x st = (Ok (VObj [("sdl", VStr (print defs ++ federation_link))]), st).
Proof.
  intros IO compile valid_templates print json_text details_of key_directive c c' q m tq added fields rest defs defs' SO KN WD FE OQ NR SU _ FT TF ID UF N1 N2.
  destruct (service_in_place compile valid_templates print json_text details_of key_directive c c' q m tq added fields rest defs defs' SO KN WD FE OQ NR SU FT TF ID UF N1 N2) as (fields' & d & I & Id & Nd & T & A & R).
  exists fields', d. do 5 (split; [assumption|]). intros. unfold deliver. now rewrite R.
Qed.
Print Assumptions C82_service.

(** ** What stays *)
(** Every definition stays, but for what resolves the two fields of federation in the query type. *)
Theorem C82_the_rest_stays : forall (IO : Type) compile print json_text details_of key_directive c c' q tq defs defs',
  osorted scmp (c_types c) -> known details_of c -> written_down c -> federated c -> own_query c q -> ~ reserved q ->
  subgraph json_text details_of key_directive c = Ok c' -> find_type c' q = Some tq ->
  update_federation compile print c' q defs = Ok defs' ->
  Forall2 (fun D D' : bdef IO => D' = D \/ exists fields fields' rest, D = DObject q fields rest /\ D' = DObject q fields' rest /\
    Forall2 (fun d d' => same_field d d' /\ (d_name d <> "_service" -> d_name d <> "_entities" -> d' = d)) fields fields') defs defs'.
Proof. intros IO compile print json_text details_of key_directive c c' q tq defs defs' SO KN WD FE OQ NR SU FT UF. eapply others_stay; eauto. Qed.
Print Assumptions C82_the_rest_stays.
Theorem C82_off : forall (IO : Type) compile print c q (defs : list (bdef IO)), ~ federated c -> update_federation compile print c q defs = Ok defs.
Proof. intros IO compile print c q defs N. unfold update_federation, federated in *. destruct (s_federation (c_server c)) as [[|]|]; [now elim N|reflexivity|reflexivity]. Qed.
Print Assumptions C82_off.

(** ** When it is accepted *)
(** If no field of the query type is renamed or added, exactly if the resolver of every entity can be made. *)
Theorem C82_accepted_partial : forall (IO : Type) compile valid_templates print json_text details_of key_directive c c' q m tq (fields : list (fdef IO)) rest defs,
  osorted scmp (c_types c) -> known details_of c -> written_down c -> federated c -> own_query c q -> ~ reserved q ->
  subgraph json_text details_of key_directive c = Ok c' -> find_type c' q = Some tq -> osorted scmp (t_fields tq) ->
  to_fields compile valid_templates m q tq [] = Ok fields -> (forall k f new, In (k, f) (t_fields tq) -> ~ renamed f new) ->
  In (DObject q fields rest) defs -> NoDup (map def_name defs) ->
  ((exists defs', update_federation compile print c' q defs = Ok defs') <-> forall n, is_entity c n -> exists e, entity compile c n e).
Proof. intros. eapply accepted; eauto. Qed.
Print Assumptions C82_accepted_partial.

(** ** A concrete configuration *)
Import FieldProps EntityProps.
(** An upstream call for [http u] is [u] and the [id] of the value. *)
Definition fcompile (_ : string) (_ : field) (r : resolver) : checked (option (ir string)) blueprint_error :=
  match r with RHttp _ u => Ok (Some (IIO u)) | REntity _ | RService => Ok None | _ => Err [Build_cause [] (Other "not here")] end.
Definition fdetails (r : resolver) : details := match r with RHttp _ _ => DHttp "http://api/{{.value.id}}" None [] [] | _ => DOther end.
Definition fprint (defs : list (bdef string)) : string := String.concat " " (map def_name defs).
Definition fio (u : string) (x : ctx) (calls : list string) : result value string * list string :=
  match c_over_value x with
  | Some (VObj m) => match aget "id" m with Some (VStr i) => (Ok (VObj [("id", VStr i); ("from", VStr u)]), (u ++ i)%string :: calls) | _ => (Err "down", calls) end
  | _ => (Ok (VStr u), u :: calls)
  end.
Definition fask (pass : option string) (d : fdef string) (l : list value) :=
  deliver (Key := unit) xrx xext (xreq pass) fio (fun _ _ => None) (fun _ st => (Ok None, st)) (fun _ _ _ st => (Ok tt, st)) d
    {| c_value := None; c_args := Some [("representations", VList l)]; c_over_value := None; c_over_args := None; c_is_query := true |} [].
Definition fpost : gtype := zt [("from", zf "String"); ("id", zf "String")] [http "/posts/"].
Definition fuser : gtype := zt [("from", zf "String"); ("id", zf "String")] [http "/users/"].
Definition fquery (p : option protected) (fs : list (string * field)) : config :=
  zc [("Post", fpost); ("Query", xt p fs); ("User", fuser)].
Definition served (c : config) (ps : list (option string * provider)) (added : list add_field) : option (config * gtype * list (fdef string) * list (bdef string)) :=
  match subgraph zjson fdetails zkey c with
  | Ok c' =>
      match find_type c' "Query" with
      | Some tq =>
          match to_fields fcompile xvalid (xm c' ps) "Query" tq added with
          | Ok fields => Some (c', tq, fields, [DElse "Post" ""; DObject "Query" fields "doc"; DElse "User" ""])
          | Err _ => None
          end
      | None => None
      end
  | Err _ => None
  end.
Definition answer_of (c : config) (ps : list (option string * provider)) (added : list add_field) (pass : option string) (name : string) (l : list value) :=
  match served c ps added with
  | Some (c', _, _, defs) =>
      match update_federation fcompile fprint c' "Query" defs with
      | Ok [_; DObject _ fields _; _] => option_map (fun d => fask pass d l) (find (fun d => String.eqb (d_name d) name) fields)
      | _ => None
      end
  | None => None
  end.
Definition f82 : config := fquery None [("a", xf (xn "String") [http "/a"])].
Definition repr (t i : string) : value := VObj [("__typename", VStr t); ("id", VStr i)].

Example C82_example_hypotheses :
  osorted scmp (c_types f82) /\ known fdetails f82 /\ written_down f82 /\ federated f82 /\ own_query f82 "Query" /\ ~ reserved "Query" /\ is_entity f82 "User" /\
  exists c' tq fields defs defs', served f82 [] [] = Some (c', tq, fields, defs) /\ update_federation fcompile fprint c' "Query" defs = Ok defs' /\
    osorted scmp (t_fields tq) /\ (forall k f new, In (k, f) (t_fields tq) -> ~ renamed f new) /\ NoDup (map def_name defs) /\ NoDup (map (fun d => d_name d) fields).
Proof.
  split; [apply (osortedb_ok scmp scmp_order); reflexivity|]. split; [intros n t r I J; right; cbn in I; repeat (destruct I as [I|I]; [injection I as <- <-; cbn in J; try contradiction; destruct J as [<-|[]]; exact Logic.I|]); destruct I|].
  split; [intros n t Ft; apply (oget_in scmp scmp_order) in Ft; cbn in Ft; repeat (destruct Ft as [I|Ft]; [injection I as <- <-; split; [intros r J; cbn in J; try contradiction; destruct J as [<-|[]]; reflexivity|]; intros k f r G J; apply (oget_in scmp scmp_order) in G; cbn in G; repeat (destruct G as [E|G]; [injection E as <- <-; cbn in J; try contradiction; destruct J as [<-|[]]; reflexivity|]); destruct G|]); destruct Ft|].
  split; [reflexivity|]. split; [now left|]. split; [intros [E|E]; discriminate|]. split; [exists fuser, (http "/users/"); now split|].
  eexists _, _, _, _, _. split; [vm_compute; reflexivity|]. split; [vm_compute; reflexivity|]. split; [apply (osortedb_ok scmp scmp_order); reflexivity|]. split.
  - intros k f new I (mo & E & _). cbn in I. repeat (destruct I as [I|I]; [injection I as <- <-; discriminate E|]); destruct I.
  - split; repeat constructor; cbn; intuition discriminate.
Qed.
Example C82_example_answers :
  answer_of f82 [] [] None "_entities" [repr "User" "1"; repr "Post" "2"; repr "User" "3"] =
    Some (Ok (VList [VObj [("id", VStr "1"); ("from", VStr "/users/"); ("__typename", VStr "User")];
                     VObj [("id", VStr "2"); ("from", VStr "/posts/"); ("__typename", VStr "Post")];
                     VObj [("id", VStr "3"); ("from", VStr "/users/"); ("__typename", VStr "User")]]), ["/users/3"; "/posts/2"; "/users/1"]) /\
  (exists msg, answer_of f82 [] [] None "_entities" [repr "User" "1"; repr "Query" "2"] = Some (Err (EEntity msg), [])) /\
  answer_of f82 [] [] None "_service" [] = Some (Ok (VObj [("sdl", VStr ("Post Query User" ++ federation_link))]), []) /\
  answer_of f82 [] [] None "a" [] = Some (Ok (VStr "/a"), ["/a"]).
Proof. split; [vm_compute; reflexivity|]. split; [eexists; vm_compute; reflexivity|]. split; vm_compute; reflexivity. Qed.

(** ** Findings *)
(** A query type with a renamed or an added field is refused with federation on, though every part of it can be made. *)
Theorem C82_renamed_refuted : exists c c' tq fields defs,
  federated c /\ (forall n, is_entity c n -> exists e, entity fcompile c n e) /\ served c [] [] = Some (c', tq, fields, defs) /\
  In "b" (map (fun d => d_name d) fields) /\
  update_federation fcompile fprint c' "Query" defs = Err [Build_cause ["federation"] (Other "Cannot find field b in the type")].
Proof.
  exists (fquery None [("a", xrename "b" (xf (xn "String") [http "/a"]))]). eexists _, _, _, _. split; [reflexivity|]. split.
  - intros n (t & r & Ft & R). exists (IIO (match r with RHttp _ u => u | _ => "" end)), t, r. split; [exact Ft|]. split; [exact R|]. apply (oget_in scmp scmp_order) in Ft. cbn in Ft. repeat (destruct Ft as [I|Ft]; [injection I as <- <-; cbn in R; try discriminate; injection R as <-; reflexivity|]). destruct Ft.
  - split; [vm_compute; reflexivity|]. split; [cbn; auto|]. vm_compute. reflexivity.
Qed.
Print Assumptions C82_renamed_refuted.
Theorem C82_added_refuted : exists c added c' tq fields defs,
  federated c /\ served c [] added = Some (c', tq, fields, defs) /\ In "name" (map (fun d => d_name d) fields) /\
  update_federation fcompile fprint c' "Query" defs = Err [Build_cause ["federation"] (Other "Cannot find field name in the type")].
Proof.
  exists (fquery None [("user", xf (xn "User") [http "/u"])]), [{| af_name := "name"; af_path := ["user"; "from"] |}]. eexists _, _, _, _. split; [reflexivity|].
  split; [vm_compute; reflexivity|]. split; [cbn; auto|]. vm_compute. reflexivity.
Qed.
Print Assumptions C82_added_refuted.

(** A query type that is protected as a whole: its own fields are refused to a request without credentials, but the
    entities and the schema are given to everyone. *)
Theorem C82_protected_refuted : exists c ps t, federated c /\ find_type c "Query" = Some t /\ t_protected t <> None /\
  answer_of c ps [] None "a" [] = Some (Err (EAuth EMissing), []) /\
  (exists v, answer_of c ps [] None "_entities" [repr "User" "1"] = Some (Ok v, ["/users/1"])) /\
  (exists v, answer_of c ps [] None "_service" [] = Some (Ok v, [])).
Proof.
  exists (fquery (Some {| prot_id := None |}) [("a", xf (xn "String") [http "/a"])]), [(None, PBasic "p")]. eexists. split; [reflexivity|]. split; [reflexivity|]. split; [discriminate|].
  split; [vm_compute; reflexivity|]. split; eexists; vm_compute; reflexivity.
Qed.
Print Assumptions C82_protected_refuted.
